(** * The gate counter and depth computation for circuit descriptions

    parser.cpp.  Matching of a line against the regular expressions is not modelled: a
    line is given by its kind and numbers.  Everything else, including the values that
    sscanf does not assign, follows the program. *)
From Coq Require Import ZArith List Bool Arith.
From Verif Require Import Base.
Import ListNotations.
Open Scope Z_scope.

(** Lines 61-67 with two operands. *)
Inductive bin_op := OpAdd | OpMul | OpXor | OpNaab | OpMinus | OpNot.
(** Lines 61-72: "P V[t] = ...". *)
Inductive pline :=
| LBin (op : bin_op) (t a b : Z)
| LMulConst (t c a : Z)
| LConst (t c : Z)
| LInput (t i : Z)
| LOutput (o a : Z)
| LPass (t a b : Z)
| LSum (t a b : Z).

(** Lines 9-29 *)
Definition Maxn : Z := 3000000.
Record graph := Graph { g_head : Z -> Z; g_next : Z -> Z; g_no : Z -> Z; g_tot : Z }.
Definition upd (f : Z -> Z) (k v : Z) : Z -> Z := fun i => if i =? k then v else f i.
(** Lines 16-21 *)
Definition graph_init : graph := Graph (fun _ => 0) (fun _ => 0) (fun _ => 0) 2.
(** Lines 22-28; the three arrays have [Maxn] = Maxm cells. *)
Definition graph_add (x y : Z) (g : graph) : outcome graph :=
  if (0 <=? x) && (x <? Maxn) && (g_tot g <? Maxn)
  then Ok (Graph (upd (g_head g) x (g_tot g)) (upd (g_next g) (g_tot g) (g_head g x)) (upd (g_no g) (g_tot g) y) (g_tot g + 1))
  else UB.

(** The variables of main: the graph, src1, input_gates, tot_gates, deg2_gates. *)
Record pst := Pst { p_g : graph; p_src1 : Z; p_in : list Z; p_tot : Z; p_deg2 : Z }.
Definition pst_init : pst := Pst graph_init 0 [] 0 0.
Definition deg2 (op : bin_op) : Z := match op with OpMul | OpXor | OpNaab => 1 | _ => 0 end.
(** Lines 78-166 for one line.  The format of line 97 has "+" where the text has "*", so [src1] keeps its old value. *)
Definition read_line (l : pline) (s : pst) : outcome pst :=
  match l with
  | LBin op t a b =>
      g <- graph_add a t (p_g s) ;; g <- graph_add b t g ;;
      Ok (Pst g b (p_in s) (p_tot s + 1) (p_deg2 s + deg2 op))
  | LMulConst t c a =>
      g <- graph_add (p_src1 s) t (p_g s) ;;
      Ok (Pst g (p_src1 s) (p_in s) (p_tot s + 1) (p_deg2 s))
  | LConst t c => Ok (Pst (p_g s) (p_src1 s) (p_in s) (p_tot s + 1) (p_deg2 s))
  | LInput t i =>
      g <- graph_add (i + 500000) t (p_g s) ;;
      Ok (Pst g (p_src1 s) (p_in s ++ [i + 500000]) (p_tot s + 1) (p_deg2 s))
  | LOutput o a =>
      g <- graph_add a (o + 1000000) (p_g s) ;;
      Ok (Pst g (p_src1 s) (p_in s) (p_tot s + 1) (p_deg2 s))
  | LPass t a b =>
      g <- graph_add a (t + 1000000) (p_g s) ;;
      Ok (Pst g b (p_in s) (p_tot s + 1) (p_deg2 s))
  | LSum t a b => Ok (Pst (p_g s) (p_src1 s) (p_in s) (p_tot s + 1) (p_deg2 s))
  end.
Definition read_lines (L : list pline) (s : pst) : outcome pst := fold_left (fun a l => s <- a ;; read_line l s) L (Ok s).

(** Line 49: the targets [G.No[i]] for [i = G.head[x]; i; i = G.Next[i]].  The search does not change the graph. *)
Fixpoint chain (f : nat) (g : graph) (i : Z) : outcome (list Z) :=
  match f with
  | O => NoFuel
  | S f => if i =? 0 then Ok [] else l <- chain f g (g_next g i) ;; Ok (g_no g i :: l)
  end.
Definition succs (g : graph) (x : Z) : outcome (list Z) := chain (Z.to_nat (g_tot g)) g (g_head g x).
(** The arrays visit and mx_depth. *)
Definition search := ((Z -> Z) * Z)%type.
(** Lines 40-54; [f] bounds the depth of the recursion. *)
Fixpoint dfs (f : nat) (g : graph) (x depth : Z) (s : search) : outcome search :=
  match f with
  | O => NoFuel
  | S f =>
      if (0 <=? x) && (x <? Maxn) then
        let (visit, mx) := s in
        if visit x =? 0 then
          let mx := if mx <? depth then depth else mx in
          l <- succs g x ;;
          fold_left (fun a y => s <- a ;; dfs f g y (depth + 1) s) l (Ok (upd visit x depth, mx))
        else Ok s
      else UB
  end.
(** Lines 56-175: the three printed numbers *)
Definition depth_main (f : nat) (L : list pline) : outcome (Z * Z * Z) :=
  s <- read_lines L pst_init ;;
  ' (_, mx) <- fold_left (fun a x => r <- a ;; dfs f (p_g s) x 1 r) (p_in s) (Ok (fun _ => 0, 0)) ;;
  Ok (mx, p_tot s, p_deg2 s).
