(** * Specification of the depth computation *)
From Coq Require Import ZArith List.
From Verif Require Import Depth.
Import ListNotations.
Open Scope Z_scope.

(** Inputs, inner gates and outputs of a described circuit. *)
Inductive node := NI (i : Z) | NV (v : Z) | NO (o : Z).
(** [wire_of l a b]: line [l] lets gate [b] read [a]. *)
Definition wire_of (l : pline) (a b : node) : Prop :=
  match l with
  | LBin _ t x y => b = NV t /\ (a = NV x \/ a = NV y)
  | LMulConst t _ x => b = NV t /\ a = NV x
  | LConst _ _ => False
  | LInput t i => b = NV t /\ a = NI i
  | LOutput o x => b = NO o /\ a = NV x
  | LPass t x _ => b = NV t /\ a = NV x
  | LSum t x y => b = NV t /\ exists v, x <= v <= y /\ a = NV v
  end.
Definition wire (L : list pline) (a b : node) : Prop := exists l, In l L /\ wire_of l a b.
(** [path E a k b]: [k] steps lead from [a] to [b]. *)
Inductive path {A : Type} (E : A -> A -> Prop) : A -> nat -> A -> Prop :=
| path_nil : forall a, path E a 0 a
| path_cons : forall a b k c, E a b -> path E b k c -> path E a (S k) c.
Definition is_input (L : list pline) (a : node) : Prop := exists t i, In (LInput t i) L /\ a = NI i.
(** A path through [n] gates, inputs counted. *)
Definition has_depth (L : list pline) (n : Z) : Prop := exists a k b, is_input L a /\ path (wire L) a k b /\ n = Z.of_nat k + 1.
(** All paths from inputs to the same gate are equally long. *)
Definition layered (L : list pline) : Prop := forall a a' k k' b, is_input L a -> is_input L a' ->
  path (wire L) a k b -> path (wire L) a' k' b -> k = k'.
(** Lines that the program reads as meant, with numbers that do not collide. *)
Definition plain_line (l : pline) : Prop :=
  match l with
  | LBin _ t a b => 0 <= t < 500000 /\ 0 <= a < 500000 /\ 0 <= b < 500000
  | LConst _ _ => True
  | LInput t i => 0 <= t < 500000 /\ 0 <= i < 500000
  | LOutput o a => 0 <= o < 2000000 /\ 0 <= a < 500000
  | _ => False
  end.
(** Lines with a gate of degree two. *)
Definition quadratic (l : pline) : bool :=
  match l with LBin OpMul _ _ _ | LBin OpXor _ _ _ | LBin OpNaab _ _ _ => true | _ => false end.
(** Every operand is defined by an earlier line or is an input. *)
Fixpoint ordered (known : list Z) (L : list pline) : Prop :=
  match L with
  | [] => True
  | l :: L' =>
      match l with
      | LBin _ t a b | LPass t a b => In a known /\ In b known /\ ~ In t known /\ ordered (t :: known) L'
      | LMulConst t _ a => In a known /\ ~ In t known /\ ordered (t :: known) L'
      | LConst t _ | LInput t _ => ~ In t known /\ ordered (t :: known) L'
      | LOutput _ a => In a known /\ ordered known L'
      | LSum t a b => (forall v, a <= v <= b -> In v known) /\ ~ In t known /\ ordered (t :: known) L'
      end
  end.
