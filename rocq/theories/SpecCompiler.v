(** * What a program and a wiring file mean

    Independent of the compiler.  A program assigns each of its variables once; run on
    the inputs that the wiring file routes to it, each variable has a field element as
    value.  The wiring file routes the inputs of several runs. *)
From Coq Require Import ZArith List Bool Arith.
From Verif Require Import Fp SpecLoader Program.
Import ListNotations.
Open Scope Z_scope.

(** ** Programs *)
Definition target (s : stmt) : list Z := match s with Op _ t _ _ | Sum t _ _ | SIn t _ => [t] | _ => [] end.
(** The variables a program assigns. *)
Definition targets (p : list stmt) : list Z := flat_map target p.
Definition input_var (s : stmt) : list Z := match s with SIn t _ => [t] | _ => [] end.
Definition inputs (p : list stmt) : list Z := flat_map input_var p.
(** The number of input variables with a smaller number. *)
Definition rank (p : list stmt) (t : Z) : nat := length (filter (fun t' => t' <? t) (inputs p)).
(** Every variable is assigned once, numbers fit an [int], sums have at most 63 terms. *)
Definition prog_ok (p : list stmt) : Prop :=
  NoDup (targets p) /\ forall s, In s p ->
  match s with
  | Op _ _ a b => is_int a /\ is_int b
  | Sum _ a b => is_int a /\ is_int b /\ b - a + 1 <= 63
  | _ => True
  end.
Definition op_val (o : opname) (x y : F) : F :=
  match o with
  | OAdd => x + y
  | OMul => x * y
  | OXor => x + y - (1 + 1) * x * y
  | OMinus => x - y
  | ONaab => (1 - x) * y
  | ONot => 1 - x
  | OBit => x * (1 - y)
  end%F.
(** The values satisfy the equation of a statement. *)
Definition holds (val : Z -> F) (s : stmt) : Prop :=
  match s with
  | Op o t a b => val t = op_val o (val a) (val b)
  | Sum t a b => val t = sumn (Z.to_nat (b + 1 - a)) (fun k => Fpow (1 + 1) k * val (a + Z.of_nat k)%Z)%F
  | _ => True
  end.

(** ** Wiring *)
Definition rtarget (s : rstmt) : list Z := match s with RConst t _ | RIn t _ | RPass t _ _ => [t] | _ => [] end.
Definition sources (w : list rstmt) : list Z := flat_map (fun s => match s with RConst t _ | RIn t _ => [t] | _ => [] end) w.
Definition out_nums (w : list rstmt) : list Z := flat_map (fun s => match s with ROut o _ => [o] | _ => [] end) w.
Definition out_vars (w : list rstmt) : list Z := flat_map (fun s => match s with ROut _ a => [a] | _ => [] end) w.
Definition rins (w : list rstmt) : nat := length (flat_map (fun s => match s with RIn t _ => [t] | _ => [] end) w).
(** Constants, and inputs, which are filled with random numbers in the order of the file. *)
Definition source (rnd : nat -> Z) (w : list rstmt) (s x : Z) : Prop :=
  (exists w1 w2, w = w1 ++ RConst s x :: w2) \/ (exists i w1 w2, w = w1 ++ RIn s i :: w2 /\ x = rnd (rins w1)).
(** A number in the files keeps its low 32 bits, as a signed number, which is then read as
    an unsigned 64-bit number. *)
Definition stored (x : Z) : Z := int32 x mod 2 ^ 64.
(** Every variable is assigned once; a passed variable is a source; each passed variable
    is an output, once, and each output number is used once; numbers fit. *)
Definition wiring_ok (w : list rstmt) : Prop :=
  NoDup (flat_map rtarget w) /\ NoDup (out_nums w) /\ NoDup (out_vars w) /\ forall s, In s w ->
  match s with
  | RConst _ c => is_ll c
  | RPass t a _ => In t (out_vars w) /\ In a (sources w)
  | ROut o a => 0 <= o <= 1061109567 /\ is_int a
  | _ => True
  end.
(** Number [x] is routed to the [q]-th output, counted from the least output number. *)
Definition feeds (rnd : nat -> Z) (w : list rstmt) (q x : Z) : Prop := exists m o v s b,
  (In m (out_nums w) /\ forall y, In y (out_nums w) -> m <= y) /\
  In (ROut o v) w /\ o - m = q /\ In (RPass v s b) w /\ source rnd w s x.

(** [val] is run number [r] of the program on the wired inputs: input variables take
    the inputs in the order of their numbers. *)
Definition run_of (rnd : nat -> Z) (p : list stmt) (w : list rstmt) (r : nat) (val : Z -> F) : Prop :=
  (forall s, In s p -> holds val s) /\
  forall t i x, In (SIn t i) p -> feeds rnd w (Z.of_nat (r * length (inputs p) + rank p t)) x -> val t = ofZ (stored x).

(** ** Programs and wiring that the compiler can place *)
(** Variable [a] is an operand of [s]. *)
Definition uses (s : stmt) (a : Z) : Prop :=
  match s with
  | Op _ _ x y => a = x \/ a = y
  | Sum _ x y => x <= a <= y
  | _ => False
  end.
(** Operands and outputs are assigned on an earlier line, and operands have smaller numbers. *)
Definition ordered (p : list stmt) : Prop := forall p1 s p2, p = p1 ++ s :: p2 ->
  (forall a, uses s a -> In a (targets p1) /\ forall t, target s = [t] -> a < t) /\ (forall o a, s = SOut o a -> In a (targets p1)).
(** [lev] is the length of the longest path from the inputs. *)
Definition levels_of (p : list stmt) (lev : Z -> nat) : Prop := forall s t, In s p -> target s = [t] ->
  (forall a, uses s a -> (lev a < lev t)%nat) /\ (lev t = 0%nat \/ exists a, uses s a /\ lev t = S (lev a)).
(** Both operands of BIT are the same, the operands of a sum are on one level, and numbers fit. *)
Definition regular (p : list stmt) (lev : Z -> nat) : Prop := forall s, In s p ->
  match s with
  | Op o t a b => is_int t /\ (o = OBit -> a = b)
  | Sum t a b => is_int t /\ a <= b /\ forall i, a <= i <= b -> lev i = lev a
  | SIn t i => is_int t /\ is_int i
  | SOut o a => is_int o /\ is_int a
  | SBad => False
  end.
(** Each output is a passed variable, the output numbers are consecutive, and numbers fit. *)
Definition wiring_regular (w : list rstmt) : Prop :=
  (forall x y, In x (out_nums w) -> In y (out_nums w) -> x - y < Z.of_nat (length (out_nums w))) /\ forall s, In s w ->
  match s with
  | RConst t c => is_int t
  | RIn t i => is_int t /\ is_int i
  | RPass t a b => is_int t /\ is_int a /\ is_int b
  | ROut o v => exists a b, In (RPass v a b) w
  | RBad => False
  end.
(** The number of relays for a statement: one for each level between it and an operand.
    (The second operand of NOT is not used.) *)
Definition gaps (lev : Z -> nat) (s : stmt) : nat :=
  match s with
  | Op o t a b => (lev t - lev a - 1) + match o with ONot => 0 | _ => lev t - lev b - 1 end
  | _ => 0
  end.
(** The number of gates of a program. *)
Definition gate_count (p : list stmt) (lev : Z -> nat) : nat := length (targets p) + list_sum (map (gaps lev) p).
