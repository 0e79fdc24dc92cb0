(** * Merkle trees, and runs of a program on wired inputs *)
From Coq Require Import ZArith List Arith.
From Verif Require Import Fp Program SpecCompiler SpecSha.
Import ListNotations.
Open Scope Z_scope.

(** The root of the tree of height [h] over 2^h leaves, which are blocks of sixteen words: a
    node is the hash value, from [H], of a leaf or of the two nodes below it. *)
Fixpoint merkle_root (K H : list Z) (h : nat) (leaves : list (list Z)) : list Z :=
  match h with
  | O => compress K H (hd [] leaves)
  | S h' => compress K H (merkle_root K H h' (firstn (2 ^ h') leaves) ++ merkle_root K H h' (skipn (2 ^ h') leaves))
  end.

(** Variable [s] of the wiring file is routed to the [q]-th output, counted from the least
    output number. *)
Definition routes (w : list rstmt) (q s : Z) : Prop := exists m o v b,
  (In m (out_nums w) /\ forall y, In y (out_nums w) -> m <= y) /\ In (ROut o v) w /\ o - m = q /\ In (RPass v s b) w.
(** [val] is run number [r] of the program, when the variables of the wiring file have the
    values [src]. *)
Definition wired (src : Z -> F) (p : list stmt) (w : list rstmt) (r : nat) (val : Z -> F) : Prop :=
  (forall s, In s p -> holds val s) /\
  forall t i s, In (SIn t i) p -> routes w (Z.of_nat (r * length (inputs p) + rank p t)) s -> val t = src s.
(** The constants of the wiring file have their value. *)
Definition constants (src : Z -> F) (w : list rstmt) : Prop := forall t c, In (RConst t c) w -> src t = ofZ c.
(** All outputs of the program are zero. *)
Definition all_zero (p : list stmt) (val : Z -> F) : Prop := forall o t, In (SOut o t) p -> val t = 0%F.
(** What the compiler puts into variable [s] of the wiring file for a Merkle tree: 34
    constants, then random numbers. *)
Definition given (rnd : nat -> Z) (s : Z) : Z := if s =? 0 then 0 else if s <? 34 then 4 * 2 ^ (s - 1) else rnd (Z.to_nat (s - 34)).
