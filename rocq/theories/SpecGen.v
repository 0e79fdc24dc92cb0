(** * Specification of the matrix-multiplication generators *)
From Coq Require Import ZArith List.
Open Scope Z_scope.

Fixpoint sumz (n : nat) (f : nat -> Z) : Z := match n with O => 0 | S k => sumz k f + f k end.
(** Entry [i], [j] of the product of two [n] x [n] matrices. *)
Definition mat_mul (n : nat) (A B : nat -> nat -> Z) (i j : nat) : Z := sumz n (fun t => A i t * B t j).
(** Results of rand(). *)
Definition rand_seq (rnd : nat -> Z) : Prop := forall i, 0 <= rnd i < 2 ^ 31.
