(** * Specification of the remaining modes of the circuit generator *)
From Coq Require Import ZArith List.
From Verif Require Import Fp.

(** [c] times: every entry is combined with entry 0 by [a + b - 2ab], exclusive or on bits. *)
Fixpoint xor_first (c : nat) (x : nat -> F) (j : nat) : F :=
  match c with
  | O => x j
  | S c' => (xor_first c' x j + xor_first c' x 0 - (1 + 1) * xor_first c' x j * xor_first c' x 0)%F
  end.
