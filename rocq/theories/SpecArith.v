(** * Specification vocabulary for numbers, digit strings and bits

    Independent of the model. *)
From Coq Require Import ZArith List.
Import ListNotations.
Open Scope Z_scope.

(** The number denoted by a string of decimal digits (character codes, most
    significant first). *)
Definition dec_value (s : list Z) : Z := fold_left (fun acc c => 10 * acc + (c - 48)) s 0.
Definition is_digits (s : list Z) : Prop := Forall (fun c => 48 <= c <= 57) s.

(** The number whose binary expansion, least significant bit first, is [l]. *)
Fixpoint bits_value (l : list bool) : Z :=
  match l with [] => 0 | b :: r => (if b then 1 else 0) + 2 * bits_value r end.
