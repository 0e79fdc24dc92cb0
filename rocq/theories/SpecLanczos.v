(** * The separable filter of the Lanczos test *)
From Coq Require Import ZArith List Arith.
From Verif Require Import Fp.
Import ListNotations.

(** Coefficients [k] for the distances from the centre, on both sides; the window of pixels
    is weighted in both directions. *)
Definition lanczos (k : list F) (pix : nat -> nat -> F) : F :=
  let w := rev k ++ k in
  sumn (length w) (fun y => nth y w 0 * sumn (length w) (fun x => nth x w 0 * pix y x))%F.
