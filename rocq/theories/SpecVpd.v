(** * Specification vocabulary for the commitment properties

    Independent of the code: reduced integers, multilinear polynomials given by
    coefficients and the polynomial that masks the sum-check. *)
From Coq Require Import ZArith List Bool Arith.
From Verif Require Import Limbs Field Fp MleSpec.
Import ListNotations.
Open Scope nat_scope.

(** Canonical representatives. *)
Definition red (z : Z) : Prop := (0 <= z < P)%Z.
(** Entry [i] of an integer list, as a field element. *)
Definition ent (l : list Z) (i : nat) : F := ofZ (nth i l 0%Z).

(** Product of the variables [x i] with bit [i] of [j] set. *)
Definition monomial (n : nat) (x : nat -> F) (j : nat) : F :=
  prodn n (fun i => if Nat.testbit j i then x i else 1%F).
(** The multilinear polynomial in [n] variables with coefficient [c j] at monomial [j]. *)
Definition coef_poly (n : nat) (c x : nat -> F) : F := sumn (2 ^ n) (fun j => c j * monomial n x j)%F.

(** Six coefficients, two variables. *)
Definition poly_R (c : nat -> F) (x y : F) : F :=
  (c 0%nat + c 1%nat * x + c 2%nat * (x * x) + c 3%nat * y + c 4%nat * (y * y) + c 5%nat * (x * y))%F.

(** The sum-check mask in [d] variables: for each variable a square and a linear
    term, a constant, and terms of degree 5, 4 and 3 in the variables number
    [d/2 - 1] and [d - 2]. *)
Definition mask_poly (d : nat) (c x : nat -> F) : F :=
  let u := x (d / 2 - 1) in let v := x (d - 2) in
  (sumn d (fun i => c (2 * i)%nat * (x i * x i) + c (2 * i + 1)%nat * x i) + c (2 * d)%nat
   + (c (2 * d + 1)%nat * Fpow u 5 + c (2 * d + 2)%nat * Fpow u 4 + c (2 * d + 3)%nat * Fpow u 3)
   + (c (2 * d + 4)%nat * Fpow v 5 + c (2 * d + 5)%nat * Fpow v 4 + c (2 * d + 6)%nat * Fpow v 3))%F.

(** Linear combination of the first [N] elements of a key. *)
Definition span (N : nat) (pub : list F) (c : nat -> F) : F := sumn N (fun i => c i * nth i pub 0)%F.
