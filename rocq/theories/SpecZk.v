(** * Specification vocabulary for the zero-knowledge protocol

    Independent of the code. *)
From Coq Require Import ZArith List Bool Arith.
From Verif Require Import Fp MleSpec Circuit FastProverProofs SpecVpd.
Import ListNotations.
Open Scope F_scope.

(** ** Predicates of a layer *)
(** A gate type with one left and one right input, at the points [Ru], [Rv]. *)
Definition zwiring (L : layer) (ty : Z) (W : nat -> F) (Ru Rv : list F) : F :=
  sumn (2 ^ bit_length L) (fun k => let g := gate_at L k in
    ind (g_ty g =? ty)%Z * (W k * eqw Ru (Z.to_nat (g_u g)) * eqw Rv (Z.to_nat (g_v g)))).
(** Sums over the positions [u], ..., [v - 1]. *)
Definition zwiring_range (L : layer) (W : nat -> F) (Ru Rv : list F) : F :=
  sumn (2 ^ bit_length L) (fun k => let g := gate_at L k in
    ind (g_ty g =? 5)%Z * (W k * sumn (Z.to_nat (g_v g) - Z.to_nat (g_u g))
                                   (fun j => eqw Ru (Z.to_nat (g_u g) + j)%nat * eqw Rv 0))).
(** Sums over the positions [u], ..., [v] weighted by powers of two. *)
Definition zwiring_exp (L : layer) (W : nat -> F) (Ru Rv : list F) : F :=
  sumn (2 ^ bit_length L) (fun k => let g := gate_at L k in
    ind (g_ty g =? 12)%Z * (W k * sumn (Z.to_nat (g_v g) + 1 - Z.to_nat (g_u g))
                                   (fun j => Fpow (1 + 1) j * (eqw Ru (Z.to_nat (g_u g) + j)%nat * eqw Rv 0)))).
(** The types with one left and one right input. *)
Definition two_input_types : list Z := [0; 1; 6; 7; 8; 9; 10; 13]%Z.

(** The same layer without the flag that marks repeated blocks. *)
Definition unblocked (L : layer) : layer :=
  Layer (gates L) (bit_length L) false (block_size L) (log_block_size L) (repeat_num L) (log_repeat_num L).

(** ** Masks *)
(** Vanishes on points with a 0/1 coordinate. *)
Definition vanishing (R : list F) : F := prodn (length R) (fun j => nth j R 0 * (1 - nth j R 0)).
(** The mask with coefficients [mk] summed over its second variable. *)
Definition mask_sum (mk : list F) (x : F) : F :=
  poly_R (fun i => nth i mk 0) x 0 + poly_R (fun i => nth i mk 0) x 1.
(** The masked extension of [V]. *)
Definition masked_value (V : nat -> F) (mk R : list F) : F :=
  mle R V + vanishing R * mask_sum mk (last R 0).

(** Two sets of masks have the same size: there are maps between them that are
    inverse to each other. *)
Definition same_size (n : nat) (A B : list F -> Prop) : Prop := exists h k : list F -> list F,
  (forall x, length x = n -> A x -> length (h x) = n /\ B (h x) /\ k (h x) = x) /\
  (forall y, length y = n -> B y -> length (k y) = n /\ A (k y) /\ h (k y) = y).

(** The gate types of the sumcheck of the zk protocol (above the copy layer). *)
Definition provable (g : gate) : Prop :=
  In (g_ty g) [0;1;2;5;6;7;8;9;10;13]%Z \/ (g_ty g = 12 /\ g_v g - g_u g + 1 <= 63)%Z.
