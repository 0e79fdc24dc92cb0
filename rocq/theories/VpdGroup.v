(** * The pairing groups and exponentiation helpers of src/VPD

    The code uses the ate-pairing library only through point addition and
    subtraction, multiplication of a point by an integer, the pairing and
    equality tests.  The groups have prime order [P] (the constant [p] of
    environment_init, vpdR.cpp:232), so each is isomorphic to the residues
    modulo [P], with the pairing of [x g2] and [y g1] being [x y e(g2, g1)].
    The model takes these residues as the groups: a point stands for its
    discrete logarithm.  The target group is written additively ([ea4 *= temp]
    is an addition, [ea4 = 1] is zero).  The curve arithmetic itself is not
    modelled.

    [mpz_class] is [Z]; its [%] truncates, which is [Z.rem]. *)
From Coq Require Import ZArith List Bool Arith.
From Verif Require Import Base Limbs Field Fp.
Import ListNotations.
Open Scope nat_scope.

Definition G1 := F.
Definition G2 := F.
Definition GT := F.
Definition gen1 : G1 := F1.
Definition gen2 : G2 := F1.
(** [opt_atePairing(e, x, y)] *)
Definition pairing (x : G2) (y : G1) : GT := Fmul x y.
(** Point times integer. *)
Definition gmul (x : F) (n : Z) : F := Fmul x (ofZ n).
Definition gt_eqb (x y : GT) : bool := (fz x =? fz y)%Z.

(** [mpz_sizeinbase(n, 2)]: number of bits of [|n|], and 1 for zero. *)
Definition sizeinbase2 (n : Z) : nat := if (n =? 0)%Z then 1 else S (Z.to_nat (Z.log2 (Z.abs n))).
(** [mie::Vuint temp(n.get_str().c_str())]: defined for non-negative [n] only. *)
Definition vuint (n : Z) : outcome Z := if (n <? 0)%Z then UB else Ok n.

(** vpdR.cpp:33-42, vpd_test.cpp:35-44, inputvpd.cpp:55-65: [pre[i] = 2^i g], 512 entries. *)
Fixpoint doublings (n : nat) (x : F) : list F :=
  match n with O => [] | S n' => x :: doublings n' (Fadd x x) end.
Definition precompute (g : F) : list F := doublings 512 g.
(** vpdR.cpp:44-54, vpd_test.cpp:46-56, inputvpd.cpp:67-76 *)
Definition pre_exp (pre : list F) (n : Z) : outcome F :=
  x0 <- rd pre 0 ;;
  for_ (sizeinbase2 n) 0 (fun i temp =>
    if Z.testbit n (Z.of_nat i) then x <- rd pre i ;; Ok (Fadd temp x) else Ok temp) (gmul x0 0).

(** [x * n] for an [mpz_class] converted through [mie::Vuint]. *)
Definition gmulz (x : F) (n : Z) : outcome F := n <- vuint n ;; Ok (gmul x n).
(** [if(c < 0) c += p] over a vector. *)
Definition fix_neg_z (c : Z) : Z := if (c <? 0)%Z then (c + P)%Z else c.
