(** * Proofs about the per-layer mask commitment (vpdR.cpp) *)
From Coq Require Import ZArith List Bool Arith Lia.
From Verif Require Import Base Limbs Field FieldProofs Fp VpdGroup VpdInput VpdGroupProofs VpdR.
Import ListNotations.
Open Scope nat_scope.

Lemma rem_mul_fz : forall a b, Z.rem (fz a * fz b) P = fz (a * b)%F.
Proof.
  intros a b. apply rem_fz; [apply Z.mul_nonneg_nonneg; apply fz_pos|]. rewrite ofZ_mul, !ofZ_fz. reflexivity.
Qed.
Lemma rem_add_fz : forall a b, Z.rem (fz a + fz b) P = fz (a + b)%F.
Proof.
  intros a b. apply rem_fz; [apply Z.add_nonneg_nonneg; apply fz_pos|]. rewrite ofZ_add, !ofZ_fz. reflexivity.
Qed.

Lemma mul_1_l : forall x, (F1 * x = x)%F. Proof. intro x. change F1 with 1%F. ring. Qed.
Ltac struct := repeat match goal with
  | |- Ok _ = Ok _ => f_equal | |- (_, _) = (_, _) => f_equal | |- _ :: _ = _ :: _ => f_equal
  | |- andb _ _ = andb _ _ => f_equal | |- gt_eqb _ _ = gt_eqb _ _ => f_equal end; try reflexivity; try ring.

Definition keyR_of (a s0 s1 s2 : F) : keyR :=
  KeyR (fz a) (precompute gen1) (precompute gen2) a
    [1; s0; s0 * s0; s1; s1 * s1; s0 * s1; s2]%F [s0; s1; s2].
Lemma R_keygen_ok : forall a s0 s1 s2,
  R_keygen (fz a) (fz s0) (fz s1) (fz s2) = Ok (keyR_of a s0 s1 s2).
Proof.
  intros a s0 s1 s2. unfold R_keygen, keyR_of. rewrite vuint_fz. cbn [bind].
  rewrite !rem_mul_fz. rewrite !pre_exp_fz. cbn [bind]. rewrite gmul_fz.
  unfold gen1, gen2. rewrite !mul_1_l. reflexivity.
Qed.

Definition valR (c0 c1 c2 c3 c4 c5 x y : F) : F :=
  (c0 + c1 * x + c2 * (x * x) + c3 * y + c4 * (y * y) + c5 * (x * y))%F.
Lemma R_commit_ok : forall a s0 s1 s2 c0 c1 c2 c3 c4 c5 rf,
  let d := (valR c0 c1 c2 c3 c4 c5 s0 s1 + rf * s2)%F in
  R_commit (keyR_of a s0 s1 s2) (map fz [c0; c1; c2; c3; c4; c5]) (fz rf) = Ok (d, (d * a)%F).
Proof.
  intros. unfold R_commit. cbn [map app length for_ rd nth_error bind keyR_of kr_pub_g1 kr_a].
  rewrite !fix_neg_z_fz, !vuint_fz. cbn [bind]. rewrite !gmul_fz.
  assert (E : (gmul gen1 0 + 1 * c0 + s0 * c1 + s0 * s0 * c2 + s1 * c3 + s1 * s1 * c4 + s0 * s1 * c5 + s2 * rf)%F = d).
  { rewrite gmul_0. unfold d, valR. ring. }
  rewrite E. reflexivity.
Qed.

Definition witR (c1 c2 c3 c4 c5 rf t0 t1 r0 r1 s0 s1 s2 : F) : list F :=
  [c2 * r0 + c1 + s0 * c2 + s1 * c5 + s2 * t0;
   c5 * r0 + c4 * r1 + c3 + s1 * c4 + s2 * t1;
   rf + r0 * t0 + r1 * t1 - s0 * t0 - s1 * t1]%F.
Lemma R_prove_ok : forall a s0 s1 s2 c0 c1 c2 c3 c4 c5 rf t0 t1 r0 r1,
  let w := witR c1 c2 c3 c4 c5 rf t0 t1 r0 r1 s0 s1 s2 in
  R_prove (keyR_of a s0 s1 s2) [fz r0; fz r1] (map fz [c0; c1; c2; c3; c4; c5]) (fz rf) (fz t0) (fz t1)
  = Ok (fz (valR c0 c1 c2 c3 c4 c5 r0 r1), w, map (fun x => (x * a)%F) w).
Proof.
  intros. unfold R_prove. cbn [map app rd nth_error bind keyR_of kr_pub_g1 kr_a kr_g1_pre].
  rewrite !fix_neg_z_fz, !vuint_fz. cbn [bind]. rewrite !rem_mul_fz.
  assert (N : forall x, (0 <= fz x)%Z) by apply fz_pos.
  assert (E0 : Z.rem (fz c2 * fz r0 + fz c1) P = fz (c2 * r0 + c1)%F).
  { apply rem_fz; [pose proof (Z.mul_nonneg_nonneg _ _ (N c2) (N r0)); specialize (N c1); lia|].
    rewrite ofZ_add, ofZ_mul, !ofZ_fz. reflexivity. }
  assert (E1 : Z.rem (fz c5 * fz r0 + fz c4 * fz r1 + fz c3) P = fz (c5 * r0 + c4 * r1 + c3)%F).
  { apply rem_fz; [pose proof (Z.mul_nonneg_nonneg _ _ (N c5) (N r0));
      pose proof (Z.mul_nonneg_nonneg _ _ (N c4) (N r1)); specialize (N c3); lia|].
    rewrite !ofZ_add, !ofZ_mul, !ofZ_fz. reflexivity. }
  assert (E2 : Z.rem (fz rf + fz (r0 * t0)%F + fz (r1 * t1)%F) P = fz (rf + r0 * t0 + r1 * t1)%F).
  { apply rem_fz; [pose proof (N rf); pose proof (N (r0 * t0)%F); pose proof (N (r1 * t1)%F); lia|].
    rewrite !ofZ_add, !ofZ_fz. reflexivity. }
  rewrite E0, E1, E2, !pre_exp_fz. cbn [bind]. rewrite !gmul_fz.
  match goal with |- context [Z.rem ?e P] =>
    assert (E3 : Z.rem e P = fz (valR c0 c1 c2 c3 c4 c5 r0 r1)) end.
  { apply rem_fz.
    - pose proof (N c0). pose proof (N (c1 * r0)%F). pose proof (N (c2 * (r0 * r0))%F).
      pose proof (N (c3 * r1)%F). pose proof (N (c4 * (r1 * r1))%F). pose proof (N (c5 * (r0 * r1))%F). lia.
    - rewrite !ofZ_add, !ofZ_fz. reflexivity. }
  rewrite E3, fix_neg_z_fz. unfold w, witR. cbn [map]. unfold gen1. rewrite !mul_1_l. struct.
Qed.

Lemma R_verify_eq : forall a s0 s1 s2 r0 r1 d ans w0 w1 w2 wa0 wa1 wa2,
  R_verify (keyR_of a s0 s1 s2) [fz r0; fz r1] d (fz ans) [w0; w1; w2] [wa0; wa1; wa2]
  = Ok ((gt_eqb wa0 (a * w0)%F && gt_eqb wa1 (a * w1)%F)
        && gt_eqb (d - ans)%F ((s0 - r0) * w0 + (s1 - r1) * w1 + s2 * w2)%F).
Proof.
  intros. unfold R_verify.
  cbn [length Nat.add for_ rd nth_error bind keyR_of kr_g2a kr_pub_g2 kr_g1_pre kr_g2_pre].
  rewrite !pre_exp_fz. cbn [bind]. change (0 <? 2) with true. change (1 <? 2) with true. change (2 <? 2) with false.
  cbv iota. cbn [bind]. rewrite ?pre_exp_fz. cbn [bind]. rewrite andb_true_l. unfold pairing, gen1, gen2. rewrite !mul_1_l.
  struct.
Qed.

Theorem R_complete : forall a s0 s1 s2 c0 c1 c2 c3 c4 c5 rf t0 t1 r0 r1, 
  let K := keyR_of a s0 s1 s2 in
  exists d da w wa,
  R_commit K (map fz [c0; c1; c2; c3; c4; c5]) (fz rf) = Ok (d, da) /\ R_check_commit K d da = true /\
  R_prove K [fz r0; fz r1] (map fz [c0; c1; c2; c3; c4; c5]) (fz rf) (fz t0) (fz t1)
    = Ok (fz (valR c0 c1 c2 c3 c4 c5 r0 r1), w, wa) /\
  R_verify K [fz r0; fz r1] d (fz (valR c0 c1 c2 c3 c4 c5 r0 r1)) w wa = Ok true.
Proof.
  intros. do 4 eexists. split; [apply R_commit_ok|]. split; [apply gt_eqb_refl; unfold pairing, gen2; rewrite mul_1_l; cbn [K keyR_of kr_g2a]; ring|].
  split; [apply R_prove_ok|]. unfold witR. cbn [map]. unfold K. rewrite R_verify_eq. f_equal.
  rewrite !andb_true_iff. split; [split|]; apply gt_eqb_refl; unfold valR; ring.
Qed.

(** The last proof element is not compared with its copy. *)
Lemma R_last_unchecked : forall a s0 s1 s2 c0 c1 c2 c3 c4 c5 rf t0 t1 r0 r1 x,
  let K := keyR_of a s0 s1 s2 in
  exists d da w0 w1 w2 wa0 wa1 wa2,
  R_commit K (map fz [c0; c1; c2; c3; c4; c5]) (fz rf) = Ok (d, da) /\
  R_prove K [fz r0; fz r1] (map fz [c0; c1; c2; c3; c4; c5]) (fz rf) (fz t0) (fz t1)
    = Ok (fz (valR c0 c1 c2 c3 c4 c5 r0 r1), [w0; w1; w2], [wa0; wa1; wa2]) /\
  R_verify K [fz r0; fz r1] d (fz (valR c0 c1 c2 c3 c4 c5 r0 r1)) [w0; w1; w2] [wa0; wa1; x] = Ok true.
Proof.
  intros. do 8 eexists. split; [apply R_commit_ok|].
  split; [apply R_prove_ok|]. unfold K. rewrite R_verify_eq. f_equal.
  rewrite !andb_true_iff. split; [split|]; apply gt_eqb_refl; unfold valR; ring.
Qed.
