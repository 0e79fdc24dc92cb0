(** * Proofs about the sum-check mask commitment (vpd_test.cpp) *)
From Coq Require Import ZArith List Bool Arith Lia.
From Verif Require Import Base Limbs Field FieldProofs Fp VpdGroup VpdInput VpdGroupProofs VpdRProofs VpdMask.
Import ListNotations.
Open Scope nat_scope.

Lemma nth_upd : forall A (l : list A) i j x, i < length l ->
  nth_error (upd l i x) j = if j =? i then Some x else nth_error l j.
Proof.
  intros A l i j x H. destruct (Nat.eqb_spec j i) as [->|N]; [apply nth_upd_same, H|apply nth_upd_other; congruence].
Qed.
Lemma rb_vuint : forall B a (k : Z -> outcome B) Q, returns (k (fz a)) Q -> returns (bind (vuint (fz a)) k) Q.
Proof. intros B a k Q H. rewrite vuint_fz. exact H. Qed.
Lemma rb_pre_exp : forall B g a (k : F -> outcome B) Q,
  returns (k (g * a)%F) Q -> returns (bind (pre_exp (precompute g) (fz a)) k) Q.
Proof. intros B g a k Q H. rewrite pre_exp_fz. exact H. Qed.
Lemma rem_muladd_fz : forall a b c, Z.rem (fz a * fz b + fz c) P = fz (a * b + c)%F.
Proof.
  intros a b c. apply rem_fz.
  - pose proof (Z.mul_nonneg_nonneg _ _ (fz_pos a) (fz_pos b)). pose proof (fz_pos c). lia.
  - rewrite ofZ_add, ofZ_mul, !ofZ_fz. reflexivity.
Qed.
Lemma rem_addmul_fz : forall a b c, Z.rem (fz c + fz a * fz b) P = fz (c + a * b)%F.
Proof. intros a b c. rewrite Z.add_comm, rem_muladd_fz. f_equal. ring. Qed.

(** The element of the public key at index [m]; [s d] is the blinding variable. *)
Definition pubM (d : nat) (s : nat -> F) (m : nat) : F :=
  if m <? 2 * d then (if Nat.odd m then s (m / 2) else s (m / 2) * s (m / 2))%F
  else if m =? 2 * d then 1%F
  else if m <? 2 * d + 4 then Fpow (s (d / 2 - 1)) (2 * d + 6 - m)
  else if m <? 2 * d + 7 then Fpow (s (d - 2)) (2 * d + 9 - m)
  else s d.
Lemma pubM_odd : forall d s i, i < d -> pubM d s (2 * i + 1) = s i.
Proof.
  intros d s i H. unfold pubM. destruct (Nat.ltb_spec (2 * i + 1) (2 * d)); [|lia].
  replace (Nat.odd (2 * i + 1)) with true by (symmetry; apply Nat.odd_spec; exists i; lia).
  replace ((2 * i + 1) / 2) with i; [reflexivity|]. apply Nat.div_unique with 1; lia.
Qed.
Lemma pubM_even : forall d s i, i < d -> pubM d s (2 * i) = (s i * s i)%F.
Proof.
  intros d s i H. unfold pubM. destruct (Nat.ltb_spec (2 * i) (2 * d)); [|lia].
  replace (Nat.odd (2 * i)) with false by (symmetry; rewrite <- Nat.negb_even; rewrite negb_false_iff; apply Nat.even_spec; exists i; lia).
  replace (2 * i / 2) with i; [reflexivity|]. apply Nat.div_unique with 0; lia.
Qed.
Lemma pubM_c : forall d s, pubM d s (2 * d) = 1%F.
Proof.
  intros d s. unfold pubM. destruct (Nat.ltb_spec (2 * d) (2 * d)); [lia|]. rewrite Nat.eqb_refl. reflexivity.
Qed.
Lemma pubM_b : forall d s, pubM d s (2 * d + 7) = s d.
Proof.
  intros d s. unfold pubM. destruct (Nat.ltb_spec (2 * d + 7) (2 * d)); [lia|].
  destruct (Nat.eqb_spec (2 * d + 7) (2 * d)); [lia|]. destruct (Nat.ltb_spec (2 * d + 7) (2 * d + 4)); [lia|].
  destruct (Nat.ltb_spec (2 * d + 7) (2 * d + 7)); [lia|]. reflexivity.
Qed.
Lemma pubM_u : forall d s m, 2 * d < m < 2 * d + 4 -> pubM d s m = Fpow (s (d / 2 - 1)) (2 * d + 6 - m).
Proof.
  intros d s m H. unfold pubM. destruct (Nat.ltb_spec m (2 * d)); [lia|].
  destruct (Nat.eqb_spec m (2 * d)); [lia|]. destruct (Nat.ltb_spec m (2 * d + 4)); [|lia]. reflexivity.
Qed.
Lemma pubM_v : forall d s m, 2 * d + 4 <= m < 2 * d + 7 -> pubM d s m = Fpow (s (d - 2)) (2 * d + 9 - m).
Proof.
  intros d s m H. unfold pubM. destruct (Nat.ltb_spec m (2 * d)); [lia|].
  destruct (Nat.eqb_spec m (2 * d)); [lia|]. destruct (Nat.ltb_spec m (2 * d + 4)); [lia|].
  destruct (Nat.ltb_spec m (2 * d + 7)); [|lia]. reflexivity.
Qed.

Definition keyM_ok (d : nat) (a : F) (s : nat -> F) (K : keyM) : Prop :=
  km_n K = d /\ km_a K = fz a /\ km_g1_pre K = precompute gen1 /\ km_g2_pre K = precompute gen2 /\ km_g2a K = a /\
  arr (km_pub_g1 K) (2 * d + 8) (pubM d s) /\
  forall i, i <= d -> nth_error (km_pub_g2 K) (2 * i + 1) = Some (s i).

Definition firstM (d i : nat) : bool := (Z.of_nat i =? Z.of_nat (d / 2) - 1)%Z.
Definition secondM (d i : nat) : bool := (Z.of_nat i =? Z.of_nat d - 2)%Z.
Lemma firstM_spec : forall d i, 3 <= d -> firstM d i = (i =? d / 2 - 1).
Proof.
  intros d i H. unfold firstM. assert (1 <= d / 2) by (apply Nat.div_le_lower_bound; lia).
  destruct (Z.eqb_spec (Z.of_nat i) (Z.of_nat (d / 2) - 1)); destruct (Nat.eqb_spec i (d / 2 - 1)); try reflexivity; lia.
Qed.
Lemma secondM_spec : forall d i, 3 <= d -> secondM d i = (i =? d - 2).
Proof.
  intros d i H. unfold secondM.
  destruct (Z.eqb_spec (Z.of_nat i) (Z.of_nat d - 2)); destruct (Nat.eqb_spec i (d - 2)); try reflexivity; lia.
Qed.
Lemma u_lt_v : forall d, 3 <= d -> d / 2 - 1 < d - 2.
Proof. intros d H. assert (d / 2 < d - 1) by (apply Nat.div_lt_upper_bound; lia). lia. Qed.

Lemma M_keygen_ok : forall d a sl s, 3 <= d -> arr sl (d + 1) (fun i => fz (s i)) ->
  returns (M_keygen d (fz a) sl) (keyM_ok d a s).
Proof.
  intros d a sl s Hd As. unfold M_keygen. apply rb_vuint.
  pose proof (u_lt_v d Hd) as UV. set (u := d / 2 - 1) in *. set (v := d - 2) in *.
  set (N := d * 2 + 1 + 6 + 1).
  assert (I0 : forall x : F, (1 * x)%F = x) by (intro; ring).
  apply (returns_bind _ _ _ _ (fun st => length (fst st) = N /\ length (snd st) = N /\
    (forall m, (m < 2 * d \/ 2 * d < m < 2 * d + 7) -> nth_error (fst st) m = Some (pubM d s m)) /\
    (forall m, m < d -> nth_error (snd st) (2 * m + 1) = Some (s m)))).
  - eapply returns_conseq.
    + apply (returns_for _ _ _ _ (fun i st => length (fst st) = N /\ length (snd st) = N /\
        (forall m, (m < 2 * i \/ (u < i /\ 2 * d < m < 2 * d + 4) \/ (v < i /\ 2 * d + 4 <= m < 2 * d + 7)) ->
           nth_error (fst st) m = Some (pubM d s m)) /\
        (forall m, m < i -> nth_error (snd st) (2 * m + 1) = Some (s m)))).
      * cbn [fst snd]. rewrite !repeat_length. split; [reflexivity|]. split; [reflexivity|]. split; intros m Hm; lia.
      * intros i [pg1 pg2] Hi (L1 & L2 & V1 & V2). cbn [fst snd] in *.
        eapply rb_arr; [exact As|lia|]. apply rb_pre_exp. apply rb_wr'; [lia|].
        apply rb_pre_exp. apply rb_wr'; [lia|]. cbv zeta. rewrite !rem_mul_fz.
        apply rb_pre_exp. apply rb_wr'; [rewrite upd_length; lia|].
        change gen1 with 1%F. change gen2 with 1%F. rewrite !I0.
        change ((Z.of_nat i =? Z.of_nat (d / 2) - 1)%Z) with (firstM d i).
        change ((Z.of_nat i =? Z.of_nat d - 2)%Z) with (secondM d i).
        rewrite firstM_spec, secondM_spec by exact Hd. fold u v.
        set (pg := upd (upd pg1 (2 * i + 1) (s i)) (2 * i) (s i * s i)%F).
        assert (Lpg : length pg = N) by (unfold pg; rewrite !upd_length; exact L1).
        assert (Vpg : forall m, (m < 2 * S i \/ (u < i /\ 2 * d < m < 2 * d + 4) \/ (v < i /\ 2 * d + 4 <= m < 2 * d + 7)) ->
           nth_error pg m = Some (pubM d s m)).
        { intros m Hm. unfold pg. rewrite nth_upd by (rewrite upd_length; lia). rewrite nth_upd by lia.
          destruct (Nat.eqb_spec m (2 * i)) as [->|]; [rewrite pubM_even by lia; reflexivity|].
          destruct (Nat.eqb_spec m (2 * i + 1)) as [->|]; [rewrite pubM_odd by lia; reflexivity|].
          apply V1. lia. }
        clearbody pg. clear V1 L1 pg1.
        apply (returns_bind _ _ _ _ (fun pg => length pg = N /\
          forall m, (m < 2 * S i \/ (u < S i /\ 2 * d < m < 2 * d + 4) \/ (v < i /\ 2 * d + 4 <= m < 2 * d + 7)) ->
           nth_error pg m = Some (pubM d s m))).
        { destruct (Nat.eqb_spec i u) as [->|Nu].
          - apply rb_pre_exp. apply rb_wr'; [lia|]. apply rb_pre_exp. apply rb_wr'; [rewrite upd_length; lia|].
            apply rb_pre_exp. rewrite !I0. apply returns_wr; [rewrite !upd_length; lia|].
            split; [rewrite !upd_length; exact Lpg|]. intros m Hm.
            rewrite nth_upd by (rewrite !upd_length; lia). rewrite nth_upd by (rewrite upd_length; lia).
            rewrite nth_upd by lia.
            destruct (Nat.eqb_spec m (2 * d + 3)) as [->|];
              [rewrite pubM_u by lia; fold u; replace (2 * d + 6 - (2 * d + 3)) with 3 by lia; f_equal; cbn [Fpow]; ring|].
            destruct (Nat.eqb_spec m (2 * d + 2)) as [->|];
              [rewrite pubM_u by lia; fold u; replace (2 * d + 6 - (2 * d + 2)) with 4 by lia; f_equal; cbn [Fpow]; ring|].
            destruct (Nat.eqb_spec m (2 * d + 1)) as [->|];
              [rewrite pubM_u by lia; fold u; replace (2 * d + 6 - (2 * d + 1)) with 5 by lia; f_equal; cbn [Fpow]; ring|].
            apply Vpg. lia.
          - apply returns_ok. split; [exact Lpg|]. intros m Hm. apply Vpg. lia. }
        clear pg Lpg Vpg. intros pg [Lpg Vpg].
        apply (returns_bind _ _ _ _ (fun pg => length pg = N /\
          forall m, (m < 2 * S i \/ (u < S i /\ 2 * d < m < 2 * d + 4) \/ (v < S i /\ 2 * d + 4 <= m < 2 * d + 7)) ->
           nth_error pg m = Some (pubM d s m))).
        { destruct (Nat.eqb_spec i v) as [->|Nv].
          - apply rb_pre_exp. apply rb_wr'; [lia|]. apply rb_pre_exp. apply rb_wr'; [rewrite upd_length; lia|].
            apply rb_pre_exp. rewrite !I0. apply returns_wr; [rewrite !upd_length; lia|].
            split; [rewrite !upd_length; exact Lpg|]. intros m Hm.
            rewrite nth_upd by (rewrite !upd_length; lia). rewrite nth_upd by (rewrite upd_length; lia).
            rewrite nth_upd by lia.
            destruct (Nat.eqb_spec m (2 * d + 6)) as [->|];
              [rewrite pubM_v by lia; fold v; replace (2 * d + 9 - (2 * d + 6)) with 3 by lia; f_equal; cbn [Fpow]; ring|].
            destruct (Nat.eqb_spec m (2 * d + 5)) as [->|];
              [rewrite pubM_v by lia; fold v; replace (2 * d + 9 - (2 * d + 5)) with 4 by lia; f_equal; cbn [Fpow]; ring|].
            destruct (Nat.eqb_spec m (2 * d + 4)) as [->|];
              [rewrite pubM_v by lia; fold v; replace (2 * d + 9 - (2 * d + 4)) with 5 by lia; f_equal; cbn [Fpow]; ring|].
            apply Vpg. lia.
          - apply returns_ok. split; [exact Lpg|]. intros m Hm. apply Vpg. lia. }
        clear pg Lpg Vpg. intros pg [Lpg Vpg]. apply returns_ok. cbn [fst snd].
        split; [exact Lpg|]. split; [rewrite upd_length; exact L2|]. split; [exact Vpg|].
        intros m Hm. rewrite nth_upd by lia.
        destruct (Nat.eqb_spec (2 * m + 1) (2 * i + 1)) as [E|]; [replace m with i by lia; reflexivity|].
        apply V2. lia.
    + intros [pg1 pg2] (L1 & L2 & V1 & V2). cbn [fst snd Nat.add] in *. split; [exact L1|]. split; [exact L2|].
      split; [|exact V2]. intros m Hm. apply V1. lia.
  - intros [pg1 pg2] (L1 & L2 & V1 & V2). cbn [fst snd] in *.
    apply rb_wr'; [lia|]. apply rb_wr'; [lia|]. eapply rb_arr; [exact As|lia|].
    apply rb_pre_exp. apply rb_wr'; [rewrite upd_length; lia|]. apply rb_pre_exp. apply rb_wr'; [rewrite upd_length; lia|].
    apply returns_ok. unfold keyM_ok. cbn [km_n km_a km_g1_pre km_g2_pre km_g2a km_pub_g1 km_pub_g2].
    change gen1 with 1%F. change gen2 with 1%F. rewrite !I0.
    split; [reflexivity|]. split; [reflexivity|]. split; [reflexivity|]. split; [reflexivity|].
    split; [rewrite gmul_fz; apply I0|]. split.
    + split; [rewrite !upd_length; lia|]. intros m Hm. rewrite nth_upd by (rewrite upd_length; lia). rewrite nth_upd by lia.
      destruct (Nat.eqb_spec m (2 * d + 7)) as [->|]; [rewrite pubM_b; reflexivity|].
      destruct (Nat.eqb_spec m (2 * d)) as [->|]; [rewrite pubM_c; reflexivity|]. apply V1. lia.
    + intros m Hm. rewrite nth_upd by (rewrite upd_length; lia). rewrite nth_upd by lia.
      destruct (Nat.eqb_spec (2 * m + 1) (2 * d + 1)) as [E|]; [replace m with d by lia; reflexivity|].
      destruct (Nat.eqb_spec (2 * m + 1) (2 * d)) as [E|]; [lia|]. apply V2. lia.
Qed.

(** ** The polynomial and its value *)
Definition deg5 (c : nat -> F) (h : nat) (x : F) : F := (c h * Fpow x 5 + c (h + 1)%nat * Fpow x 4 + c (h + 2)%nat * Fpow x 3)%F.
Definition partM (d : nat) (c : nat -> F) (i : nat) (x : F) : F :=
  (c (2 * i)%nat * (x * x) + c (2 * i + 1)%nat * x
   + (if (i =? d / 2 - 1)%nat then deg5 c (2 * d + 1) x else 0)
   + (if (i =? d - 2)%nat then deg5 c (2 * d + 4) x else 0))%F.
Definition valM (d : nat) (c x : nat -> F) : F := (sumn d (fun i => partM d c i (x i)) + c (2 * d)%nat)%F.

Lemma sumn_pairs : forall n f, sumn (2 * n) f = sumn n (fun i => f (2 * i)%nat + f (2 * i + 1)%nat)%F.
Proof. intros. apply sumn_double. Qed.
Lemma sumn_one : forall n k (f : nat -> F), k < n -> sumn n (fun i => if i =? k then f i else 0%F) = f k.
Proof.
  intros n k f H. rewrite <- (sumn_ind n k f H). apply sumn_ext. intros i _. unfold ind.
  destruct (i =? k); ring.
Qed.
Lemma commit_sum : forall d c s, 3 <= d ->
  sumn (2 * d + 8) (fun i => pubM d s i * c i)%F = (valM d c s + c (2 * d + 7)%nat * s d)%F.
Proof.
  intros d c s Hd. rewrite sumn_app. unfold valM, partM. pose proof (u_lt_v d Hd).
  rewrite !sumn_add. rewrite (sumn_one d (d / 2 - 1) (fun i => deg5 c (2 * d + 1) (s i))) by lia.
  rewrite (sumn_one d (d - 2) (fun i => deg5 c (2 * d + 4) (s i))) by lia.
  rewrite sumn_double.
  rewrite (sumn_ext d _ (fun i => c (2 * i)%nat * (s i * s i) + c (2 * i + 1)%nat * s i)%F).
  2:{ intros i Hi. rewrite pubM_even, pubM_odd by exact Hi. ring. }
  rewrite sumn_add. cbn [sumn]. rewrite Nat.add_0_r, pubM_c.
  rewrite !(pubM_u d s) by lia. rewrite !(pubM_v d s) by lia. rewrite pubM_b.
  replace (2 * d + 6 - (2 * d + 1)) with 5 by lia. replace (2 * d + 6 - (2 * d + 2)) with 4 by lia.
  replace (2 * d + 6 - (2 * d + 3)) with 3 by lia.
  replace (2 * d + 9 - (2 * d + 4)) with 5 by lia. replace (2 * d + 9 - (2 * d + 5)) with 4 by lia.
  replace (2 * d + 9 - (2 * d + 6)) with 3 by lia.
  unfold deg5. replace (2 * d + 1 + 1) with (2 * d + 2) by lia. replace (2 * d + 1 + 2) with (2 * d + 3) by lia.
  replace (2 * d + 4 + 1) with (2 * d + 5) by lia. replace (2 * d + 4 + 2) with (2 * d + 6) by lia. ring.
Qed.

Lemma M_commit_ok : forall d a s K cl c rf, 3 <= d -> keyM_ok d a s K ->
  arr (cl ++ [fz rf]) (2 * d + 8) (fun i => fz (c i)) ->
  let D := (valM d c s + c (2 * d + 7)%nat * s d)%F in
  M_commit K cl (fz rf) = Ok (D, (D * a)%F).
Proof.
  intros d a s K cl c rf Hd (E1 & E2 & E3 & E4 & E5 & A1 & A2) Ac D. apply returns_eq_ok. unfold M_commit.
  rewrite E1, E2. replace (2 * d + 1 + 6 + 1) with (2 * d + 8) by lia.
  eapply (rb_eq _ _ _ D).
  - eapply returns_conseq.
    + apply (returns_for _ _ _ _ (fun i x => x = sumn i (fun i => pubM d s i * c i)%F)).
      * apply gmul_0.
      * intros i x Hi ->. eapply rb_arr; [apply arr_map, Ac|lia|]. cbv beta. rewrite fix_neg_z_fz.
        apply rb_vuint. eapply rb_arr; [exact A1|lia|]. apply returns_ok. rewrite gmul_fz. reflexivity.
    + intros x ->. symmetry. apply commit_sum, Hd.
  - apply rb_vuint. apply returns_ok. rewrite gmul_fz. reflexivity.
Qed.

(** Quotient of [partM d c i] by [x - r]. *)
Definition quo5 (c : nat -> F) (h i : nat) (r x : F) : F :=
  let t1 := c h in
  let t2 := (t1 * r + c (h + 1)%nat)%F in
  let t3 := (t2 * r + c (h + 2)%nat)%F in
  let t4 := (t3 * r + c (2 * i)%nat)%F in
  let t5 := (t4 * r + c (2 * i + 1)%nat)%F in
  (Fpow x 4 * t1 + Fpow x 3 * t2 + x * x * t3 + x * t4 + t5)%F.
Definition quoM (d : nat) (c : nat -> F) (i : nat) (r x : F) : F :=
  if i =? d - 2 then quo5 c (2 * d + 4) i r x
  else if i =? d / 2 - 1 then quo5 c (2 * d + 1) i r x
  else (x * c (2 * i)%nat + c (2 * i)%nat * r + c (2 * i + 1)%nat)%F.
Lemma quoM_ok : forall d c i r x, 3 <= d -> (partM d c i x - partM d c i r = (x - r) * quoM d c i r x)%F.
Proof.
  intros d c i r x Hd. pose proof (u_lt_v d Hd). unfold partM, quoM, quo5, deg5.
  destruct (Nat.eqb_spec i (d - 2)); destruct (Nat.eqb_spec i (d / 2 - 1)); [lia|..]; cbn [Fpow]; ring.
Qed.

Section Prove.
Variables (d : nat) (a : F) (s c : nat -> F) (K : keyM) (cl rl tl : list Z) (r t : nat -> F) (rf : F).
Hypothesis Hd : 3 <= d.
Hypothesis HK : keyM_ok d a s K.
Hypothesis Ac : arr (cl ++ [fz rf]) (2 * d + 8) (fun i => fz (c i)).
Hypothesis Ar : arr rl d (fun i => fz (r i)).
Hypothesis At : arr tl d (fun i => fz (t i)).

Lemma M_witness5_ok : forall h i, i < d ->
  (h = 2 * d + 1 /\ i = d / 2 - 1 \/ h = 2 * d + 4 /\ i = d - 2) ->
  M_witness5 K (cl ++ [fz rf]) h i (fz (r i)) = Ok (quo5 c h i (r i) (s i)).
Proof.
  intros h i Hi Hh. destruct HK as (E1 & E2 & E3 & E4 & E5 & A1 & A2). apply returns_eq_ok. unfold M_witness5.
  do 5 (eapply rb_arr; [exact Ac|lia|]). cbv zeta. apply rb_vuint. rewrite rem_muladd_fz. apply rb_vuint.
  rewrite rem_muladd_fz. apply rb_vuint. rewrite rem_muladd_fz. apply rb_vuint. rewrite rem_muladd_fz.
  do 4 (eapply rb_arr; [exact A1|lia|]). rewrite E3. apply rb_pre_exp. apply returns_ok.
  rewrite !gmul_fz. rewrite pubM_even, pubM_odd by exact Hi.
  assert (P4 : pubM d s (h + 1) = Fpow (s i) 4 /\ pubM d s (h + 2) = Fpow (s i) 3).
  { destruct Hh as [[-> ->]|[-> ->]].
    - rewrite !pubM_u by lia. replace (2 * d + 6 - (2 * d + 1 + 1)) with 4 by lia.
      replace (2 * d + 6 - (2 * d + 1 + 2)) with 3 by lia. split; reflexivity.
    - rewrite !pubM_v by lia. replace (2 * d + 9 - (2 * d + 4 + 1)) with 4 by lia.
      replace (2 * d + 9 - (2 * d + 4 + 2)) with 3 by lia. split; reflexivity. }
  destruct P4 as [-> ->]. unfold quo5. change gen1 with 1%F. ring.
Qed.
Lemma M_witness2_ok : forall i, i < d ->
  M_witness2 K (cl ++ [fz rf]) i (fz (r i)) = Ok (s i * c (2 * i)%nat + c (2 * i)%nat * r i + c (2 * i + 1)%nat)%F.
Proof.
  intros i Hi. destruct HK as (E1 & E2 & E3 & E4 & E5 & A1 & A2). apply returns_eq_ok. unfold M_witness2.
  do 2 (eapply rb_arr; [exact Ac|lia|]). apply rb_vuint. cbv zeta. rewrite rem_mul_fz, fix_neg_z_fz.
  eapply rb_arr; [exact A1|lia|]. rewrite E3. do 2 apply rb_pre_exp. apply returns_ok. rewrite gmul_fz.
  rewrite pubM_odd by exact Hi. change gen1 with 1%F. ring.
Qed.

Definition witM (i : nat) : F :=
  if i <? d then (quoM d c i (r i) (s i) + s d * t i)%F
  else (c (2 * d + 7)%nat + sumn d (fun i => t i * r i) - sumn d (fun i => s i * t i))%F.

Lemma M_ans5_ok : forall h i ans, i < d -> 2 * d + 1 <= h <= 2 * d + 4 ->
  M_ans5 (map fix_neg_z (cl ++ [fz rf])) h i (fz (r i)) (fz ans)
  = Ok (fz (ans + (deg5 c h (r i) + c (2 * i)%nat * (r i * r i) + c (2 * i + 1)%nat * r i))%F).
Proof.
  intros h i ans Hi Hh. apply returns_eq_ok. unfold M_ans5.
  do 5 (eapply rb_arr; [apply arr_map, Ac|lia|]). cbv beta zeta. rewrite !fix_neg_z_fz.
  rewrite !rem_muladd_fz, rem_mul_fz, rem_add_fz. apply returns_ok. f_equal. unfold deg5. cbn [Fpow]. ring.
Qed.

Hypothesis Hbig : (Z.of_nat d < 2 ^ 200)%Z.

Lemma M_prove_ok : returns (M_prove K rl cl (fz rf) tl) (fun res =>
  let '(ans, w, wa) := res in
  ans = fz (valM d c r) /\ length w = d + 1 /\ arr w (d + 1) witM /\ wa = map (fun x => (x * a)%F) w).
Proof.
  pose proof HK as (E1 & E2 & E3 & E4 & E5 & A1 & A2). unfold M_prove. rewrite E1, E2, E3. cbv zeta.
  pose proof (u_lt_v d Hd) as UV.
  eapply rb_arr; [exact A1|lia|]. apply rb_vuint. rewrite pubM_b.
  (* the witness elements *)
  apply (returns_bind _ _ _ _ (fun w => length w = d + 1 /\ forall m, m < d -> nth_error w m = Some (witM m))).
  { eapply returns_conseq.
    - apply (returns_for _ _ _ _ (fun i w => length w = d + 1 /\ forall m, m < i -> nth_error w m = Some (witM m))).
      + split; [apply repeat_length|]. intros; lia.
      + intros i w Hi [L V]. eapply rb_arr; [exact Ar|lia|].
        apply (rb_eq _ _ _ (if firstM d i then quo5 c (2 * d + 1) i (r i) (s i) else F0)).
        { unfold firstM. fold (firstM d i). rewrite firstM_spec by exact Hd.
          destruct (Nat.eqb_spec i (d / 2 - 1)) as [Eu|]; [|apply returns_ok; reflexivity].
          rewrite M_witness5_ok by (try left; lia). apply returns_ok; reflexivity. }
        apply (rb_eq _ _ _ (if secondM d i then quo5 c (2 * d + 4) i (r i) (s i)
                            else if firstM d i then quo5 c (2 * d + 1) i (r i) (s i) else F0)).
        { fold (secondM d i). rewrite secondM_spec by exact Hd.
          destruct (Nat.eqb_spec i (d - 2)) as [Ev|]; [|apply returns_ok; reflexivity].
          rewrite M_witness5_ok by (try right; lia). apply returns_ok; reflexivity. }
        apply (rb_eq _ _ _ (quoM d c i (r i) (s i))).
        { fold (firstM d i) (secondM d i). rewrite firstM_spec, secondM_spec by exact Hd. unfold quoM.
          destruct (Nat.eqb_spec i (d / 2 - 1)), (Nat.eqb_spec i (d - 2)); cbn [negb andb];
            try (apply returns_ok; reflexivity).
          rewrite M_witness2_ok by lia. apply returns_ok; reflexivity. }
        eapply rb_arr; [exact At|lia|]. apply rb_vuint. rewrite gmul_fz. apply returns_wr; [lia|].
        split; [rewrite upd_length; exact L|]. intros m Hm. rewrite nth_upd by lia.
        destruct (Nat.eqb_spec m i) as [->|]; [|apply V; lia]. unfold witM.
        destruct (Nat.ltb_spec i d); [reflexivity|lia].
    - intros w H. exact H. }
  intros w [Lw Vw]. eapply rb_arr; [exact Ac|lia|].
  apply (returns_bind _ _ _ _ (fun tmp => (0 <= tmp < 2 ^ 512)%Z /\
    ofZ tmp = (c (2 * d + 7)%nat + sumn d (fun i => t i * r i))%F)).
  { eapply returns_conseq.
    - apply (returns_for _ _ _ _ (fun i tmp => (0 <= tmp < (Z.of_nat i + 1) * 2 ^ 254)%Z /\
        ofZ tmp = (c (2 * d + 7)%nat + sumn i (fun i => t i * r i))%F)).
      + split; [pose proof (fz_pos (c (2 * d + 7))); pose proof (fz_lt_254 (c (2 * d + 7))); lia|].
        rewrite ofZ_fz. cbn [sumn]. ring.
      + intros i tmp Hi [Bt Et]. eapply rb_arr; [exact At|lia|]. eapply rb_arr; [exact Ar|lia|].
        cbv beta. rewrite rem_mul_fz. apply returns_ok. split.
        * pose proof (fz_pos (t i * r i)%F). pose proof (fz_lt_254 (t i * r i)%F). lia.
        * rewrite ofZ_add, ofZ_fz, Et. cbn [sumn]. ring.
    - intros tmp [Bt Et]. split; [|exact Et]. split; [lia|].
      eapply Z.lt_le_trans; [apply Bt|].
      apply Z.le_trans with (2 ^ 200 * 2 ^ 254)%Z; [apply Z.mul_le_mono_nonneg_r; [discriminate|lia]|].
      vm_compute. discriminate. }
  intros tmp [Bt Et]. apply (rb_eq _ _ _ (c (2 * d + 7)%nat + sumn d (fun i => t i * r i))%F).
  { rewrite pre_exp_ok by exact Bt. apply returns_ok. rewrite Et. change gen1 with 1%F. ring. }
  apply (rb_eq _ _ _ (witM d)).
  { eapply returns_conseq.
    - apply (returns_for _ _ _ _ (fun i x => x =
        (c (2 * d + 7)%nat + sumn d (fun i => t i * r i) - sumn i (fun i => s i * t i))%F)).
      + cbn [sumn]. ring.
      + intros i x Hi ->. eapply rb_arr; [exact At|lia|]. apply rb_vuint.
        eapply rb_arr; [exact A1|lia|]. apply returns_ok. rewrite gmul_fz, pubM_odd by lia. cbn [sumn]. ring.
    - intros x ->. unfold witM. destruct (Nat.ltb_spec d d); [lia|reflexivity]. }
  apply rb_wr'; [lia|].
  apply (rb_eq _ _ _ (fz (sumn d (fun i => partM d c i (r i))))).
  { eapply returns_conseq.
    - apply (returns_for _ _ _ _ (fun i x => x = fz (sumn i (fun i => partM d c i (r i))))).
      + reflexivity.
      + intros i x Hi ->. set (S0 := sumn i _). eapply rb_arr; [exact Ar|lia|].
        fold (firstM d i) (secondM d i). rewrite firstM_spec, secondM_spec by exact Hd.
        cbn [sumn]. fold S0. unfold partM.
        destruct (Nat.eqb_spec i (d / 2 - 1)) as [Eu|Eu], (Nat.eqb_spec i (d - 2)) as [Ev|Ev]; cbn [negb andb]; [lia|..].
        * rewrite M_ans5_ok by lia. cbn [bind]. apply returns_ok. f_equal. ring.
        * cbn [bind]. rewrite M_ans5_ok by lia. apply returns_ok. f_equal. ring.
        * cbn [bind]. eapply rb_arr; [apply arr_map, Ac|lia|]. eapply rb_arr; [apply arr_map, Ac|lia|].
          cbv beta. rewrite !fix_neg_z_fz.
          assert (R : Z.rem (fz S0 + fz (c (2 * i)%nat) * fz (r i) * fz (r i)) P
            = fz (S0 + c (2 * i)%nat * r i * r i)%F).
          { apply rem_fz.
            - pose proof (fz_pos S0).
              pose proof (Z.mul_nonneg_nonneg _ _ (Z.mul_nonneg_nonneg _ _ (fz_pos (c (2 * i)%nat)) (fz_pos (r i))) (fz_pos (r i))). lia.
            - rewrite ofZ_add, !ofZ_mul, !ofZ_fz. reflexivity. }
          rewrite R, rem_addmul_fz. apply returns_ok. f_equal. ring.
    - intros x ->. reflexivity. }
  eapply rb_arr; [apply arr_map, Ac|lia|]. cbv beta. rewrite fix_neg_z_fz, rem_add_fz. apply returns_ok.
  split; [reflexivity|]. split; [rewrite upd_length; exact Lw|]. split.
  - split; [rewrite upd_length; lia|]. intros m Hm. rewrite nth_upd by lia.
    destruct (Nat.eqb_spec m d) as [->|]; [reflexivity|apply Vw; lia].
  - apply map_ext. intro x. apply gmul_fz.
Qed.

Lemma M_verify_ok : forall D w, length rl = d -> arr w (d + 1) witM ->
  D = (valM d c s + c (2 * d + 7)%nat * s d)%F ->
  M_verify K rl D (fz (valM d c r)) w (map (fun x => (x * a)%F) w) = Ok true.
Proof.
  intros D w Lr Aw ED. pose proof HK as (E1 & E2 & E3 & E4 & E5 & A1 & A2). apply returns_eq_ok.
  unfold M_verify. rewrite Lr, E3, E4, E5. cbv zeta.
  apply (rb_eq _ _ _ true).
  { eapply returns_conseq; [apply (returns_for _ _ _ _ (fun i x => true = x))|intros x H; exact H]; [reflexivity|].
    intros i x Hi <-. eapply rb_arr; [apply arr_map, Aw|lia|]. eapply rb_arr; [exact Aw|lia|]. apply returns_ok.
    rewrite andb_true_l. symmetry. apply gt_eqb_refl. unfold pairing, gen2. change F1 with 1%F. ring. }
  assert (RS : Z.rem (fz (valM d c r)) P = fz (valM d c r)).
  { apply rem_fz; [apply fz_pos|apply ofZ_fz]. }
  rewrite RS. apply rb_pre_exp.
  apply (rb_eq _ _ _ (sumn d (fun i => (s i - r i) * witM i) + s d * witM d)%F).
  { eapply returns_conseq.
    - apply (returns_for _ _ _ _ (fun i x => x =
        if i <=? d then sumn i (fun i => (s i - r i) * witM i)%F
        else (sumn d (fun i => (s i - r i) * witM i) + s d * witM d)%F)).
      + reflexivity.
      + intros i x Hi ->.
        eapply returns_bind; [eapply (returns_rd _ _ _ _ (eq (s i))); [apply A2; lia|reflexivity]|]. intros q <-.
        eapply rb_arr; [exact Aw|lia|]. destruct (Nat.ltb_spec i d) as [Hid|Hid].
        * eapply rb_arr; [exact Ar|exact Hid|]. apply rb_pre_exp. apply returns_ok.
          destruct (Nat.leb_spec i d); [|lia]. destruct (Nat.leb_spec (S i) d); [|lia].
          cbn [sumn]. unfold pairing, gen2. change F1 with 1%F. ring.
        * apply returns_ok. replace i with d by lia. destruct (Nat.leb_spec d d); [|lia].
          destruct (Nat.leb_spec (S d) d); [lia|]. reflexivity.
    - intros x ->. destruct (Nat.leb_spec (0 + (d + 1)) d); [lia|reflexivity]. }
  apply returns_ok. rewrite andb_true_l. symmetry. apply gt_eqb_refl. unfold pairing, gen1, gen2. change F1 with 1%F.
  rewrite ED. unfold valM.
  rewrite (sumn_ext d (fun i => (s i - r i) * witM i)%F
    (fun i => (partM d c i (s i) - partM d c i (r i)) + s d * (s i * t i - t i * r i))%F).
  2:{ intros i Hi. unfold witM. destruct (Nat.ltb_spec i d); [|lia]. rewrite quoM_ok by exact Hd. ring. }
  rewrite sumn_add, sumn_sub, sumn_scal, sumn_sub. unfold witM. destruct (Nat.ltb_spec d d); [lia|]. ring.
Qed.
End Prove.
