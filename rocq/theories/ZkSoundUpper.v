(** * Soundness of the zk protocol above the copy layer *)
From Coq Require Import ZArith List Bool Arith Lia Ring.
From Verif Require Import Limbs Field Fp Base ArithProofs MleSpec GkrMath Poly PolyProofs Circuit
  FastProver FastVerifier Lazy TablesProofs FastProverProofs PhaseProofs FastVerifierProofs SpecGkr SpecVpd SpecZk
  VpdGroup VpdR VpdMask VpdInput VpdGroupProofs Transcript TranscriptProofs Count SoundProofs SumGame
  ZkEval ZkProver ZkVerifier ZkPhaseProofs ZkMaskProofs ZkRoundProofs ZkLayerProofs ZkPredProofs ZkOpenProofs ZkLinkProofs
  ZkVerifierProofs ZkFacts ZkIdeal ZkTarget ZkSoundProofs ZkSoundLayer ZkSoundTrue.
Import ListNotations.
Open Scope nat_scope.

(** ** A layer depends on the challenges only *)
Lemma bind_ext : forall A B (m : outcome A) (k k' : A -> outcome B), (forall x, m = Ok x -> k x = k' x) -> bind m k = bind m k'.
Proof. intros A B [] k k' H; try reflexivity. apply H. reflexivity. Qed.
Section Draws.
Context {S : Type}.
Variable J : zprover_if S.
Lemma rounds1_draws : forall n r_u sm t s p' s' t' z', zphase1_rounds J n r_u sm t s = Ok (p', s', t', z') -> draws t' = draws t.
Proof.
  intros n r_u sm t s p' s' t' z' E. change (for_ n 0 (zbody1 J n r_u) (fe_of_int 0, sm, t, s) = Ok (p', s', t', z')) in E.
  assert (A : forall k j p s t z p' s' t' z', for_ k j (zbody1 J n r_u) (p, s, t, z) = Ok (p', s', t', z') -> draws t' = draws t).
  { clear. induction k as [|k IH]; intros j p s t z p' s' t' z' E; cbn [for_] in E; [apply Ok_inj in E; congruence|].
    apply bind_inv in E. destruct E as ([[[p1 s1] t1] z1] & E1 & E). apply IH in E. rewrite E. clear E.
    unfold zbody1 in E1. destruct (j + 1 =? n); apply bind_inv in E1; destruct E1 as ([q z2] & _ & E1);
      apply bind_inv in E1; destruct E1 as (r & _ & E1); apply reject_inv in E1; destruct E1 as [_ E1]; apply Ok_inj in E1;
      injection E1 as <- <- <- <-; rewrite draws_app, ?draws_quad, ?draws_quint; lia. }
  eapply A, E.
Qed.
Lemma rounds2_draws : forall n relay r_v sm t s p' s' rv' t' z',
  zphase2_rounds J n false relay r_v sm t s = Ok (p', s', rv', t', z') -> draws t' = draws t.
Proof.
  intros n relay r_v sm t s p' s' rv' t' z' E. change (for_ n 0 (zbody2 J n relay) (fe_of_int 0, sm, r_v, t, s) = Ok (p', s', rv', t', z')) in E.
  assert (A : forall k j p s r t z p' s' r' t' z', for_ k j (zbody2 J n relay) (p, s, r, t, z) = Ok (p', s', r', t', z') -> draws t' = draws t).
  { clear. induction k as [|k IH]; intros j p s r t z p' s' r' t' z' E; cbn [for_] in E; [apply Ok_inj in E; congruence|].
    apply bind_inv in E. destruct E as ([[[[p1 s1] r1] t1] z1] & E1 & E). apply IH in E. rewrite E. clear E.
    unfold zbody2 in E1. rewrite bind_Ok in E1. destruct (j + 1 =? n); apply bind_inv in E1; destruct E1 as ([q z2] & _ & E1);
      apply bind_inv in E1; destruct E1 as (x & _ & E1); apply reject_inv in E1; destruct E1 as [_ E1]; apply Ok_inj in E1;
      injection E1 as <- <- <- <- <-; rewrite draws_app, ?draws_quad, ?draws_quint; lia. }
  eapply A, E.
Qed.
End Draws.
Lemma follows_app : forall rng pos v w, follows rng pos (v ++ w) -> follows rng pos v /\ follows rng (pos + length v) w.
Proof.
  intros rng pos v w H. split.
  - intros t n H1 H2. rewrite (H t n) by (rewrite ?app_length; lia). cbv zeta.
    rewrite skipn_app. replace (draws t - pos - length v) with 0 by lia. cbn [skipn].
    rewrite firstn_app, skipn_length. replace (n - (length v - (draws t - pos))) with 0 by lia. cbn [firstn].
    rewrite app_nil_r. reflexivity.
  - intros t' n H1 H2. rewrite (H t' n) by (rewrite ?app_length; lia). cbv zeta.
    rewrite skipn_app, (skipn_all2 v) by lia. cbn [app].
    replace (draws t' - pos - length v) with (draws t' - (pos + length v)) by lia. reflexivity.
Qed.
Lemma same_if : forall A (c : bool) (x y x' y' : A), x = x' -> y = y' -> (if c then x else y) = (if c then x' else y').
Proof. intros; subst; reflexivity. Qed.
Lemma zlayer_same : forall S enc (J : zprover_if S) C i rng rng' st h, 1 < i < total_depth C ->
  (forall Lm, rd (circuit C) (i - 1) = Ok Lm -> length h = 2 * bit_length Lm + 4) ->
  follows rng (draws (t_tr st)) h -> follows rng' (draws (t_tr st)) h ->
  zverify_layer enc rng J C i st = zverify_layer enc rng' J C i st.
Proof.
  intros S enc J C i rng rng' st h Hi Lh F F'. unfold zverify_layer.
  apply bind_ext. intros L _. apply bind_ext. intros Lm ELm. specialize (Lh Lm ELm). cbv zeta.
  set (b := bit_length Lm) in *. destruct (Nat.eqb_spec i 1) as [|_]; [lia|].
  set (pos := draws (t_tr st)) in *.
  assert (A : forall t n, pos <= draws t -> draws t + n <= pos + (2 * b + 4) ->
    rng t n = rng' t n /\ forall r t', rng' t n = Ok (r, t') -> draws t' = draws t + n).
  { intros t n H1 H2. pose proof (F t n H1 ltac:(lia)) as X. pose proof (F' t n H1 ltac:(lia)) as X'. cbv zeta in X, X'.
    split; [congruence|]. intros r t' E. rewrite X' in E. apply Ok_inj in E. injection E as _ <-.
    rewrite draws_app, draws_rand, fes_length, firstn_length, skipn_length. lia. }
  clear F F'.
  destruct (A (t_tr st) 1 ltac:(fold pos; lia) ltac:(fold pos; lia)) as [E N]. rewrite E. clear E. apply bind_ext. intros [rhos t1] E1. apply N in E1. clear N. fold pos in E1.
  apply bind_ext. intros rho _. apply bind_ext. intros [[dR dRa] s1] _. apply bind_ext. intros [[dM dMa] s2] _.
  apply bind_ext. intros s4 _. apply bind_ext. intros s5 _.
  set (t2 := t1 ++ _ ++ _). assert (D2 : draws t2 = pos + 1) by (unfold t2; rewrite !draws_app, !draws_curve; lia). clearbody t2.
  destruct (A t2 b ltac:(lia) ltac:(lia)) as [E N]. rewrite E. clear E. apply bind_ext. intros [r_u t3] E3. apply N in E3. clear N.
  destruct (A t3 b ltac:(lia) ltac:(lia)) as [E N]. rewrite E. clear E. apply bind_ext. intros [r_v t4] E4. apply N in E4. clear N.
  apply bind_ext. intros d0 _. apply bind_ext. intros d1 _.
  destruct (A t4 1 ltac:(lia) ltac:(lia)) as [E N]. rewrite E. clear E. apply bind_ext. intros [r_c t5] E5. apply N in E5. clear N.
  apply bind_ext. intros rc _. apply bind_ext. intros o_u _. apply bind_ext. intros o_v _.
  apply bind_ext. intros [[[prev1 sum1] t6] s6] E6. apply rounds1_draws in E6.
  apply bind_ext. intros s7 _. apply bind_ext. intros [[[[prev2 sum2] r_v'] t7] s8] E7. apply rounds2_draws in E7.
  apply bind_ext. intros [[v_u v_v] s9] _. apply bind_ext. intros BB _. apply bind_ext. intros pv _. apply bind_ext. intros general _.
  apply bind_ext. intros [poly s10] _. apply bind_ext. intros _ _.
  apply bind_ext. intros [[[[vR1 vR2] r_ok] t8] s11] E8. apply (open_R_draws enc J C i Hi) in E8.
  apply bind_ext. intros _ _.
  apply bind_ext. intros [[[vM m_ok] t9] s12] E9. apply (open_mask_draws enc J C i Hi) in E9.
  apply bind_ext. intros _ _. apply bind_ext. intros general' _. apply bind_ext. intros _ _.
  destruct (A t9 1 ltac:(lia) ltac:(lia)) as [E N]. rewrite E. clear E. apply bind_ext. intros [als t10] E10. apply N in E10. clear N.
  destruct (A t10 1 ltac:(lia) ltac:(lia)) as [E N]. rewrite E. clear E. reflexivity.
Qed.

(** ** All layers above the copy layer *)
(** Number of challenges drawn while reducing layer [n + 1] to layer 1, and the
    numerator of the error. *)
Fixpoint zn_challenges (C : layered_circuit) (n : nat) : nat :=
  match n with O => 0 | Datatypes.S n' => (2 * bit_length (layer_at C n) + 4) + zn_challenges C n' end.
Fixpoint zerror (C : layered_circuit) (n : nat) : nat :=
  match n with O => 0 | Datatypes.S n' => (4 * bit_length (layer_at C n) + 9) + zerror C n' end.

Section Layers.
Context {S : Type}.
Variable enc : F -> list Z.
Variable D : masks S.
Variable I : zprover_if S.
Hypothesis TI : ztyped I.
Variables (C : layered_circuit) (m : nat).
Hypothesis CC : zcomplete_circuit C.
Hypothesis Hm : forall k, k < total_depth C -> bit_length (layer_at C k) <= m.
Let J := true_masks D I.
Let d := total_depth C.

Lemma zlayers_sound : forall n k st a be R0 R1 w, d - 1 - k = n + 1 -> k < d ->
  zvst C m (n + 1) st a be R0 R1 -> rep (t_sum st) w ->
  w <> (a * masked_value (vals C (n + 1)) (md_value D (n + 1)) R0 + be * masked_value (vals C (n + 1)) (md_value D (n + 1)) R1)%F ->
  few (zn_challenges C n) (zerror C n) (fun v => exists rng st', follows rng (draws (t_tr st)) v /\
    for_ n k (fun k st => zverify_layer enc rng J C (d - 1 - k) st) st = Ok st' /\ ztrue_claim C (md_value D 1) 1 st').
Proof.
  induction n as [|n IH]; intros k st a be R0 R1 w Hk Hkd VS Rw N.
  - apply few_none. intros v _ (rng & st' & _ & E & a' & b' & Q0 & Q1 & Ta & Tb & T0 & T1 & Ts).
    cbn [for_] in E. apply Ok_inj in E. subst st'. apply N.
    destruct VS as [Va Vb V0 V1 _ _ _ _ _].
    rewrite (rep_fun _ _ _ Ta Va), (rep_fun _ _ _ Tb Vb), (reps_fun _ _ _ T0 V0), (reps_fun _ _ _ T1 V1) in Ts.
    exact (rep_fun _ _ _ Rw Ts).
  - set (i := Datatypes.S n + 1) in *. set (b := bit_length (layer_at C (i - 1))).
    assert (Ei : i - 1 = n + 1) by (unfold i; lia).
    assert (Hi : 1 < i < total_depth C) by (fold d; unfold i; lia).
    assert (Eb : b = bit_length (layer_at C (Datatypes.S n))) by (unfold b; rewrite Ei; f_equal; f_equal; lia).
    eapply few_eq with (n := 1 + ((2 * b + 1) + 2) + zn_challenges C n) (k := 4 * b + 9 + zerror C n).
    2,3: cbn [zn_challenges zerror]; rewrite <- Eb; lia.
    apply (few_bind _ _ _ _ (fun v => exists rng st', follows rng (draws (t_tr st)) v /\
      zverify_layer enc rng J C i st = Ok st' /\ ztrue_claim C (md_value D (i - 1)) (i - 1) st')).
    { exact (zlayer_sound enc D I TI C m i CC Hi Hm st a be R0 R1 w VS Rw N). }
    intros h Lh NE.
    assert (Eh : exists rho ru rv rc al bt, h = rho :: ru ++ rv ++ [rc; al; bt] /\ length ru = b /\ length rv = b).
    { destruct h as [|rho h]; [discriminate|]. cbn [length] in Lh. destruct (zc_bits C CC (i - 1) ltac:(lia)) as [Hb _]. fold b in Hb.
      destruct (split_at b Hb h ltac:(lia)) as (ru & v1 & -> & Lu & L1). rewrite app_length in Lh, L1.
      destruct (split_at b Hb v1 ltac:(lia)) as (rv & v2 & -> & Lv & L2). rewrite app_length in Lh, L1, L2.
      destruct v2 as [|rc [|al [|bt [|]]]]; cbn [length] in Lh, L1, L2; try lia.
      exists rho, ru, rv, rc, al, bt. auto. }
    destruct Eh as (rho & ru & rv & rc & al & bt & Eh & Lu & Lv).
    (* whatever the source of challenges is, the state after the layer is determined by h *)
    set (rng0 := fun t n => let r := fes (firstn n (skipn (draws t - draws (t_tr st)) h)) in @Ok (list fe * list msg) (r, t ++ map MRand r)).
    assert (F0 : follows rng0 (draws (t_tr st)) h) by (intros t n' _ _; reflexivity).
    assert (Same : forall rng, follows rng (draws (t_tr st)) h -> zverify_layer enc rng J C i st = zverify_layer enc rng0 J C i st).
    { intros rng F. apply (zlayer_same _ enc J C i rng rng0 st h Hi); [|exact F|exact F0].
      intros Lm ELm. unfold rd in ELm. rewrite layer_rd in ELm by (rewrite <- (zc_depth C CC); lia). apply Ok_inj in ELm. subst Lm. fold b. lia. }
    destruct (zverify_layer enc rng0 J C i st) as [st1| | | | | |] eqn:EV.
    2-7: apply few_none; intros t _ (rng & st' & Fo & E & _); destruct (follows_app _ _ _ _ Fo) as [Fh _];
      cbn [for_] in E; apply bind_inv in E; destruct E as (st2 & E2 & _);
      replace (d - 1 - k) with i in E2 by lia; rewrite (Same rng Fh) in E2; discriminate.
    pose proof F0 as F0'. rewrite Eh in F0.
    destruct (zstep enc D I TI C m i CC Hi Hm rng0 st a be R0 R1 w rho ru rv rc al bt st1 VS Rw Lu Lv F0 EV)
      as (dR & dRa & dM & dMa & s2 & s4 & s5 & w' & s9 & v_u & v_v & _ & _ & _ & _ & VS' & Rs & Dr).
    rewrite Ei in VS'. fold b in Dr.
    eapply few_weaken; [apply (IH (Datatypes.S k) st1 al bt ru rv (al * fld v_u + bt * fld v_v)%F ltac:(lia) ltac:(lia) VS' Rs)| |].
    + intro K. apply NE. exists rng0, st1. split; [exact F0'|]. split; [exact EV|]. rewrite Ei.
      destruct VS' as [Va Vb V0 V1 _ _ _ _ _]. exists al, bt, ru, rv.
      split; [exact Va|]. split; [exact Vb|]. split; [exact V0|]. split; [exact V1|]. rewrite <- K. exact Rs.
    + apply Nat.le_refl.
    + intros t Lt (rng & st' & Fo & E & TC). destruct (follows_app _ _ _ _ Fo) as [Fh Ft].
      exists rng, st'. rewrite Dr. replace (2 * b + 4) with (length h) by lia. split; [exact Ft|].
      cbn [for_] in E. apply bind_inv in E. destruct E as (st2 & E2 & E).
      replace (d - 1 - k) with i in E2 by lia. rewrite (Same rng Fh) in E2. apply Ok_inj in E2. subst st2.
      split; [exact E|exact TC].
Qed.
End Layers.

(** An accepting run passes through the upper part. *)
Lemma zverify_upper_runs : forall S enc rng (I : zprover_if S) C BB0 s0, 2 <= total_depth C ->
  zverify enc rng I C BB0 s0 = Ok true -> exists st, zverify_upper enc rng I C BB0 s0 = Ok st.
Proof.
  intros S enc rng I C BB0 s0 Hd H. unfold zverify in H.
  destruct (zverify_body enc rng I C BB0 s0) as [x| | | | | |] eqn:E; try discriminate. clear H.
  unfold zverify_body in E. unfold zverify_upper.
  apply bind_inv in E. destruct E as ([[dI dI2] st] & -> & E). rewrite bind_Ok.
  apply bind_inv in E. destruct E as (L0 & _ & E). apply bind_inv in E. destruct E as (st1 & E1 & _).
  unfold zverify_layers in E1 |- *.
  replace (total_depth C - 1) with (total_depth C - 2 + 1) in E1 at 1 by lia. rewrite for_split in E1.
  apply bind_inv in E1. destruct E1 as (st' & E1 & _). eauto.
Qed.

Lemma masked_zero : forall V mk R, (forall j, nth j mk 0%F = 0%F) -> masked_value V mk R = mle R V.
Proof. intros V mk R H. unfold masked_value, mask_sum, poly_R. rewrite !H. ring. Qed.

Theorem zupper_sound : forall S enc D (I : zprover_if S) C m s0 g0 row s1 out BB0,
  ztyped I -> ztrusted_V_res I -> zcomplete_circuit C -> 2 <= total_depth C ->
  (forall k, k < total_depth C -> bit_length (layer_at C k) <= m) -> bsizes m BB0 ->
  (forall j, nth j (md_value D (total_depth C - 1)) 0%F = 0%F) ->
  zi_evaluate I s0 = Ok (row, s1) ->
  let lo := bit_length (layer_at C (total_depth C - 1)) in
  tab (2 ^ lo) row (2 ^ lo) out ->
  (exists x, x < 2 ^ lo /\ out x <> vals C (total_depth C - 1) x) ->
  few (lo + (lo + zn_challenges C (total_depth C - 2))) (lo + zerror C (total_depth C - 2)) (fun v =>
    exists st, zverify_upper enc (tape v) (true_masks D I) C BB0 (s0, g0) = Ok st /\ ztrue_claim C (md_value D 1) 1 st).
Proof.
  intros S enc D I C m s0 g0 row s1 out BB0 TI TV CC Hd Hm HB Z Ee lo Trow Wrong. set (d := total_depth C) in *.
  set (J := true_masks D I).
  apply (few_bind lo _ lo _ (fun R0 => mle R0 out = mle R0 (vals C (d - 1)))); [apply schwartz_zippel, Wrong|].
  intros R0 L0 N0.
  apply (few_bind lo _ 0 (zerror C (d - 2)) (fun _ => False)); [apply few_none; intros ? ? []|].
  intros R1 L1 _.
  assert (EL : rd (circuit C) (d - 1) = Ok (layer_at C (d - 1)))
    by (unfold rd; rewrite layer_rd by (rewrite <- (zc_depth C CC); fold d; lia); reflexivity).
  set (com := L0 <- rd (circuit C) 0 ;; zi_commit I s1 (bit_length L0)).
  eapply (few_weaken _ _ _ (fun t => exists cm, com = Ok cm /\ let '(a, b, c, e, s2) := cm in
    exists ab, zi_V_res I s2 (fes (comp R0)) (fes R0) row lo (2 ^ lo) = Ok ab /\
    exists rng st', 
      let st0 := ZVState (fe_of_int 1) (fe_of_int 0) (fe_mul (fe_of_int 1) (fst ab)) (fes R0) (fes R1) (fes (comp R0)) (fes (comp R1))
        BB0 (((curve_msgs enc [a; b] ++ curve_msgs enc [c; e]) ++ map MRand (fes R0)) ++ map MRand (fes R1)) (snd ab, g0) in
      follows rng (draws (t_tr st0)) t /\
      for_ (d - 2) 0 (fun k st => zverify_layer enc rng J C (d - 1 - k) st) st0 = Ok st' /\ ztrue_claim C (md_value D 1) 1 st')); [|apply Nat.le_refl|].
  2:{ intros t Lt (st & H & TC). unfold zverify_upper, zverify_start in H. cbv zeta in H. fold d in H.
      apply bind_inv in H. destruct H as ([[dI dI2] st0] & H0 & H).
      apply bind_inv in H0. destruct H0 as ([row' s1'] & H1 & H0). 
      unfold J, true_masks, zi_evaluate at 1 in H1. change (fst (s0, g0)) with s0 in H1. change (snd (s0, g0)) with g0 in H1.
      rewrite Ee, bind_Ok in H1. apply Ok_inj in H1. injection H1 as <- <-.
      apply bind_inv in H0. destruct H0 as (Lin & EL0 & H0).
      apply bind_inv in H0. destruct H0 as ([[[[a b] c] e] s2'] & H1 & H0).
      unfold J, true_masks, zi_commit at 1 in H1. change (fst (s1, g0)) with s1 in H1. change (snd (s1, g0)) with g0 in H1.
      apply bind_inv in H1. destruct H1 as ([[[[a' b'] c'] e'] s2] & EC & H1). apply Ok_inj in H1. injection H1 as <- <- <- <- <-.
      exists (a', b', c', e', s2). split; [unfold com; rewrite EL0, bind_Ok; exact EC|].
      rewrite EL, bind_Ok in H0. fold lo in H0.
      set (t0 := curve_msgs enc [a'; b'] ++ curve_msgs enc [c'; e']) in *.
      assert (D0 : draws t0 = 0) by (unfold t0; rewrite !draws_app, !draws_curve; reflexivity).
      pose proof (tape_follows (R0 ++ R1 ++ t)) as F0.
      destruct (follows_step _ _ R0 (R1 ++ t) t0 F0 D0) as (G0 & D1 & F1). rewrite L0 in G0, D1, F1. cbn [Nat.add] in D1, F1.
      rewrite G0, bind_Ok in H0.
      destruct (follows_step _ _ R1 t _ F1 D1) as (G1 & D2 & F2). rewrite L1 in G1, D2, F2. rewrite G1, bind_Ok in H0. clear G0 G1.
      apply bind_inv in H0. destruct H0 as (o0 & Eo & H0). apply comp_fes in Eo; [|symmetry; exact L0]. subst o0.
      apply bind_inv in H0. destruct H0 as (o1 & Eo & H0). apply comp_fes in Eo; [|symmetry; exact L1]. subst o1.
      apply bind_inv in H0. destruct H0 as ([a0 s3'] & H1 & H0).
      unfold J, true_masks, zi_V_res at 1 in H1. change (fst (s2, g0)) with s2 in H1. change (snd (s2, g0)) with g0 in H1.
      apply bind_inv in H1. destruct H1 as ([a0' s3] & EV & H1). apply Ok_inj in H1. injection H1 as <- <-.
      exists (a0', s3). split; [exact EV|]. apply Ok_inj in H0. injection H0 as <- <- <-.
      exists (tape (R0 ++ R1 ++ t)), st. cbn [t_tr fst snd]. split; [rewrite D2; exact F2|]. split; [exact H|exact TC]. }
  apply few_outcome. intros [[[[a b] c] e] s2] _. apply few_outcome. intros [a0 s3] Ea. cbn [fst snd].
  assert (Ra : rep a0 (mle R0 out)).
  { apply TV in Ea. rewrite <- L0 in Ea, Trow. eapply (returns_inv _ _ (fun x => rep x (mle R0 out))); [|exact Ea].
    eapply V_res_ok; [apply reps_fes|apply reps_fes|exact Trow]. }
  assert (Rs : rep (fe_mul (fe_of_int 1) a0) (mle R0 out)).
  { eapply rep_eq; [apply rep_mul; [exact rep_i1|exact Ra]|ring]. }
  set (st0 := ZVState (fe_of_int 1) _ _ _ _ _ _ _ _ _).
  assert (VS0 : zvst C m (d - 2 + 1) st0 1%F 0%F R0 R1).
  { constructor; cbn [st0 t_alpha t_beta t_r0 t_r1 t_o0 t_o1 t_B]; try apply reps_fes; try exact HB.
    - exact rep_i1.
    - exact rep_i0.
    - replace (d - 2 + 1) with (d - 1) by lia. exact L0.
    - replace (d - 2 + 1) with (d - 1) by lia. exact L1. }
  eapply few_weaken; [apply (zlayers_sound enc D I TI C m CC Hm (d - 2) 0 st0 1%F 0%F R0 R1 (mle R0 out) ltac:(fold d; lia) ltac:(fold d; lia) VS0 Rs)| |].
  - intro K. apply N0. rewrite K. replace (d - 2 + 1) with (d - 1) by lia. rewrite !masked_zero by exact Z. ring.
  - apply Nat.le_refl.
  - intros t _ H. exact H.
Qed.
