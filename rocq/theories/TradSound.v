(** * Soundness of verifier_traditional.cpp (C56)

    For an arbitrary prover: a wrong claim about layer [i >= 1] turns into a
    wrong claim about layer [i - 1] except for a small fraction of the
    challenges; the claim about layer 0 is checked by the verifier itself. *)
From Coq Require Import ZArith List Bool Arith Lia Ring.
From Verif Require Import Limbs Field FieldProofs Fp ArithProofs Base MleSpec GkrMath Poly PolyProofs Circuit
  FastProver FastVerifier Lazy TablesProofs FastProverProofs PhaseProofs FastVerifierProofs Count SoundProofs
  TradProver TradVerifier TradProofs TradPhase TradVerifierProofs.
Import ListNotations.
Open Scope nat_scope.

(** The prover with the second update in the place of the first. *)
Definition second {S} (I : prover_if S) : prover_if S := {|
  if_evaluate := if_evaluate I; if_V_res := if_V_res I; if_sumcheck_init := if_sumcheck_init I;
  if_phase1_init := if_phase1_init I; if_phase1_update := if_phase2_update I;
  if_phase2_init := if_phase2_init I; if_phase2_update := if_phase2_update I;
  if_finalize := if_finalize I; if_v_u := if_v_u I |}.
Lemma second_typed : forall S (I : prover_if S), typed I -> typed (second I).
Proof. intros S I [H1 H2 H3 H4]. constructor; assumption. Qed.
Lemma rounds1 : forall S (I : prover_if S) n r sum s,
  trad_rounds (if_phase1_update I) n r sum s = for_ n 0 (body1 I r) (fe_of_int 0, sum, s).
Proof. reflexivity. Qed.
Lemma rounds2 : forall S (I : prover_if S) n r sum s,
  trad_rounds (if_phase2_update I) n r sum s = for_ n 0 (body1 (second I) r) (fe_of_int 0, sum, s).
Proof. reflexivity. Qed.
Lemma fes_reduced : forall R, Forall reduced (fes R).
Proof. induction R; constructor; [eapply rep_reduced, rep_fe_of|assumption]. Qed.

Section OneLayer.
Context {S : Type}.
Variable I : prover_if S.
Hypothesis TI : typed I.
Variables (C : layered_circuit) (m i : nat).
Hypothesis CC : trad_circuit C.
Hypothesis Hi : 0 < i < total_depth C.
Hypothesis Hm : forall k, k < total_depth C -> bit_length (layer_at C k) <= m.
Let L := layer_at C i.
Let Lm := layer_at C (i - 1).
Let lg := bit_length L.
Let b := bit_length Lm.
Let V := vals C (i - 1).

(** The value the verifier computes from the claimed values [vu], [vv]. *)
Definition tfinal (a be : F) (R0 R1 ru rv : list F) (vu vv : F) : F :=
  (fval (form_of 0) vu vv * pred (2 ^ lg) (gate_at L) (gw a be R0 R1) 0 (eqw ru) (eqw rv) +
   fval (form_of 1) vu vv * pred (2 ^ lg) (gate_at L) (gw a be R0 R1) 1 (eqw ru) (eqw rv))%F.

Lemma trad_layer_inv : forall st a be R0 R1 rnd ru rv al' be' st',
  vst C m i st a be R0 R1 -> reduced (s_sum st) ->
  length ru = b -> length rv = b -> drawn rnd (s_pos st) (ru ++ rv ++ [al'; be']) ->
  trad_layer I C rnd i st = Ok st' ->
  (exists s0, if_sumcheck_init I (s_p st) i lg b b (s_alpha st) (s_beta st)
         (s_r0 st) (s_r1 st) (s_o0 st) (s_o1 st) = Ok s0 /\
   exists s1, if_phase1_init I s0 = Ok s1 /\
   exists t1, for_ b 0 (body1 I (fes ru)) (fe_of_int 0, s_sum st, s1) = Ok t1 /\
   exists s3, if_phase2_init I (snd t1) (fst (fst t1)) (fes ru) (fes (comp ru)) = Ok s3 /\
   exists t2, for_ b 0 (body1 (second I) (fes rv)) (fe_of_int 0, snd (fst t1), s3) = Ok t2 /\
   exists t3, if_finalize I (snd t2) (fst (fst t2)) = Ok t3 /\
     let '((v_u, v_v), s5) := t3 in let '(_, sum2, _) := t2 in
     exists vu vv, rep v_u vu /\ rep v_v vv /\ rep sum2 (tfinal a be R0 R1 ru rv vu vv) /\
       rep (s_sum st') (al' * vu + be' * vv)%F) /\
  vst C m (i - 1) st' al' be' ru rv /\ s_pos st' = s_pos st + (b + b + 2) /\ reduced (s_sum st').
Proof.
  intros st a be R0 R1 rnd ru rv al' be' st' [Ka Kb Kr0 Kr1 Ko0 Ko1 Kl0 Kl1 (KB0 & KB1 & KB2 & KB3)] Hs Lru Lrv Hd H.
  fold L lg in Kl0, Kl1. pose proof (tc_depth C CC) as D.
  destruct (drawn_app _ _ _ _ Hd) as [D1 Hd']. destruct (drawn_app _ _ _ _ Hd') as [D2 D3]. clear Hd'.
  rewrite Lru in D2, D3. rewrite Lrv in D3.
  assert (Hb : b <= m) by (apply Hm; lia). assert (Hlg : lg <= m) by (apply Hm; lia).
  assert (HG : 2 ^ lg <= length (gates L)) by (apply (tc_gates C CC); lia).
  unfold trad_layer in H.
  assert (EL : rd (circuit C) i = Ok L) by (unfold rd; rewrite layer_rd by lia; reflexivity).
  assert (ELm : rd (circuit C) (i - 1) = Ok Lm) by (unfold rd; rewrite layer_rd by lia; reflexivity).
  rewrite EL, bind_Ok, ELm, bind_Ok in H. cbv zeta in H. fold lg b in H.
  apply bind_inv in H. destruct H as (s0 & E0 & H). apply bind_inv in H. destruct H as (s1 & E1 & H).
  pose proof (drawn_gen _ _ _ D1) as G1. rewrite Lru in G1. rewrite G1 in H. clear G1.
  pose proof (drawn_gen _ _ _ D2) as G2. rewrite Lrv in G2. rewrite G2 in H. clear G2.
  apply bind_inv in H. destruct H as (o_u & Eou & H).
  pose proof (returns_inv _ _ _ _ (one_minus_ok _ ru b (reps_fes ru) (eq_sym Lru)) Eou) as Hou.
  apply bind_inv in H. destruct H as (o_v & Eov & H).
  pose proof (returns_inv _ _ _ _ (one_minus_ok _ rv b (reps_fes rv) (eq_sym Lrv)) Eov) as Hov.
  cbv beta in Hou, Hov. apply reps_inj in Hou. apply reps_inj in Hov. subst o_u o_v.
  apply bind_inv in H. destruct H as ([[prev1 sum1] s2] & Et1 & H). rewrite rounds1 in Et1.
  pose proof (phase1_reduced I TI _ _ _ _ _ _ _ _ _ Hs Et1 (fes_reduced ru)) as Rsum1.
  apply bind_inv in H. destruct H as (s3 & E3 & H).
  apply bind_inv in H. destruct H as ([[prev2 sum2] s4] & Et2 & H). rewrite rounds2 in Et2.
  pose proof (phase1_reduced (second I) (second_typed _ I TI) _ _ _ _ _ _ _ _ _ Rsum1 Et2 (fes_reduced rv)) as Rsum2.
  apply bind_inv in H. destruct H as ([[v_u v_v] s5] & E5 & H).
  destruct (ty_f I TI _ _ _ _ _ E5) as [Rvu Rvv]. apply reduced_rep in Rvu. apply reduced_rep in Rvv.
  set (vu := ofZ (val512 v_u)) in *. set (vv := ofZ (val512 v_v)) in *.
  apply bind_inv in H. destruct H as (B' & EB & H).
  assert (Hbeta : returns (beta_init lg b (s_alpha st) (s_beta st) (s_r0 st) (s_r1 st) (fes ru) (fes rv)
         (s_o0 st) (s_o1 st) (fes (comp ru)) (fes (comp rv)) (s_B st)) (fun B' =>
    btabs (2 ^ m) lg b B' (gw a be R0 R1) (eqw ru) (eqg (prs rv (comp rv) 0 b)) /\
    length (b_g0 B') = 2 ^ m /\ length (b_g1 B') = 2 ^ m /\ length (b_u B') = 2 ^ m /\ length (b_v B') = 2 ^ m)).
  { apply (beta_init_btabs (2 ^ m) lg b); try assumption; try apply reps_fes.
    - rewrite comp_length. exact Lrv.
    - apply pow_mono, Hlg.
    - apply pow_mono, Hb. }
  pose proof (returns_inv _ _ _ _ Hbeta EB) as HB. cbv beta in HB.
  destruct HB as (BT & LB). clear Hbeta.
  assert (LO : forall k, k < 2 ^ lg -> layer_ok b (gate_at L k) k).
  { intros k Hk. left. apply trad_proto, (tc_wires C CC); [lia|exact Hk]. }
  apply bind_inv in H. destruct H as (mult_v & Q & H).
  pose proof (returns_inv _ _ _ _ (mult_pred_ok (2 ^ m) lg b L B' _ _ _ BT eq_refl HG LO) Q) as R_mult. clear Q.
  apply bind_inv in H. destruct H as (add_v & Q & H).
  pose proof (returns_inv _ _ _ _ (add_pred_ok (2 ^ m) lg b L B' _ _ _ BT eq_refl HG LO) Q) as R_add. clear Q.
  cbv beta in R_mult, R_add.
  assert (EP : prs rv (comp rv) 0 b = point rv) by (rewrite <- Lrv; apply prs_point).
  rewrite EP in R_mult, R_add.
  apply reject_inv in H. destruct H as [Hc H].
  pose proof (D3 0 ltac:(simpl; lia)) as A1. pose proof (D3 1 ltac:(simpl; lia)) as A2.
  rewrite Nat.add_0_r in A1. cbn [nth] in A1, A2. rewrite A1, A2, !fe_of_mod in H. apply Ok_inj in H. subst st'.
  assert (Rnew : rep (fe_add (fe_mul (fe_of al') v_u) (fe_mul (fe_of be') v_v)) (al' * vu + be' * vv)%F).
  { apply rep_add; apply rep_mul; try assumption; apply rep_fe_of. }
  assert (HB : exists vu vv, rep v_u vu /\ rep v_v vv /\ rep sum2 (tfinal a be R0 R1 ru rv vu vv) /\
       rep (fe_add (fe_mul (fe_of al') v_u) (fe_mul (fe_of be') v_v)) (al' * vu + be' * vv)%F).
  { exists vu, vv. split; [exact Rvu|]. split; [exact Rvv|]. split; [|exact Rnew].
    pose proof (trad_combine_ok _ _ _ _ _ _ _ _ R_add R_mult Rvu Rvv) as CO.
    eapply rep_eq; [apply reduced_rep, Rsum2|]. rewrite (fne_inv _ _ _ _ (reduced_rep _ Rsum2) CO Hc). reflexivity. }
  split; [|split; [|split]].
  - exists s0. split; [exact E0|]. exists s1. split; [exact E1|]. exists (prev1, sum1, s2). split; [exact Et1|].
    cbn [fst snd]. exists s3. split; [exact E3|]. exists (prev2, sum2, s4). split; [exact Et2|].
    cbn [fst snd]. exists ((v_u, v_v), s5). split; [exact E5|]. exact HB.
  - constructor; cbn [s_p s_alpha s_beta s_r0 s_r1 s_o0 s_o1 s_B s_sum]; try apply rep_fe_of; try apply reps_fes; assumption.
  - cbn [s_pos]. lia.
  - cbn [s_sum]. eapply rep_reduced, Rnew.
Qed.

Let M1 a be R0 R1 := scat (2 ^ lg) (rM L (gw a be R0 R1) (wu L) (fun g => V (wv L g))).
Let A1 a be R0 R1 := scat (2 ^ lg) (rA L (gw a be R0 R1) (wu L) (fun g => V (wv L g))).
Let M2 a be R0 R1 ru := scat (2 ^ lg) (rM L (fun g => gw a be R0 R1 g * eqw ru (wu L g))%F (wv L) (fun _ => mle ru V)).
Let A2 a be R0 R1 ru := scat (2 ^ lg) (rA L (fun g => gw a be R0 R1 g * eqw ru (wu L g))%F (wv L) (fun _ => mle ru V)).

Theorem trad_layer_sound : forall st a be R0 R1 w, vst C m i st a be R0 R1 ->
  rep (s_sum st) w -> w <> (a * mle R0 (vals C i) + be * mle R1 (vals C i))%F ->
  few (b + (b + 2)) (2 * b + (2 * b + 1)) (fun v => exists rnd st', drawn rnd (s_pos st) v /\
    trad_layer I C rnd i st = Ok st' /\ true_claim C (i - 1) st').
Proof.
  intros st a be R0 R1 w VS Rw N.
  assert (L0 : length R0 = lg) by (apply (vs_l0 _ _ _ _ _ _ _ _ VS)).
  assert (L1 : length R1 = lg) by (apply (vs_l1 _ _ _ _ _ _ _ _ VS)).
  assert (Start : psum b V (M1 a be R0 R1) (A1 a be R0 R1) = (a * mle R0 (vals C i) + be * mle R1 (vals C i))%F)
    by exact (start1 C m i CC Hi a be R0 R1 L0 L1).
  assert (Link : forall ru, length ru = b ->
    (mle ru V * mle ru (M1 a be R0 R1) + mle ru (A1 a be R0 R1))%F = psum b V (M2 a be R0 R1 ru) (A2 a be R0 R1 ru))
    by exact (link C m i CC Hi a be R0 R1).
  assert (End : forall ru rv, length rv = b -> 
    (mle rv V * mle rv (M2 a be R0 R1 ru) + mle rv (A2 a be R0 R1 ru))%F = tfinal a be R0 R1 ru rv (mle ru V) (mle rv V))
    by exact (end2 C m i CC Hi a be R0 R1).
  rewrite <- Start in N.
  set (init := if_sumcheck_init I (s_p st) i lg b b (s_alpha st) (s_beta st) (s_r0 st) (s_r1 st) (s_o0 st) (s_o1 st)).
  set (E1 := fun h => exists s0, init = Ok s0 /\ exists s1, if_phase1_init I s0 = Ok s1 /\
    exists t1, for_ b 0 (body1 I (fes h)) (fe_of_int 0, s_sum st, s1) = Ok t1 /\
      let '(_, sm', _) := t1 in rep sm' (mle h V * mle h (M1 a be R0 R1) + mle h (A1 a be R0 R1))%F).
  apply (few_bind b (b + 2) (2 * b) (2 * b + 1) E1).
  { unfold E1. apply few_outcome. intros s0 _. apply few_outcome. intros s1 _.
    exact (phase1_sound I TI b V (M1 a be R0 R1) (A1 a be R0 R1) [] (fe_of_int 0) (s_sum st) w s1 Rw N). }
  intros ru Lru NE1.
  eapply (few_weaken _ _ _ (fun t => exists s0, init = Ok s0 /\ exists s1, if_phase1_init I s0 = Ok s1 /\
    exists t1, for_ b 0 (body1 I (fes ru)) (fe_of_int 0, s_sum st, s1) = Ok t1 /\
    exists s3, if_phase2_init I (snd t1) (fst (fst t1)) (fes ru) (fes (comp ru)) = Ok s3 /\
    exists rv al' be', length rv = b /\ t = rv ++ [al'; be'] /\
    exists t2, for_ b 0 (body1 (second I) (fes rv)) (fe_of_int 0, snd (fst t1), s3) = Ok t2 /\
    exists t3, if_finalize I (snd t2) (fst (fst t2)) = Ok t3 /\
     let '((v_u, v_v), s5) := t3 in let '(_, sum2, _) := t2 in
     exists vu vv, rep v_u vu /\ rep v_v vv /\ rep sum2 (tfinal a be R0 R1 ru rv vu vv) /\
       (al' * vu + be' * vv = al' * mle ru V + be' * mle rv V)%F)); [|apply Nat.le_refl|].
  2:{ intros t Lt (rnd & st' & Hd & Hv & TC).
      set (rv := firstn b t). assert (Lrv : length rv = b) by (unfold rv; rewrite firstn_length; lia).
      assert (Et : exists al' be', t = rv ++ [al'; be']).
      { assert (Ls : length (skipn b t) = 2) by (rewrite skipn_length; lia).
        pose proof (firstn_skipn b t) as FS. fold rv in FS. destruct (skipn b t) as [|x [|y [|]]]; try discriminate.
        exists x, y. symmetry. exact FS. }
      destruct Et as (al' & be' & Et). rewrite Et in Hd.
      destruct (trad_layer_inv st a be R0 R1 rnd ru rv al' be' st' VS (rep_reduced _ _ Rw) Lru Lrv Hd Hv)
        as ((s0 & F0 & s1 & F1 & t1 & F2 & s3 & F3 & t2 & F4 & t3 & F5 & K) & VS' & _ & _).
      exists s0. split; [exact F0|]. exists s1. split; [exact F1|]. exists t1. split; [exact F2|].
      exists s3. split; [exact F3|]. exists rv, al', be'. split; [exact Lrv|]. split; [exact Et|].
      exists t2. split; [exact F4|]. exists t3. split; [exact F5|].
      destruct t3 as [[v_u v_v] s5]. destruct t2 as [[? sum2] ?]. destruct K as (vu & vv & Ru & Rv & Rs & Rn).
      exists vu, vv. split; [exact Ru|]. split; [exact Rv|]. split; [exact Rs|].
      destruct TC as (a1 & b1 & Q0 & Q1 & Ta & Tb & T0 & T1 & Ts). destruct VS' as [Va Vb V0 V1 _ _ _ _ _].
      rewrite (rep_fun _ _ _ Ta Va), (rep_fun _ _ _ Tb Vb), (reps_fun _ _ _ T0 V0), (reps_fun _ _ _ T1 V1) in Ts.
      apply (rep_fun _ _ _ Rn Ts). }
  apply few_outcome. intros s0 F0. apply few_outcome. intros s1 F1. apply few_outcome. intros [[prev1 sum1] s2] F2.
  apply few_outcome. intros s3 F3. cbn [fst snd] in F3 |- *.
  pose proof (phase1_reduced I TI _ _ _ _ _ _ _ _ _ (rep_reduced _ _ Rw) F2 (fes_reduced ru)) as Rs1.
  assert (N1 : ofZ (val512 sum1) <> psum b V (M2 a be R0 R1 ru) (A2 a be R0 R1 ru)).
  { intro K. rewrite <- (Link ru Lru) in K. apply NE1. exists s0. split; [exact F0|].
    exists s1. split; [exact F1|]. exists (prev1, sum1, s2). split; [exact F2|]. rewrite <- K. apply reduced_rep, Rs1. }
  set (E2 := fun rv => exists t2, for_ b 0 (body1 (second I) (fes rv)) (fe_of_int 0, sum1, s3) = Ok t2 /\
    let '(_, sm', _) := t2 in rep sm' (mle rv V * mle rv (M2 a be R0 R1 ru) + mle rv (A2 a be R0 R1 ru))%F).
  apply (few_bind b 2 (2 * b) 1 E2).
  { exact (phase1_sound (second I) (second_typed _ I TI) b V (M2 a be R0 R1 ru) (A2 a be R0 R1 ru) [] (fe_of_int 0) sum1
      (ofZ (val512 sum1)) s3 (reduced_rep _ Rs1) N1). }
  intros rv Lrv NE2.
  eapply (few_weaken _ _ _ (fun t => 
    exists t2, for_ b 0 (body1 (second I) (fes rv)) (fe_of_int 0, sum1, s3) = Ok t2 /\
    exists t3, if_finalize I (snd t2) (fst (fst t2)) = Ok t3 /\
     let '((v_u, v_v), s5) := t3 in let '(_, sum2, _) := t2 in
     exists vu vv, rep v_u vu /\ rep v_v vv /\ rep sum2 (tfinal a be R0 R1 ru rv vu vv) /\
       exists al' be', t = [al'; be'] /\ (al' * vu + be' * vv = al' * mle ru V + be' * mle rv V)%F)); [|apply Nat.le_refl|].
  2:{ intros t Lt (rv' & al' & be' & Lrv' & Et & t2 & F4 & t3 & F5 & K).
      assert (rv' = rv /\ t = [al'; be']) as [-> ->].
      { destruct (app_inv_len _ rv rv' t [al'; be'] ltac:(lia) Et) as [-> ->]. auto. }
      exists t2. split; [exact F4|]. exists t3. split; [exact F5|].
      destruct t3 as [[v_u v_v] s5]. destruct t2 as [[? sum2] ?]. destruct K as (vu & vv & Ru & Rv & Rs & Rn).
      exists vu, vv. split; [exact Ru|]. split; [exact Rv|]. split; [exact Rs|]. exists al', be'. auto. }
  apply few_outcome. intros [[prev2 sum2] s4] F4. apply few_outcome. intros [[v_u v_v] s5] F5.
  destruct (ty_f I TI _ _ _ _ _ F5) as [Rvu Rvv]. apply reduced_rep in Rvu. apply reduced_rep in Rvv.
  set (vu := ofZ (val512 v_u)) in *. set (vv := ofZ (val512 v_v)) in *.
  assert (DD : (vu = mle ru V /\ vv = mle rv V) \/ (vu <> mle ru V \/ vv <> mle rv V)).
  { destruct (F_eq_dec vu (mle ru V)); [destruct (F_eq_dec vv (mle rv V))|]; auto. }
  destruct DD as [[Eu Ev]|Nuv].
  - apply few_none. intros t _ (vu' & vv' & Ru & Rv & Rs & _).
    rewrite (rep_fun _ _ _ Ru Rvu), (rep_fun _ _ _ Rv Rvv), Eu, Ev in Rs.
    apply NE2. exists (prev2, sum2, s4). split; [exact F4|].
    rewrite (End ru rv Lrv). exact Rs.
  - eapply few_weaken; [apply (combination_few vu vv (mle ru V) (mle rv V) Nuv)|apply Nat.le_refl|].
    intros t _ (vu' & vv' & Ru & Rv & Rs & al' & be' & Et & K).
    rewrite (rep_fun _ _ _ Ru Rvu), (rep_fun _ _ _ Rv Rvv) in K. exists al', be'. auto.
Qed.
End OneLayer.

(** ** All layers *)
(** Number of challenges drawn while reducing layer [n] to layer 0, and the
    numerator of the error. *)
Fixpoint trad_challenges (C : layered_circuit) (n : nat) : nat :=
  match n with O => 0 | S n' => (2 * bit_length (layer_at C n') + 2) + trad_challenges C n' end.
Fixpoint trad_error (C : layered_circuit) (n : nat) : nat :=
  match n with O => 0 | S n' => (4 * bit_length (layer_at C n') + 1) + trad_error C n' end.

(** The last step of the verifier (verifier_traditional.cpp:343-373). *)
Definition input_check {S} (C : layered_circuit) (st : vstate S) : outcome bool :=
  L0 <- rd (circuit C) 0 ;;
  input <- input_vector L0 ;;
  input_0 <- V_in (s_r0 st) (s_o0 st) input (bit_length L0) (2 ^ bit_length L0) ;;
  input_1 <- V_in (s_r1 st) (s_o1 st) input (bit_length L0) (2 ^ bit_length L0) ;;
  reject_if (fe_ne (s_sum st) (fe_add (fe_mul input_0 (s_alpha st)) (fe_mul input_1 (s_beta st)))) ;;;
  Ok true.
Lemma input_check_inv : forall S C m (st : vstate S) a be R0 R1, trad_circuit C -> vst C m 0 st a be R0 R1 ->
  reduced (s_sum st) -> input_check C st = Ok true ->
  rep (s_sum st) (a * mle R0 (vals C 0) + be * mle R1 (vals C 0))%F.
Proof.
  intros S C m st a be R0 R1 CC [Ka Kb Kr0 Kr1 Ko0 Ko1 Kl0 Kl1 _] Rs H. unfold input_check in H.
  assert (EL0 : rd (circuit C) 0 = Ok (layer_at C 0)).
  { unfold rd. rewrite layer_rd; [reflexivity|]. rewrite <- (tc_depth C CC). apply (tc_pos C CC). }
  rewrite EL0, bind_Ok in H.
  apply bind_inv in H. destruct H as (input & Ei & H).
  pose proof (returns_inv _ _ _ _ (trad_input_ok C CC) Ei) as Ti. cbv beta in Ti.
  apply bind_inv in H. destruct H as (x & Ex & H). apply bind_inv in H. destruct H as (y & Ey & H).
  apply reject_inv in H. destruct H as [Hc _].
  assert (Rx : rep x (mle R0 (vals C 0))).
  { rewrite <- Kl0 in Ex, Ti. exact (returns_inv _ _ _ _ (V_in_ok _ _ _ _ R0 _ Kr0 Ko0 Ti) Ex). }
  assert (Ry : rep y (mle R1 (vals C 0))).
  { rewrite <- Kl1 in Ey, Ti. exact (returns_inv _ _ _ _ (V_in_ok _ _ _ _ R1 _ Kr1 Ko1 Ti) Ey). }
  pose proof (rep_add _ _ _ _ (rep_mul _ _ _ _ Rx Ka) (rep_mul _ _ _ _ Ry Kb)) as RR.
  pose proof (fne_inv _ _ _ _ (reduced_rep _ Rs) RR Hc) as E.
  eapply rep_eq; [apply reduced_rep, Rs|]. rewrite E. ring.
Qed.

Section Layers.
Context {S : Type}.
Variable I : prover_if S.
Hypothesis TI : typed I.
Variables (C : layered_circuit) (m : nat).
Hypothesis CC : trad_circuit C.
Hypothesis Hm : forall k, k < total_depth C -> bit_length (layer_at C k) <= m.
Let d := total_depth C.

Lemma trad_layers_sound : forall n k st a be R0 R1 w, d - 1 - k = n -> k < d ->
  vst C m n st a be R0 R1 ->
  rep (s_sum st) w -> w <> (a * mle R0 (vals C n) + be * mle R1 (vals C n))%F ->
  few (trad_challenges C n) (trad_error C n) (fun v => exists rnd st', drawn rnd (s_pos st) v /\
    for_ n k (fun k st => trad_layer I C rnd (d - 1 - k) st) st = Ok st' /\
    input_check C st' = Ok true).
Proof.
  induction n as [|n IH]; intros k st a be R0 R1 w Hk Hkd VS Rw N.
  - apply few_none. intros v _ (rnd & st' & _ & E & K).
    cbn [for_] in E. apply Ok_inj in E. subst st'. apply N.
    exact (rep_fun _ _ _ Rw (input_check_inv _ C m _ _ _ _ _ CC VS (rep_reduced _ _ Rw) K)).
  - set (i := Datatypes.S n) in *. set (b := bit_length (layer_at C (i - 1))).
    assert (Ei : i - 1 = n) by (unfold i; lia).
    assert (Hi : 0 < i < total_depth C) by (fold d; unfold i; lia).
    assert (Eb : b = bit_length (layer_at C n)) by (unfold b; rewrite Ei; reflexivity).
    eapply few_eq with (n := b + (b + 2) + trad_challenges C n) (k := 2 * b + (2 * b + 1) + trad_error C n).
    2,3: unfold i; cbn [trad_challenges trad_error]; rewrite <- Eb; lia.
    apply (few_bind _ _ _ _ (fun v => exists rnd st', drawn rnd (s_pos st) v /\
      trad_layer I C rnd i st = Ok st' /\ true_claim C (i - 1) st')).
    { exact (trad_layer_sound I TI C m i CC Hi Hm st a be R0 R1 w VS Rw N). }
    intros h Lh NE.
    set (ru := firstn b h). set (rest := skipn b h).
    assert (Lru : length ru = b) by (unfold ru; rewrite firstn_length; lia).
    assert (Lrest : length rest = b + 2) by (unfold rest; rewrite skipn_length; lia).
    set (rv := firstn b rest). assert (Lrv : length rv = b) by (unfold rv; rewrite firstn_length; lia).
    assert (Eh : exists al' be', h = ru ++ rv ++ [al'; be']).
    { assert (Ls : length (skipn b rest) = 2) by (rewrite skipn_length; lia).
      pose proof (firstn_skipn b rest) as FS. fold rv in FS. destruct (skipn b rest) as [|x [|y [|]]]; try discriminate.
      exists x, y. rewrite FS. unfold ru, rest. symmetry. apply firstn_skipn. }
    destruct Eh as (al' & be' & Eh).
    (* whatever rnd is, the state after the layer is determined by h *)
    set (rnd0 := fun k => if k <? s_pos st then fe_zero else fe_of (nth (k - s_pos st) h 0%F)).
    assert (D0 : drawn rnd0 (s_pos st) h).
    { intros j Hj. unfold rnd0. destruct (Nat.ltb_spec (s_pos st + j) (s_pos st)); [lia|]. f_equal. f_equal. lia. }
    assert (Same : forall rnd, drawn rnd (s_pos st) h -> trad_layer I C rnd i st = trad_layer I C rnd0 i st).
    { intros rnd D. unfold trad_layer.
      assert (EL : rd (circuit C) i = Ok (layer_at C i)) by (unfold rd; rewrite layer_rd by (rewrite <- (tc_depth C CC); lia); reflexivity).
      assert (ELm : rd (circuit C) (i - 1) = Ok (layer_at C (i - 1))) by (unfold rd; rewrite layer_rd by (rewrite <- (tc_depth C CC); lia); reflexivity).
      rewrite EL, !bind_Ok, ELm, !bind_Ok. cbv zeta. fold b.
      rewrite Eh in D, D0. destruct (drawn_app _ _ _ _ D) as [D1 D']. destruct (drawn_app _ _ _ _ D') as [D2 D3].
      destruct (drawn_app _ _ _ _ D0) as [D01 D0']. destruct (drawn_app _ _ _ _ D0') as [D02 D03].
      pose proof (drawn_gen _ _ _ D1) as G1. pose proof (drawn_gen _ _ _ D2) as G2.
      pose proof (drawn_gen _ _ _ D01) as G01. pose proof (drawn_gen _ _ _ D02) as G02.
      rewrite Lru in *. rewrite Lrv in *. rewrite G1, G01, G2, G02.
      pose proof (D3 0 ltac:(simpl; lia)) as X1. pose proof (D3 1 ltac:(simpl; lia)) as X2.
      pose proof (D03 0 ltac:(simpl; lia)) as Y1. pose proof (D03 1 ltac:(simpl; lia)) as Y2.
      rewrite Nat.add_0_r in X1, Y1. rewrite X1, X2, Y1, Y2. reflexivity. }
    destruct (trad_layer I C rnd0 i st) as [st1| | | | | |] eqn:EV.
    2-7: apply few_none; intros t _ (rnd & st' & D & E & _); destruct (drawn_app _ _ _ _ D) as [Dh _];
      cbn [for_] in E; apply bind_inv in E; destruct E as (st2 & E2 & _);
      replace (d - 1 - k) with i in E2 by lia; rewrite (Same rnd Dh) in E2; discriminate.
    rewrite Eh in D0.
    destruct (trad_layer_inv I TI C m i CC Hi Hm st a be R0 R1 rnd0 ru rv al' be' st1 VS (rep_reduced _ _ Rw) Lru Lrv D0 EV)
      as (_ & VS' & Pos' & Red').
    rewrite Ei in VS'. fold b in Pos'.
    eapply few_weaken; [apply (IH (Datatypes.S k) st1 al' be' ru rv (ofZ (val512 (s_sum st1))) ltac:(lia) ltac:(lia) VS' (reduced_rep _ Red'))| |].
    + intro K. apply NE. exists rnd0, st1. rewrite Eh. split; [exact D0|]. split; [exact EV|]. rewrite Ei.
      destruct VS' as [Va Vb V0 V1 _ _ _ _ _]. exists al', be', ru, rv.
      split; [exact Va|]. split; [exact Vb|]. split; [exact V0|]. split; [exact V1|]. rewrite <- K. apply reduced_rep, Red'.
    + apply Nat.le_refl.
    + intros t Lt (rnd & st' & D & E & TC). destruct (drawn_app _ _ _ _ D) as [Dh Dt].
      exists rnd, st'. rewrite Pos'. replace (b + b + 2) with (length h) by lia. split; [exact Dt|].
      unfold i in E. cbn [for_] in E. apply bind_inv in E. destruct E as (st2 & E2 & E).
      replace (d - 1 - k) with i in E2 by lia. rewrite (Same rnd Dh) in E2. apply Ok_inj in E2. subst st2.
      split; [exact E|exact TC].
Qed.
End Layers.

(** ** The whole verifier *)
Theorem trad_sound : forall S (I : prover_if S) C m s0 row s1 out B0,
  typed I -> trusted_V_res I -> trad_circuit C ->
  (forall k, k < total_depth C -> bit_length (layer_at C k) <= m) ->
  length (b_g0 B0) = 2 ^ m /\ length (b_g1 B0) = 2 ^ m /\ length (b_u B0) = 2 ^ m /\ length (b_v B0) = 2 ^ m ->
  if_evaluate I s0 = Ok (row, s1) ->
  let d := total_depth C in
  let lo := bit_length (layer_at C (d - 1)) in
  tab (2 ^ lo) row (2 ^ lo) out ->
  (exists x, x < 2 ^ lo /\ out x <> vals C (d - 1) x) ->
  few (lo + (lo + trad_challenges C (d - 1))) (lo + trad_error C (d - 1)) (fun v =>
    trad_verify I C (stream v) B0 s0 = Ok true).
Proof.
  intros S I C m s0 row s1 out B0 TI TV CC Hm HB Ee d lo Trow Wrong.
  pose proof (tc_pos C CC) as Dp. fold d in Dp.
  apply (few_bind lo _ lo _ (fun R0 => mle R0 out = mle R0 (vals C (d - 1)))); [apply schwartz_zippel, Wrong|].
  intros R0 L0 N0. 
  apply (few_bind lo _ 0 (trad_error C (d - 1)) (fun _ => False)); [apply few_none; intros ? ? []|].
  intros R1 L1 _.
  assert (EL : rd (circuit C) (d - 1) = Ok (layer_at C (d - 1)))
    by (unfold rd; rewrite layer_rd by (rewrite <- (tc_depth C CC); fold d; lia); reflexivity).
  assert (Decomp : forall t, trad_verify I C (stream (R0 ++ R1 ++ t)) B0 s0 = Ok true ->
    exists ab, (if_V_res I s1 (fes (comp R0)) (fes R0) row lo (2 ^ lo)) = Ok ab /\
      exists st, for_ (d - 1) 0 (fun k st => trad_layer I C (stream (R0 ++ R1 ++ t)) (d - 1 - k) st)
        (VState (fe_of_int 1) (fe_of_int 0) (fe_mul (fe_of_int 1) (fst ab)) (fes R0) (fes R1) (fes (comp R0)) (fes (comp R1))
           B0 (lo + lo) (snd ab)) = Ok st /\ input_check C st = Ok true).
  { intros t H. unfold trad_verify in H.
    destruct (trad_verify_body I C (stream (R0 ++ R1 ++ t)) B0 s0) as [x| | | | | |] eqn:E; try discriminate.
    rewrite H in E. clear H x. rename E into H.
    unfold trad_verify_body in H. fold d in H. rewrite Ee, bind_Ok, EL, bind_Ok in H. cbv zeta in H.
    assert (D : drawn (stream (R0 ++ R1 ++ t)) 0 (R0 ++ R1 ++ t)) by (intros k Hk; reflexivity).
    destruct (drawn_app _ _ _ _ D) as [D0 D']. destruct (drawn_app _ _ _ _ D') as [D1 _].
    pose proof (drawn_gen _ _ _ D0) as G0. pose proof (drawn_gen _ _ _ D1) as G1. rewrite L0 in G0, G1. rewrite L1 in G1.
    fold lo in H. rewrite G0, G1 in H.
    apply bind_inv in H. destruct H as (o0 & Eo & H).
    pose proof (returns_inv _ _ _ _ (one_minus_ok _ R0 lo (reps_fes R0) (eq_sym L0)) Eo) as Ho. cbv beta in Ho.
    apply reps_inj in Ho. subst o0. clear Eo.
    apply bind_inv in H. destruct H as (o1 & Eo & H).
    pose proof (returns_inv _ _ _ _ (one_minus_ok _ R1 lo (reps_fes R1) (eq_sym L1)) Eo) as Ho. cbv beta in Ho.
    apply reps_inj in Ho. subst o1. clear Eo.
    apply bind_inv in H. destruct H as ([a0 s2] & Ea & H). exists (a0, s2). split; [exact Ea|].
    apply bind_inv in H. destruct H as (st & Es & H). exists st. split; [exact Es|exact H]. }
  eapply (few_weaken _ _ _ (fun t => exists ab, (if_V_res I s1 (fes (comp R0)) (fes R0) row lo (2 ^ lo)) = Ok ab /\
    exists rnd st', drawn rnd (lo + lo) t /\ 
      for_ (d - 1) 0 (fun k st => trad_layer I C rnd (d - 1 - k) st)
        (VState (fe_of_int 1) (fe_of_int 0) (fe_mul (fe_of_int 1) (fst ab)) (fes R0) (fes R1) (fes (comp R0)) (fes (comp R1))
           B0 (lo + lo) (snd ab)) = Ok st' /\ input_check C st' = Ok true)); [|apply Nat.le_refl|].
  2:{ intros t Lt H. destruct (Decomp t H) as (ab & Ea & st & E & IC). exists ab. split; [exact Ea|].
      exists (stream (R0 ++ R1 ++ t)), st. split; [|split; assumption].
      assert (D : drawn (stream (R0 ++ R1 ++ t)) 0 (R0 ++ R1 ++ t)) by (intros k Hk; reflexivity).
      destruct (drawn_app _ _ _ _ D) as [_ D']. destruct (drawn_app _ _ _ _ D') as [_ D2].
      rewrite L0, L1 in D2. exact D2. }
  apply few_outcome. intros [a0 s2] Ea. cbn [fst snd].
  assert (Ra : rep a0 (mle R0 out)).
  { apply TV in Ea. rewrite <- L0 in Ea, Trow. eapply (returns_inv _ _ (fun x => rep x (mle R0 out))); [|exact Ea].
    eapply V_res_ok; [apply reps_fes|apply reps_fes|exact Trow]. }
  assert (Rs : rep (fe_mul (fe_of_int 1) a0) (mle R0 out)).
  { eapply rep_eq; [apply rep_mul; [exact rep_i1|exact Ra]|ring]. }
  set (st0 := VState (fe_of_int 1) (fe_of_int 0) (fe_mul (fe_of_int 1) a0) (fes R0) (fes R1) (fes (comp R0)) (fes (comp R1))
           B0 (lo + lo) s2).
  assert (VS0 : vst C m (d - 1) st0 1%F 0%F R0 R1).
  { constructor; cbn [st0 s_alpha s_beta s_r0 s_r1 s_o0 s_o1 s_B]; try apply reps_fes; try exact HB.
    - exact rep_i1.
    - exact rep_i0.
    - exact L0.
    - exact L1. }
  eapply few_weaken; [apply (trad_layers_sound I TI C m CC Hm (d - 1) 0 st0 1%F 0%F R0 R1 (mle R0 out) ltac:(fold d; lia) ltac:(fold d; lia) VS0 Rs)| |].
  - intro K. apply N0. rewrite K. ring.
  - apply Nat.le_refl.
  - intros t _ H. exact H.
Qed.
