(** * Soundness of verifier_bc_clogc.cpp with the right factor (C60)

    For an arbitrary prover and for a verifier that computes the factor of line
    377 itself: a wrong claim about layer [i >= 1] turns into a wrong claim about
    layer [i - 1] except for a small fraction of the challenges. *)
From Coq Require Import ZArith List Bool Arith Lia Ring.
From Verif Require Import Limbs Field FieldProofs Fp ArithProofs Base MleSpec SpecGkr GkrMath Poly PolyProofs Circuit
  FastProver FastVerifier Lazy TablesProofs FastProverProofs PhaseProofs FastVerifierProofs Count SoundProofs
  TradProver TradVerifier TradProofs TradPhase TradVerifierProofs TradSound
  BcProver BcVerifier BcPhase0 BcPhase BcVerifierProofs BcSound0.
Import ListNotations.
Open Scope nat_scope.

Record bvst {S} (C : blocked_circuit) (m i : nat) (st : bstate S) (a be : F) (Rb R0 R1 : list F) : Prop := {
  bv_v : vst (block C 0) m i (bs_v st) a be R0 R1;
  bv_rb : bs_rb st = fes Rb; bv_ob : bs_ob st = fes (comp Rb);
  bv_lb : length Rb = total_blocks_binary_length C }.
Definition bc_value (C : blocked_circuit) (i : nat) (a be : F) (Rb R0 R1 : list F) : F :=
  (a * mle Rb (fun B => mle R0 (vals (block C B) i)) + be * mle Rb (fun B => mle R1 (vals (block C B) i)))%F.
Definition btrue {S} (C : blocked_circuit) (i : nat) (st : bstate S) : Prop :=
  exists a be Rb R0 R1, rep (s_alpha (bs_v st)) a /\ rep (s_beta (bs_v st)) be /\ reps (bs_rb st) Rb /\
    reps (s_r0 (bs_v st)) R0 /\ reps (s_r1 (bs_v st)) R1 /\ rep (s_sum (bs_v st)) (bc_value C i a be Rb R0 R1).

(** The factor of line 377 as it should be. *)
Definition right_factor {S} (k : nat) (factor : S -> list fe -> list fe -> fe) : Prop :=
  forall s Rb rb, length Rb = k -> length rb = k -> rep (factor s (fes Rb) (fes rb)) (eqpt Rb rb).

Section OneLayer.
Context {S : Type}.
Variable I : bprover_if S.
Hypothesis TI : btyped I.
Variable factor : S -> list fe -> list fe -> fe.
Variables (C : blocked_circuit) (m i : nat).
Hypothesis CC : bc_circuit C.
Hypothesis Hi : 0 < i < total_depth (block C 0).
Hypothesis Hm : forall j, j < total_depth (block C 0) -> bit_length (layer_at (block C 0) j) <= m.
Let k := total_blocks_binary_length C.
Hypothesis HF : right_factor k factor.
Let C0 := block C 0.
Let L := layer_at C0 i.
Let Lm := layer_at C0 (i - 1).
Let lg := bit_length L.
Let b := bit_length Lm.
Let V (rb : list F) := fun x => mle rb (fun B => vals (block C B) (i - 1) x).
Let U1 := only (bi_phase1_update I).
Let U2 := only (bi_phase2_update I).
Lemma T1 : typed U1.
Proof. apply only_typed. exact (bty_1 I TI). Qed.
Lemma T2 : typed U2.
Proof. apply only_typed. exact (bty_2 I TI). Qed.

(** The value the verifier computes from the claimed values [vu], [vv]. *)
Definition bfinal (a be : F) (R0 R1 ru rv : list F) (vu vv : F) : F :=
  (fval (form_of 0) vu vv * pred (2 ^ lg) (gate_at L) (gw a be R0 R1) 0 (eqw ru) (eqw rv) +
   fval (form_of 1) vu vv * pred (2 ^ lg) (gate_at L) (gw a be R0 R1) 1 (eqw ru) (eqw rv))%F.

Lemma bc_layer_inv : forall st a be Rb R0 R1 rnd ru rb rv al' be' st',
  bvst C m i st a be Rb R0 R1 -> reduced (s_sum (bs_v st)) ->
  length ru = b -> length rb = k -> length rv = b ->
  drawn rnd (s_pos (bs_v st)) (ru ++ rb ++ rv ++ [al'; be']) ->
  bc_layer_with I factor C0 k rnd i st = Ok st' ->
  (exists s0, bi_sumcheck_init I (s_p (bs_v st)) i k lg b b (s_alpha (bs_v st)) (s_beta (bs_v st))
         (bs_rb st) (s_r0 (bs_v st)) (s_r1 (bs_v st)) (bs_ob st) (s_o0 (bs_v st)) (s_o1 (bs_v st)) = Ok s0 /\
   exists s1, bi_phase0_init I s0 = Ok s1 /\
   exists t0, for_ k 0 (body0 I (fes rb)) (fe_of_int 0, s_sum (bs_v st), s1) = Ok t0 /\
   exists s2, bi_phase1_init I (snd t0) (fst (fst t0)) = Ok s2 /\
   exists t1, for_ b 0 (body1 U1 (fes ru)) (fst (fst t0), snd (fst t0), s2) = Ok t1 /\
   exists s3, bi_phase2_init I (snd t1) (fst (fst t1)) = Ok s3 /\
   exists t2, for_ b 0 (body1 U2 (fes rv)) (fe_of_int 0, snd (fst t1), s3) = Ok t2 /\
   exists t3, bi_finalize I (snd t2) (fst (fst t2)) = Ok t3 /\
     let '((v_u, v_v), s5) := t3 in let '(_, sum2, _) := t2 in
     exists vu vv, rep v_u vu /\ rep v_v vv /\ rep sum2 (eqpt Rb rb * bfinal a be R0 R1 ru rv vu vv)%F /\
       rep (s_sum (bs_v st')) (al' * vu + be' * vv)%F) /\
  bvst C m (i - 1) st' al' be' rb ru rv /\ s_pos (bs_v st') = s_pos (bs_v st) + (b + k + b + 2) /\
  reduced (s_sum (bs_v st')).
Proof.
  intros [st rb0 ob0] a be Rb R0 R1 rnd ru rb rv al' be' st'
    [[Ka Kb Kr0 Kr1 Ko0 Ko1 Kl0 Kl1 (KB0 & KB1 & KB2 & KB3)] Krb Kob Klb] Hs Lru Lrb Lrv Hd H.
  cbn [bs_v bs_rb bs_ob] in *. subst rb0 ob0. fold k in Klb.
  fold C0 L lg in Kl0, Kl1.
  destruct (drawn_app _ _ _ _ Hd) as [D1 Hd']. destruct (drawn_app _ _ _ _ Hd') as [Db Hd'']. destruct (drawn_app _ _ _ _ Hd'') as [D2 D3].
  clear Hd' Hd''. rewrite Lru in Db, D2, D3. rewrite Lrb in D2, D3. rewrite Lrv in D3.
  assert (Hb : b <= m) by apply (o_Hb C m i Hi Hm). assert (Hlg : lg <= m) by apply (o_Hlg C m i Hi Hm).
  assert (HG : 2 ^ lg <= length (gates L)) by apply (o_HG C m i CC Hi).
  assert (TG : forall g, g < 2 ^ lg -> trad_gate (2 ^ b) (gate_at L g)) by apply (o_TG C m i CC Hi).
  unfold bc_layer_with in H. cbn [bs_v bs_rb bs_ob] in H.
  assert (EL : rd (circuit C0) i = Ok L) by (unfold rd, C0; rewrite (o_lay C m i CC Hi); reflexivity).
  assert (ELm : rd (circuit C0) (i - 1) = Ok Lm) by (unfold rd, C0; rewrite (o_laym C m i CC Hi); reflexivity).
  rewrite EL, bind_Ok, ELm, bind_Ok in H. cbv zeta in H. fold lg b in H.
  apply bind_inv in H. destruct H as (s0 & E0 & H).
  pose proof (drawn_gen _ _ _ D1) as G1. rewrite Lru in G1. rewrite G1 in H. clear G1.
  pose proof (drawn_gen _ _ _ Db) as Gb. rewrite Lrb in Gb. rewrite Gb in H. clear Gb.
  pose proof (drawn_gen _ _ _ D2) as G2. rewrite Lrv in G2. rewrite G2 in H. clear G2.
  apply bind_inv in H. destruct H as (o_b & Eob & H).
  pose proof (returns_inv _ _ _ _ (one_minus_ok _ rb k (reps_fes rb) (eq_sym Lrb)) Eob) as Hob.
  apply bind_inv in H. destruct H as (s1 & E1 & H).
  apply bind_inv in H. destruct H as ([[prev0 sum0] s1'] & Et0 & H). rewrite bc_rounds0_body in Et0.
  pose proof (phase0_reduced I TI _ _ _ _ _ _ _ _ _ Hs Et0 (fes_reduced rb)) as Rsum0.
  apply bind_inv in H. destruct H as (s2 & E2 & H).
  apply bind_inv in H. destruct H as (o_u & Eou & H).
  pose proof (returns_inv _ _ _ _ (one_minus_ok _ ru b (reps_fes ru) (eq_sym Lru)) Eou) as Hou.
  apply bind_inv in H. destruct H as (o_v & Eov & H).
  pose proof (returns_inv _ _ _ _ (one_minus_ok _ rv b (reps_fes rv) (eq_sym Lrv)) Eov) as Hov.
  cbv beta in Hob, Hou, Hov. apply reps_inj in Hob. apply reps_inj in Hou. apply reps_inj in Hov. subst o_b o_u o_v.
  apply bind_inv in H. destruct H as ([[prev1 sum1] s2'] & Et1 & H). rewrite bc_rounds_body in Et1. fold U1 in Et1.
  pose proof (phase1_reduced U1 T1 _ _ _ _ _ _ _ _ _ Rsum0 Et1 (fes_reduced ru)) as Rsum1.
  apply bind_inv in H. destruct H as (s3 & E3 & H).
  apply bind_inv in H. destruct H as ([[prev2 sum2] s4] & Et2 & H). rewrite bc_rounds_body in Et2. fold U2 in Et2.
  pose proof (phase1_reduced U2 T2 _ _ _ _ _ _ _ _ _ Rsum1 Et2 (fes_reduced rv)) as Rsum2.
  apply bind_inv in H. destruct H as ([[v_u v_v] s5] & E5 & H).
  destruct (bty_f I TI _ _ _ _ _ E5) as [Rvu Rvv]. apply reduced_rep in Rvu. apply reduced_rep in Rvv.
  set (vu := ofZ (val512 v_u)) in *. set (vv := ofZ (val512 v_v)) in *.
  apply bind_inv in H. destruct H as (B' & EB & H).
  assert (Hbeta : returns (beta_init lg b (s_alpha st) (s_beta st) (s_r0 st) (s_r1 st) (fes ru) (fes rv)
         (s_o0 st) (s_o1 st) (fes (comp ru)) (fes (comp rv)) (s_B st)) (fun B' =>
    btabs (2 ^ m) lg b B' (gw a be R0 R1) (eqw ru) (eqg (prs rv (comp rv) 0 b)) /\
    length (b_g0 B') = 2 ^ m /\ length (b_g1 B') = 2 ^ m /\ length (b_u B') = 2 ^ m /\ length (b_v B') = 2 ^ m)).
  { apply (beta_init_btabs (2 ^ m) lg b); try assumption; try apply reps_fes.
    - rewrite comp_length. exact Lrv.
    - apply pow_mono, Hlg.
    - apply pow_mono, Hb. }
  pose proof (returns_inv _ _ _ _ Hbeta EB) as HB. cbv beta in HB.
  destruct HB as (BT & LB). clear Hbeta.
  assert (LO : forall j, j < 2 ^ lg -> layer_ok b (gate_at L j) j).
  { intros j Hj. left. apply trad_proto, TG, Hj. }
  apply bind_inv in H. destruct H as (mult_v & Q & H).
  pose proof (returns_inv _ _ _ _ (mult_pred_ok (2 ^ m) lg b L B' _ _ _ BT eq_refl HG LO) Q) as R_mult. clear Q.
  apply bind_inv in H. destruct H as (add_v & Q & H).
  pose proof (returns_inv _ _ _ _ (add_pred_ok (2 ^ m) lg b L B' _ _ _ BT eq_refl HG LO) Q) as R_add. clear Q.
  cbv beta in R_mult, R_add.
  assert (EP : prs rv (comp rv) 0 b = point rv) by (rewrite <- Lrv; apply prs_point).
  rewrite EP in R_mult, R_add.
  apply reject_inv in H. destruct H as [Hc H].
  pose proof (D3 0 ltac:(simpl; lia)) as A1. pose proof (D3 1 ltac:(simpl; lia)) as A2.
  rewrite Nat.add_0_r in A1. cbn [nth] in A1, A2. rewrite A1, A2, !fe_of_mod in H. apply Ok_inj in H. subst st'.
  cbn [bs_v bs_rb bs_ob s_sum s_pos].
  assert (Rnew : rep (fe_add (fe_mul (fe_of al') v_u) (fe_mul (fe_of be') v_v)) (al' * vu + be' * vv)%F).
  { apply rep_add; apply rep_mul; try assumption; apply rep_fe_of. }
  assert (HB : exists vu vv, rep v_u vu /\ rep v_v vv /\ rep sum2 (eqpt Rb rb * bfinal a be R0 R1 ru rv vu vv)%F /\
       rep (fe_add (fe_mul (fe_of al') v_u) (fe_mul (fe_of be') v_v)) (al' * vu + be' * vv)%F).
  { exists vu, vv. split; [exact Rvu|]. split; [exact Rvv|]. split; [|exact Rnew].
    pose proof (rep_mul _ _ _ _ (HF s5 Rb rb Klb Lrb) (trad_combine_ok _ _ _ _ _ _ _ _ R_add R_mult Rvu Rvv)) as CO.
    eapply rep_eq; [apply reduced_rep, Rsum2|]. rewrite (fne_inv _ _ _ _ (reduced_rep _ Rsum2) CO Hc). reflexivity. }
  split; [|split; [|split]].
  - exists s0. split; [exact E0|]. exists s1. split; [exact E1|]. exists (prev0, sum0, s1'). split; [exact Et0|].
    cbn [fst snd]. exists s2. split; [exact E2|]. exists (prev1, sum1, s2'). split; [exact Et1|].
    cbn [fst snd]. exists s3. split; [exact E3|]. exists (prev2, sum2, s4). split; [exact Et2|].
    cbn [fst snd]. exists ((v_u, v_v), s5). split; [exact E5|]. exact HB.
  - constructor; cbn [bs_v bs_rb bs_ob]; [|reflexivity|reflexivity|exact Lrb].
    constructor; cbn [s_p s_alpha s_beta s_r0 s_r1 s_o0 s_o1 s_B s_sum]; try apply rep_fe_of; try apply reps_fes; assumption.
  - lia.
  - eapply rep_reduced, Rnew.
Qed.

Lemma psum_scal : forall n c (X M A : nat -> F),
  psum n X (fun x => c * M x)%F (fun x => c * A x)%F = (c * psum n X M A)%F.
Proof. intros. unfold psum. rewrite <- sumn_scal. apply sumn_ext. intros. ring. Qed.
Lemma end_scal : forall c R (X M A : nat -> F),
  (mle R X * mle R (fun x => c * M x) + mle R (fun x => c * A x))%F = (c * (mle R X * mle R M + mle R A))%F.
Proof. intros. rewrite !mle_scal. ring. Qed.

Theorem bc_layer_sound : forall st a be Rb R0 R1 w, bvst C m i st a be Rb R0 R1 ->
  rep (s_sum (bs_v st)) w -> w <> bc_value C i a be Rb R0 R1 ->
  few (b + (k + (b + 2))) (3 * k + (2 * b + (2 * b + 1))) (fun v => exists rnd st', drawn rnd (s_pos (bs_v st)) v /\
    bc_layer_with I factor C0 k rnd i st = Ok st' /\ btrue C (i - 1) st').
Proof.
  intros st a be Rb R0 R1 w VS Rw N.
  assert (L0 : length R0 = lg) by (apply (vs_l0 _ _ _ _ _ _ _ _ (bv_v _ _ _ _ _ _ _ _ _ VS))).
  assert (L1 : length R1 = lg) by (apply (vs_l1 _ _ _ _ _ _ _ _ (bv_v _ _ _ _ _ _ _ _ _ VS))).
  assert (Lb : length Rb = k) by (apply (bv_lb _ _ _ _ _ _ _ _ _ VS)).
  set (W := gw a be R0 R1).
  assert (BG : forall g, g < 2 ^ lg -> bc_gate (2 ^ b) (gate_at L g)) by apply (o_BG C m i CC Hi).
  assert (TG : forall g, g < 2 ^ lg -> trad_gate (2 ^ b) (gate_at L g)) by apply (o_TG C m i CC Hi).
  assert (Start : bc_value C i a be Rb R0 R1 = bsum (2 ^ k) (2 ^ lg) L W (eqw Rb) (fun B => vals (block C B) (i - 1)))
    by exact (claim_bsum C i a be Rb R0 R1 CC Hi Lb L0 L1).
  rewrite Start in N.
  set (init := bi_sumcheck_init I (s_p (bs_v st)) i k lg b b (s_alpha (bs_v st)) (s_beta (bs_v st))
         (bs_rb st) (s_r0 (bs_v st)) (s_r1 (bs_v st)) (bs_ob st) (s_o0 (bs_v st)) (s_o1 (bs_v st))).
  apply few_swap.
  set (E0 := fun h => exists s0, init = Ok s0 /\ exists s1, bi_phase0_init I s0 = Ok s1 /\
    exists t0, for_ k 0 (body0 I (fes h)) (fe_of_int 0, s_sum (bs_v st), s1) = Ok t0 /\
      let '(_, sm', _) := t0 in rep sm' (mle h (eqw Rb) * gsumF (2 ^ lg) L W (V h))%F).
  apply (few_bind k _ (3 * k) (2 * b + (2 * b + 1)) E0).
  { unfold E0. apply few_outcome. intros s0 _. apply few_outcome. intros s1 _.
    exact (phase0_sound I TI (2 ^ lg) b L W BG k (eqw Rb) (fun B => vals (block C B) (i - 1)) [] (fe_of_int 0) _ w s1 Rw N). }
  intros rb Lrb NE0. set (bb := eqpt Rb rb).
  assert (Ebb : mle rb (eqw Rb) = bb) by (apply eqw_sym_mle; lia).
  set (M1 := fun x => (bb * gM1 lg L W (V rb) x)%F). set (A1 := fun x => (bb * gA1 lg L W (V rb) x)%F).
  set (M2 := fun ru x => (bb * gM2 lg L W (V rb) ru x)%F). set (A2 := fun ru x => (bb * gA2 lg L W (V rb) ru x)%F).
  assert (St1 : psum b (V rb) M1 A1 = (bb * gsumF (2 ^ lg) L W (V rb))%F)
    by (unfold M1, A1; rewrite psum_scal, (g_start lg b L W (V rb) TG); reflexivity).
  assert (Link : forall ru, length ru = b ->
    (mle ru (V rb) * mle ru M1 + mle ru A1)%F = psum b (V rb) (M2 ru) (A2 ru)).
  { intros ru Lru. unfold M1, A1, M2, A2. rewrite end_scal, psum_scal, (g_link lg b L W (V rb) TG ru Lru). reflexivity. }
  assert (End : forall ru rv, length rv = b -> 
    (mle rv (V rb) * mle rv (M2 ru) + mle rv (A2 ru))%F = (bb * bfinal a be R0 R1 ru rv (mle ru (V rb)) (mle rv (V rb)))%F).
  { intros ru rv Lrv. unfold M2, A2. rewrite end_scal, (g_end lg b L W (V rb) TG ru rv Lrv). reflexivity. }
  set (P0 := fun (K : fe * fe * S -> list F -> Prop) t => exists s0, init = Ok s0 /\ exists s1, bi_phase0_init I s0 = Ok s1 /\
    exists t0, for_ k 0 (body0 I (fes rb)) (fe_of_int 0, s_sum (bs_v st), s1) = Ok t0 /\ K t0 t).
  set (Fin := fun ru rv al' be' (t2 : fe * fe * S) (t3 : fe * fe * S) =>
     let '((v_u, v_v), s5) := t3 in let '(_, sum2, _) := t2 in
     exists vu vv, rep v_u vu /\ rep v_v vv /\ rep sum2 (bb * bfinal a be R0 R1 ru rv vu vv)%F /\
       (al' * vu + be' * vv = al' * mle ru (V rb) + be' * mle rv (V rb))%F).
  eapply (few_weaken _ _ _ (P0 (fun t0 t => 
    exists s2, bi_phase1_init I (snd t0) (fst (fst t0)) = Ok s2 /\
    exists ru rv al' be', length ru = b /\ length rv = b /\ t = ru ++ rv ++ [al'; be'] /\
    exists t1, for_ b 0 (body1 U1 (fes ru)) (fst (fst t0), snd (fst t0), s2) = Ok t1 /\
    exists s3, bi_phase2_init I (snd t1) (fst (fst t1)) = Ok s3 /\
    exists t2, for_ b 0 (body1 U2 (fes rv)) (fe_of_int 0, snd (fst t1), s3) = Ok t2 /\
    exists t3, bi_finalize I (snd t2) (fst (fst t2)) = Ok t3 /\ Fin ru rv al' be' t2 t3))); [|apply Nat.le_refl|].
  2:{ intros t Lt (ru & rb' & z & Lru & Lrb' & Et & rnd & st' & Hd & Hv & TC).
      destruct (app_inv_len _ rb rb' t (ru ++ z) ltac:(lia) Et) as [<- ->]. clear Et Lrb'.
      rewrite app_length in Lt.
      set (rv := firstn b z). assert (Lrv : length rv = b) by (unfold rv; rewrite firstn_length; lia).
      assert (Et : exists al' be', z = rv ++ [al'; be']).
      { assert (Ls : length (skipn b z) = 2) by (rewrite skipn_length; lia).
        pose proof (firstn_skipn b z) as FS. fold rv in FS. destruct (skipn b z) as [|x [|y [|]]]; try discriminate.
        exists x, y. symmetry. exact FS. }
      destruct Et as (al' & be' & Et). rewrite Et in Hd.
      destruct (bc_layer_inv st a be Rb R0 R1 rnd ru rb rv al' be' st' VS (rep_reduced _ _ Rw) Lru Lrb Lrv Hd Hv)
        as ((s0 & F0 & s1 & F1 & t0 & F1' & s2 & F2 & t1 & F3 & s3 & F4 & t2 & F5 & t3 & F6 & K) & VS' & _ & _).
      exists s0. split; [exact F0|]. exists s1. split; [exact F1|]. exists t0. split; [exact F1'|].
      exists s2. split; [exact F2|]. exists ru, rv, al', be'. split; [exact Lru|]. split; [exact Lrv|].
      split; [rewrite Et; reflexivity|].
      exists t1. split; [exact F3|]. exists s3. split; [exact F4|].
      exists t2. split; [exact F5|]. exists t3. split; [exact F6|]. unfold Fin.
      destruct t3 as [[v_u v_v] s5]. destruct t2 as [[? sum2] ?]. destruct K as (vu & vv & Ru & Rv & Rs & Rn).
      exists vu, vv. split; [exact Ru|]. split; [exact Rv|]. split; [exact Rs|].
      destruct TC as (a1 & b1 & Qb & Q0 & Q1 & Ta & Tb & Tc & T0 & T1' & Ts). destruct VS' as [[Va Vb V0 V1 _ _ _ _ _] Vrb _ _].
      rewrite Vrb in Tc.
      rewrite (rep_fun _ _ _ Ta Va), (rep_fun _ _ _ Tb Vb), (reps_fun _ _ _ T0 V0), (reps_fun _ _ _ T1' V1),
        (reps_fun _ _ _ Tc (reps_fes rb)) in Ts. unfold bc_value in Ts. rewrite (mle_swap ru rb), (mle_swap rv rb) in Ts.
      apply (rep_fun _ _ _ Rn Ts). }
  apply few_outcome. intros s0 F0. apply few_outcome. intros s1 F1. apply few_outcome. intros [[prev0 sum0] s1'] F1'.
  apply few_outcome. intros s2 F2. cbn [fst snd] in F2 |- *.
  pose proof (phase0_reduced I TI _ _ _ _ _ _ _ _ _ (rep_reduced _ _ Rw) F1' (fes_reduced rb)) as Rs0.
  assert (N0 : ofZ (val512 sum0) <> psum b (V rb) M1 A1).
  { intro K. rewrite St1 in K. apply NE0. exists s0. split; [exact F0|].
    exists s1. split; [exact F1|]. exists (prev0, sum0, s1'). split; [exact F1'|]. rewrite Ebb, <- K. apply reduced_rep, Rs0. }
  set (E1 := fun h => exists t1, for_ b 0 (body1 U1 (fes h)) (prev0, sum0, s2) = Ok t1 /\
      let '(_, sm', _) := t1 in rep sm' (mle h (V rb) * mle h M1 + mle h A1)%F).
  apply (few_bind b (b + 2) (2 * b) (2 * b + 1) E1).
  { exact (phase1_sound U1 T1 b (V rb) M1 A1 [] prev0 sum0 (ofZ (val512 sum0)) s2 (reduced_rep _ Rs0) N0). }
  intros ru Lru NE1.
  eapply (few_weaken _ _ _ (fun t => 
    exists t1, for_ b 0 (body1 U1 (fes ru)) (prev0, sum0, s2) = Ok t1 /\
    exists s3, bi_phase2_init I (snd t1) (fst (fst t1)) = Ok s3 /\
    exists rv al' be', length rv = b /\ t = rv ++ [al'; be'] /\
    exists t2, for_ b 0 (body1 U2 (fes rv)) (fe_of_int 0, snd (fst t1), s3) = Ok t2 /\
    exists t3, bi_finalize I (snd t2) (fst (fst t2)) = Ok t3 /\ Fin ru rv al' be' t2 t3)); [|apply Nat.le_refl|].
  2:{ intros t Lt (ru' & rv & al' & be' & Lru' & Lrv & Et & t1 & F3 & s3 & F4 & t2 & F5 & t3 & F6 & K).
      destruct (app_inv_len _ ru ru' t _ ltac:(lia) Et) as [<- ->]. clear Et.
      exists t1. split; [exact F3|]. exists s3. split; [exact F4|]. exists rv, al', be'. split; [exact Lrv|]. split; [reflexivity|].
      exists t2. split; [exact F5|]. exists t3. split; [exact F6|exact K]. }
  apply few_outcome. intros [[prev1 sum1] s2'] F3. apply few_outcome. intros s3 F4. cbn [fst snd] in F4 |- *.
  pose proof (phase1_reduced U1 T1 _ _ _ _ _ _ _ _ _ Rs0 F3 (fes_reduced ru)) as Rs1.
  assert (N1 : ofZ (val512 sum1) <> psum b (V rb) (M2 ru) (A2 ru)).
  { intro K. rewrite <- (Link ru Lru) in K. apply NE1. exists (prev1, sum1, s2'). split; [exact F3|].
    rewrite <- K. apply reduced_rep, Rs1. }
  set (E2 := fun rv => exists t2, for_ b 0 (body1 U2 (fes rv)) (fe_of_int 0, sum1, s3) = Ok t2 /\
    let '(_, sm', _) := t2 in rep sm' (mle rv (V rb) * mle rv (M2 ru) + mle rv (A2 ru))%F).
  apply (few_bind b 2 (2 * b) 1 E2).
  { exact (phase1_sound U2 T2 b (V rb) (M2 ru) (A2 ru) [] (fe_of_int 0) sum1
      (ofZ (val512 sum1)) s3 (reduced_rep _ Rs1) N1). }
  intros rv Lrv NE2.
  eapply (few_weaken _ _ _ (fun t => 
    exists t2, for_ b 0 (body1 U2 (fes rv)) (fe_of_int 0, sum1, s3) = Ok t2 /\
    exists t3, bi_finalize I (snd t2) (fst (fst t2)) = Ok t3 /\
    exists al' be', t = [al'; be'] /\ Fin ru rv al' be' t2 t3)); [|apply Nat.le_refl|].
  2:{ intros t Lt (rv' & al' & be' & Lrv' & Et & t2 & F5 & t3 & F6 & K).
      destruct (app_inv_len _ rv rv' t [al'; be'] ltac:(lia) Et) as [<- ->].
      exists t2. split; [exact F5|]. exists t3. split; [exact F6|]. exists al', be'. split; [reflexivity|exact K]. }
  apply few_outcome. intros [[prev2 sum2] s4] F5. apply few_outcome. intros [[v_u v_v] s5] F6. unfold Fin.
  destruct (bty_f I TI _ _ _ _ _ F6) as [Rvu Rvv]. apply reduced_rep in Rvu. apply reduced_rep in Rvv.
  set (vu := ofZ (val512 v_u)) in *. set (vv := ofZ (val512 v_v)) in *.
  assert (DD : (vu = mle ru (V rb) /\ vv = mle rv (V rb)) \/ (vu <> mle ru (V rb) \/ vv <> mle rv (V rb))).
  { destruct (F_eq_dec vu (mle ru (V rb))); [destruct (F_eq_dec vv (mle rv (V rb)))|]; auto. }
  destruct DD as [[Eu Ev]|Nuv].
  - apply few_none. intros t _ (al' & be' & _ & vu' & vv' & Ru & Rv & Rs & _).
    rewrite (rep_fun _ _ _ Ru Rvu), (rep_fun _ _ _ Rv Rvv), Eu, Ev in Rs.
    apply NE2. exists (prev2, sum2, s4). split; [exact F5|].
    rewrite (End ru rv Lrv). exact Rs.
  - eapply few_weaken; [apply (combination_few vu vv (mle ru (V rb)) (mle rv (V rb)) Nuv)|apply Nat.le_refl|].
    intros t _ (al' & be' & Et & vu' & vv' & Ru & Rv & Rs & K).
    rewrite (rep_fun _ _ _ Ru Rvu), (rep_fun _ _ _ Rv Rvv) in K. exists al', be'. auto.
Qed.
End OneLayer.

(** ** All layers *)
(** Number of challenges drawn while reducing layer [n] to layer 0, and the
    numerator of the error; [k] is the number of bits of the block index. *)
Fixpoint bc_challenges (k : nat) (C : layered_circuit) (n : nat) : nat :=
  match n with O => 0 | S n' => (2 * bit_length (layer_at C n') + k + 2) + bc_challenges k C n' end.
Fixpoint bc_error (k : nat) (C : layered_circuit) (n : nat) : nat :=
  match n with O => 0 | S n' => (4 * bit_length (layer_at C n') + 3 * k + 1) + bc_error k C n' end.

(** The last step of the verifier (verifier_bc_clogc.cpp:408-446). *)
Definition bc_input_check {S} (C : blocked_circuit) (bst : bstate S) : outcome bool :=
  let k := total_blocks_binary_length C in
  let st := bs_v bst in
  input <- bc_input_vector C (block C 0) ;;
  L0 <- rd (circuit (block C 0)) 0 ;;
  let bl0 := bit_length L0 in
  input_0 <- bc_V_in (bs_rb bst) (bs_ob bst) (s_r0 st) (s_o0 st) input k bl0 (2 ^ (bl0 + k)) ;;
  input_1 <- bc_V_in (bs_rb bst) (bs_ob bst) (s_r1 st) (s_o1 st) input k bl0 (2 ^ (bl0 + k)) ;;
  reject_if (fe_ne (s_sum st) (fe_add (fe_mul input_0 (s_alpha st)) (fe_mul input_1 (s_beta st)))) ;;;
  Ok true.
Lemma bc_input_check_inv : forall S C m (st : bstate S) a be Rb R0 R1, bc_circuit C -> bvst C m 0 st a be Rb R0 R1 ->
  reduced (s_sum (bs_v st)) -> bc_input_check C st = Ok true ->
  rep (s_sum (bs_v st)) (bc_value C 0 a be Rb R0 R1).
Proof.
  intros S C m [st rb ob] a be Rb R0 R1 CC [[Ka Kb Kr0 Kr1 Ko0 Ko1 Kl0 Kl1 _] Krb Kob Klb] Rs H.
  cbn [bs_v bs_rb bs_ob] in *. subst rb ob. unfold bc_input_check in H. cbn [bs_v bs_rb bs_ob] in H.
  set (k := total_blocks_binary_length C) in *. set (C0 := block C 0) in *.
  assert (EL0 : rd (circuit C0) 0 = Ok (layer_at C0 0)).
  { unfold rd, C0. rewrite (block_wf C CC 0 0 (some_block C CC)); [reflexivity|]. apply (bcc_pos C CC). }
  cbv zeta in H. apply bind_inv in H. destruct H as (input & Ei & H).
  pose proof (returns_inv _ _ _ _ (bc_input_ok C CC) Ei) as Ti. cbv beta in Ti. fold C0 in Ti.
  rewrite EL0, bind_Ok in H. set (bl := bit_length (layer_at C0 0)) in *.
  apply bind_inv in H. destruct H as (x & Ex & H). apply bind_inv in H. destruct H as (y & Ey & H).
  apply reject_inv in H. destruct H as [Hc _].
  assert (ET : forall c, 2 ^ k * c <= total_blocks C * c) by (intro c; apply Nat.mul_le_mono_r, (bcc_count C CC)).
  apply (fun T => tab_sub _ _ _ _ _ T (ET _)) in Ti.
  assert (IN : forall r o R z, reps r R -> reps o (comp R) -> length R = bl ->
    bc_V_in (fes Rb) (fes (comp Rb)) r o input k bl (2 ^ (bl + k)) = Ok z -> rep z (mle Rb (fun B => mle R (vals (block C B) 0)))).
  { intros r o R z Hr Ho Lr Ez. rewrite <- Lr, <- Klb in Ez.
    assert (Ti' : tab (2 ^ bl * total_blocks C) input (2 ^ (length R + length Rb)) (fun z => vals (block C (z / 2 ^ bl)) 0 (z mod 2 ^ bl))).
    { rewrite Nat.pow_add_r, Lr, Klb. fold k. rewrite (Nat.mul_comm (2 ^ bl) (2 ^ k)). exact Ti. }
    pose proof (returns_inv _ _ _ _ (bc_V_in_ok _ _ _ _ _ _ _ _ _ Hr Ho (reps_fes Rb) (reps_fes (comp Rb)) Ti') Ez) as Rz.
    cbv beta in Rz. rewrite <- Lr in Rz. rewrite (vtab_mle R Rb (fun B => vals (block C B) 0)) in Rz. exact Rz. }
  pose proof (IN _ _ _ _ Kr0 Ko0 Kl0 Ex) as Rx. pose proof (IN _ _ _ _ Kr1 Ko1 Kl1 Ey) as Ry.
  pose proof (rep_add _ _ _ _ (rep_mul _ _ _ _ Rx Ka) (rep_mul _ _ _ _ Ry Kb)) as RR.
  pose proof (fne_inv _ _ _ _ (reduced_rep _ Rs) RR Hc) as E.
  eapply rep_eq; [apply reduced_rep, Rs|]. rewrite E. unfold bc_value. ring.
Qed.

Section Layers.
Context {S : Type}.
Variable I : bprover_if S.
Hypothesis TI : btyped I.
Variable factor : S -> list fe -> list fe -> fe.
Variables (C : blocked_circuit) (m : nat).
Hypothesis CC : bc_circuit C.
Hypothesis Hm : forall j, j < total_depth (block C 0) -> bit_length (layer_at (block C 0) j) <= m.
Let k := total_blocks_binary_length C.
Hypothesis HF : right_factor k factor.
Let C0 := block C 0.
Let d := total_depth C0.

Lemma bc_layers_sound : forall n q st a be Rb R0 R1 w, d - 1 - q = n -> q < d ->
  bvst C m n st a be Rb R0 R1 ->
  rep (s_sum (bs_v st)) w -> w <> bc_value C n a be Rb R0 R1 ->
  few (bc_challenges k C0 n) (bc_error k C0 n) (fun v => exists rnd st', drawn rnd (s_pos (bs_v st)) v /\
    for_ n q (fun q st => bc_layer_with I factor C0 k rnd (d - 1 - q) st) st = Ok st' /\
    bc_input_check C st' = Ok true).
Proof.
  induction n as [|n IH]; intros q st a be Rb R0 R1 w Hk Hkd VS Rw N.
  - apply few_none. intros v _ (rnd & st' & _ & E & K).
    cbn [for_] in E. apply Ok_inj in E. subst st'. apply N.
    exact (rep_fun _ _ _ Rw (bc_input_check_inv _ C m _ _ _ _ _ _ CC VS (rep_reduced _ _ Rw) K)).
  - set (i := Datatypes.S n) in *. set (b := bit_length (layer_at C0 (i - 1))).
    assert (Ei : i - 1 = n) by (unfold i; lia).
    assert (Hi : 0 < i < total_depth (block C 0)) by (fold C0 d; unfold i; lia).
    assert (Eb : b = bit_length (layer_at C0 n)) by (unfold b; rewrite Ei; reflexivity).
    eapply few_eq with (n := b + (k + (b + 2)) + bc_challenges k C0 n) (k := 3 * k + (2 * b + (2 * b + 1)) + bc_error k C0 n).
    2,3: unfold i; cbn [bc_challenges bc_error]; rewrite <- Eb; lia.
    apply (few_bind _ _ _ _ (fun v => exists rnd st', drawn rnd (s_pos (bs_v st)) v /\
      bc_layer_with I factor C0 k rnd i st = Ok st' /\ btrue C (i - 1) st')).
    { exact (bc_layer_sound I TI factor C m i CC Hi Hm HF st a be Rb R0 R1 w VS Rw N). }
    intros h Lh NE.
    set (ru := firstn b h). set (rest := skipn b h).
    assert (Lru : length ru = b) by (unfold ru; rewrite firstn_length; lia).
    assert (Lrest : length rest = k + (b + 2)) by (unfold rest; rewrite skipn_length; lia).
    set (rb := firstn k rest). assert (Lrb : length rb = k) by (unfold rb; rewrite firstn_length; lia).
    set (rest' := skipn k rest). assert (Lrest' : length rest' = b + 2) by (unfold rest'; rewrite skipn_length; lia).
    set (rv := firstn b rest'). assert (Lrv : length rv = b) by (unfold rv; rewrite firstn_length; lia).
    assert (Eh : exists al' be', h = ru ++ rb ++ rv ++ [al'; be']).
    { assert (Ls : length (skipn b rest') = 2) by (rewrite skipn_length; lia).
      pose proof (firstn_skipn b rest') as FS. fold rv in FS. destruct (skipn b rest') as [|x [|y [|]]]; try discriminate.
      exists x, y. rewrite FS. unfold rb, rest'. rewrite (firstn_skipn k rest). unfold ru, rest. symmetry. apply firstn_skipn. }
    destruct Eh as (al' & be' & Eh).
    (* whatever rnd is, the state after the layer is determined by h *)
    set (pos := s_pos (bs_v st)) in *.
    set (rnd0 := fun q => if q <? pos then fe_zero else fe_of (nth (q - pos) h 0%F)).
    assert (D0 : drawn rnd0 pos h).
    { intros j Hj. unfold rnd0. destruct (Nat.ltb_spec (pos + j) pos); [lia|]. f_equal. f_equal. lia. }
    assert (Same : forall rnd, drawn rnd pos h -> bc_layer_with I factor C0 k rnd i st = bc_layer_with I factor C0 k rnd0 i st).
    { intros rnd D. unfold bc_layer_with.
      assert (EL : rd (circuit C0) i = Ok (layer_at C0 i)) by (unfold rd, C0; rewrite (o_lay C m i CC Hi); reflexivity).
      assert (ELm : rd (circuit C0) (i - 1) = Ok (layer_at C0 (i - 1))) by (unfold rd, C0; rewrite (o_laym C m i CC Hi); reflexivity).
      rewrite EL, !bind_Ok, ELm, !bind_Ok. cbv zeta. fold b. fold pos.
      rewrite Eh in D, D0.
      destruct (drawn_app _ _ _ _ D) as [D1 D']. destruct (drawn_app _ _ _ _ D') as [Db D'']. destruct (drawn_app _ _ _ _ D'') as [D2 D3].
      destruct (drawn_app _ _ _ _ D0) as [D01 D0']. destruct (drawn_app _ _ _ _ D0') as [D0b D0'']. destruct (drawn_app _ _ _ _ D0'') as [D02 D03].
      pose proof (drawn_gen _ _ _ D1) as G1. pose proof (drawn_gen _ _ _ Db) as Gb. pose proof (drawn_gen _ _ _ D2) as G2.
      pose proof (drawn_gen _ _ _ D01) as G01. pose proof (drawn_gen _ _ _ D0b) as G0b. pose proof (drawn_gen _ _ _ D02) as G02.
      rewrite Lru in *. rewrite Lrb in *. rewrite Lrv in *. rewrite G1, G01, Gb, G0b, G2, G02.
      pose proof (D3 0 ltac:(simpl; lia)) as X1. pose proof (D3 1 ltac:(simpl; lia)) as X2.
      pose proof (D03 0 ltac:(simpl; lia)) as Y1. pose proof (D03 1 ltac:(simpl; lia)) as Y2.
      rewrite Nat.add_0_r in X1, Y1. rewrite X1, X2, Y1, Y2. reflexivity. }
    destruct (bc_layer_with I factor C0 k rnd0 i st) as [st1| | | | | |] eqn:EV.
    2-7: apply few_none; intros t _ (rnd & st' & D & E & _); destruct (drawn_app _ _ _ _ D) as [Dh _];
      cbn [for_] in E; apply bind_inv in E; destruct E as (st2 & E2 & _);
      replace (d - 1 - q) with i in E2 by lia; rewrite (Same rnd Dh) in E2; discriminate.
    rewrite Eh in D0.
    destruct (bc_layer_inv I TI factor C m i CC Hi Hm HF st a be Rb R0 R1 rnd0 ru rb rv al' be' st1 VS (rep_reduced _ _ Rw) Lru Lrb Lrv D0 EV)
      as (_ & VS' & Pos' & Red').
    rewrite Ei in VS'. fold C0 in Pos'. fold b k in Pos'.
    eapply few_weaken; [apply (IH (Datatypes.S q) st1 al' be' rb ru rv (ofZ (val512 (s_sum (bs_v st1)))) ltac:(lia) ltac:(lia) VS' (reduced_rep _ Red'))| |].
    + intro K. apply NE. exists rnd0, st1. rewrite Eh. split; [exact D0|]. split; [exact EV|]. rewrite Ei.
      destruct VS' as [[Va Vb V0 V1 _ _ _ _ _] Vrb _ _]. exists al', be', rb, ru, rv.
      split; [exact Va|]. split; [exact Vb|]. split; [rewrite Vrb; apply reps_fes|]. split; [exact V0|]. split; [exact V1|]. rewrite <- K. apply reduced_rep, Red'.
    + apply Nat.le_refl.
    + intros t Lt (rnd & st' & D & E & TC). destruct (drawn_app _ _ _ _ D) as [Dh Dt].
      exists rnd, st'. rewrite Pos'. replace (b + k + b + 2) with (length h) by lia. split; [exact Dt|].
      unfold i in E. cbn [for_] in E. apply bind_inv in E. destruct E as (st2 & E2 & E).
      replace (d - 1 - q) with i in E2 by lia. rewrite (Same rnd Dh) in E2. apply Ok_inj in E2. subst st2.
      split; [exact E|exact TC].
Qed.
End Layers.

(** ** The whole verifier *)
Definition trusted_bc_V_res {S} (I : bprover_if S) : Prop := forall s o r ob rb row n nb sz x s',
  bi_V_res I s o r ob rb row n nb sz = Ok (x, s') -> bc_V_res o r ob rb row n nb sz = Ok x.

Theorem bc_sound : forall S (I : bprover_if S) factor C m M s0 row s1 out B0,
  let C0 := block C 0 in
  let k := total_blocks_binary_length C in
  btyped I -> trusted_bc_V_res I -> right_factor k factor -> bc_circuit C ->
  (forall j, j < total_depth C0 -> bit_length (layer_at C0 j) <= m) ->
  length (b_g0 B0) = 2 ^ m /\ length (b_g1 B0) = 2 ^ m /\ length (b_u B0) = 2 ^ m /\ length (b_v B0) = 2 ^ m ->
  bi_evaluate I s0 = Ok (row, s1) ->
  let d := total_depth C0 in
  let lo := bit_length (layer_at C0 (d - 1)) in
  vtab M row (2 ^ k) lo out ->
  (exists B x, B < 2 ^ k /\ x < 2 ^ lo /\ out B x <> vals (block C B) (d - 1) x) ->
  few (lo + k + (lo + bc_challenges k C0 (d - 1))) (lo + k + bc_error k C0 (d - 1)) (fun v =>
    bc_verify_with I factor C (stream v) B0 s0 = Ok true).
Proof.
  intros S I factor C m M s0 row s1 out B0 C0 k TI TV HF CC Hm HB Ee d lo Trow (Bw & xw & HBw & Hxw & Wrong).
  pose proof (bcc_pos C CC) as Dp. fold C0 d in Dp.
  assert (Pl : 0 < 2 ^ lo) by apply pow2_pos.
  set (fo := fun z => out (z / 2 ^ lo) (z mod 2 ^ lo)).
  set (ft := fun z => vals (block C (z / 2 ^ lo)) (d - 1) (z mod 2 ^ lo)).
  apply (few_bind (lo + k) _ (lo + k) _ (fun R => mle R fo = mle R ft)).
  { apply schwartz_zippel. exists (Bw * 2 ^ lo + xw). split.
    - rewrite Nat.pow_add_r, (Nat.mul_comm (2 ^ lo)). apply pair_lt; assumption.
    - unfold fo, ft. rewrite pair_div, pair_mod by lia. exact Wrong. }
  intros h Lh N0.
  set (R0 := firstn lo h). set (Rb := skipn lo h).
  assert (L0 : length R0 = lo) by (unfold R0; rewrite firstn_length; lia).
  assert (Lb : length Rb = k) by (unfold Rb; rewrite skipn_length; lia).
  assert (Eh : h = R0 ++ Rb) by (unfold R0, Rb; rewrite firstn_skipn; reflexivity). clearbody R0 Rb. subst h.
  assert (Mo : mle (R0 ++ Rb) fo = mle Rb (fun B => mle R0 (out B))) by (unfold fo; rewrite <- L0; apply vtab_mle).
  assert (Mt : mle (R0 ++ Rb) ft = mle Rb (fun B => mle R0 (vals (block C B) (d - 1))))
    by (unfold ft; rewrite <- L0; apply (vtab_mle R0 Rb (fun B => vals (block C B) (d - 1)))).
  apply (few_bind lo _ 0 (bc_error k C0 (d - 1)) (fun _ => False)); [apply few_none; intros ? ? []|].
  intros R1 L1 _.
  assert (EC : rd (blocks C) 0 = Ok C0) by (unfold rd; rewrite (block_rd C CC 0 (some_block C CC)); reflexivity).
  assert (EL : rd (circuit C0) (d - 1) = Ok (layer_at C0 (d - 1)))
    by (unfold rd, C0; rewrite (block_wf C CC 0 (d - 1) (some_block C CC)) by (fold C0 d; lia); reflexivity).
  set (VR := bi_V_res I s1 (fes (comp R0)) (fes R0) (fes (comp Rb)) (fes Rb) row lo k (2 ^ (lo + k))).
  set (st0 := fun ab : fe * S => BState (VState (fe_of_int 1) (fe_of_int 0) (fe_mul (fe_of_int 1) (fst ab)) (fes R0) (fes R1) (fes (comp R0)) (fes (comp R1))
           B0 (lo + k + lo) (snd ab)) (fes Rb) (fes (comp Rb))).
  assert (Decomp : forall t, bc_verify_with I factor C (stream ((R0 ++ Rb) ++ R1 ++ t)) B0 s0 = Ok true ->
    exists ab, VR = Ok ab /\
      exists st, for_ (d - 1) 0 (fun q st => bc_layer_with I factor C0 k (stream ((R0 ++ Rb) ++ R1 ++ t)) (d - 1 - q) st)
        (st0 ab) = Ok st /\ bc_input_check C st = Ok true).
  { intros t H. unfold bc_verify_with in H.
    destruct (bc_verify_body I factor C (stream ((R0 ++ Rb) ++ R1 ++ t)) B0 s0) as [x| | | | | |] eqn:E; try discriminate.
    rewrite H in E. clear H x. rename E into H.
    unfold bc_verify_body in H. fold k in H. rewrite Ee, bind_Ok, EC, bind_Ok in H. fold d in H. rewrite EL, bind_Ok in H. cbv zeta in H.
    assert (D : drawn (stream ((R0 ++ Rb) ++ R1 ++ t)) 0 ((R0 ++ Rb) ++ R1 ++ t)) by (intros q Hq; reflexivity).
    destruct (drawn_app _ _ _ _ D) as [D0 D']. destruct (drawn_app _ _ _ _ D') as [D1 _].
    destruct (drawn_app _ _ _ _ D0) as [D00 Db].
    pose proof (drawn_gen _ _ _ D00) as G0. pose proof (drawn_gen _ _ _ Db) as Gb. pose proof (drawn_gen _ _ _ D1) as G1.
    rewrite app_length in G1. simpl (0 + (_ + _)) in G1. rewrite L0 in G0, Gb, G1. rewrite Lb in Gb, G1. rewrite L1 in G1.
    simpl (0 + lo) in G0, Gb.
    fold lo in H. rewrite G0, Gb, G1 in H.
    apply bind_inv in H. destruct H as (o0 & Eo & H).
    pose proof (returns_inv _ _ _ _ (one_minus_ok _ R0 lo (reps_fes R0) (eq_sym L0)) Eo) as Ho. cbv beta in Ho.
    apply reps_inj in Ho. subst o0. clear Eo.
    apply bind_inv in H. destruct H as (o1 & Eo & H).
    pose proof (returns_inv _ _ _ _ (one_minus_ok _ R1 lo (reps_fes R1) (eq_sym L1)) Eo) as Ho. cbv beta in Ho.
    apply reps_inj in Ho. subst o1. clear Eo.
    apply bind_inv in H. destruct H as (ob & Eo & H).
    pose proof (returns_inv _ _ _ _ (one_minus_ok _ Rb k (reps_fes Rb) (eq_sym Lb)) Eo) as Ho. cbv beta in Ho.
    apply reps_inj in Ho. subst ob. clear Eo.
    apply bind_inv in H. destruct H as ([a0 s2] & Ea & H). exists (a0, s2). split; [exact Ea|].
    apply bind_inv in H. destruct H as (st & Es & H). exists st. split; [exact Es|exact H]. }
  eapply (few_weaken _ _ _ (fun t => exists ab, VR = Ok ab /\
    exists rnd st', drawn rnd (lo + k + lo) t /\ 
      for_ (d - 1) 0 (fun q st => bc_layer_with I factor C0 k rnd (d - 1 - q) st) (st0 ab) = Ok st' /\ bc_input_check C st' = Ok true)); [|apply Nat.le_refl|].
  2:{ intros t Lt H. destruct (Decomp t H) as (ab & Ea & st & E & IC). exists ab. split; [exact Ea|].
      exists (stream ((R0 ++ Rb) ++ R1 ++ t)), st. split; [|split; assumption].
      assert (D : drawn (stream ((R0 ++ Rb) ++ R1 ++ t)) 0 ((R0 ++ Rb) ++ R1 ++ t)) by (intros q Hq; reflexivity).
      destruct (drawn_app _ _ _ _ D) as [_ D']. destruct (drawn_app _ _ _ _ D') as [_ D2].
      rewrite app_length, L0, Lb, L1 in D2. exact D2. }
  apply few_outcome. intros [a0 s2] Ea.
  assert (Ra : rep a0 (mle (R0 ++ Rb) fo)).
  { apply TV in Ea. rewrite <- L0, <- Lb in Ea. eapply (returns_inv _ _ (fun x => rep x (mle (R0 ++ Rb) fo))); [|exact Ea].
    eapply bc_V_res_ok; try apply reps_fes. unfold vtab in Trow. rewrite Nat.pow_add_r, L0, Lb, (Nat.mul_comm (2 ^ lo)). exact Trow. }
  assert (Rs : rep (fe_mul (fe_of_int 1) a0) (mle (R0 ++ Rb) fo)).
  { eapply rep_eq; [apply rep_mul; [exact rep_i1|exact Ra]|ring]. }
  assert (VS0 : bvst C m (d - 1) (st0 (a0, s2)) 1%F 0%F Rb R0 R1).
  { constructor; cbn [st0 bs_v bs_rb bs_ob]; [|reflexivity|reflexivity|exact Lb].
    constructor; cbn [fst snd s_alpha s_beta s_r0 s_r1 s_o0 s_o1 s_B]; try apply reps_fes; try exact HB.
    - exact rep_i1.
    - exact rep_i0.
    - exact L0.
    - exact L1. }
  eapply few_weaken; [apply (bc_layers_sound I TI factor C m CC Hm HF (d - 1) 0 (st0 (a0, s2)) 1%F 0%F Rb R0 R1 (mle (R0 ++ Rb) fo) ltac:(fold C0 d; lia) ltac:(fold C0 d; lia) VS0 Rs)| |].
  - intro K. apply N0. rewrite K, Mt. unfold bc_value. ring.
  - apply Nat.le_refl.
  - intros t _ H. exact H.
Qed.
