(** * The block verifier: proofs (C58) *)
From Coq Require Import ZArith List Bool Arith Lia Ring.
From Verif Require Import Limbs Field FieldProofs Fp Base MleSpec GkrMath Poly PolyProofs Circuit
  FastProver Lazy TablesProofs FastProverProofs PhaseProofs FastVerifier FastVerifierProofs
  SpecGkr RoundProofs TradProver TradVerifier TradProofs TradPhase TradVerifierProofs
  BcProver BcVerifier BcPhase0 BcPhase.
Import ListNotations.
Open Scope nat_scope.

(** The claim at layer [i]: all blocks at once. *)
Record bclaim (C : blocked_circuit) (m i : nat) (st : bstate bprover) (a be : F) (Rb R0 R1 : list F) : Prop := {
  bk_p : binv C m (s_p (bs_v st));
  bk_a : rep (s_alpha (bs_v st)) a; bk_b : rep (s_beta (bs_v st)) be;
  bk_rb : reps (bs_rb st) Rb; bk_ob : reps (bs_ob st) (comp Rb); bk_lb : length Rb = total_blocks_binary_length C;
  bk_r0 : reps (s_r0 (bs_v st)) R0; bk_r1 : reps (s_r1 (bs_v st)) R1;
  bk_o0 : reps (s_o0 (bs_v st)) (comp R0); bk_o1 : reps (s_o1 (bs_v st)) (comp R1);
  bk_l0 : length R0 = bit_length (layer_at (block C 0) i); bk_l1 : length R1 = bit_length (layer_at (block C 0) i);
  bk_B : length (b_g0 (s_B (bs_v st))) = 2 ^ m /\ length (b_g1 (s_B (bs_v st))) = 2 ^ m /\
         length (b_u (s_B (bs_v st))) = 2 ^ m /\ length (b_v (s_B (bs_v st))) = 2 ^ m;
  bk_s : rep (s_sum (bs_v st)) (a * mle Rb (fun B => mle R0 (vals (block C B) i)) +
                                be * mle Rb (fun B => mle R1 (vals (block C B) i)))%F }.

(** The claim as the sum of phase 0. *)
Lemma claim_bsum : forall C i a be Rb R0 R1, bc_circuit C -> 0 < i < total_depth (block C 0) ->
  length Rb = total_blocks_binary_length C ->
  length R0 = bit_length (layer_at (block C 0) i) -> length R1 = bit_length (layer_at (block C 0) i) ->
  (a * mle Rb (fun B => mle R0 (vals (block C B) i)) + be * mle Rb (fun B => mle R1 (vals (block C B) i)))%F =
  bsum (2 ^ total_blocks_binary_length C) (2 ^ bit_length (layer_at (block C 0) i)) (layer_at (block C 0) i)
    (gw a be R0 R1) (eqw Rb) (fun B => vals (block C B) (i - 1)).
Proof.
  intros C i a be Rb R0 R1 CC Hi Lb L0 L1. rewrite <- !mle_scal, <- mle_add. unfold bsum, mle at 1. rewrite Lb.
  apply sumn_ext. intros B HB. pose proof (Nat.lt_le_trans _ _ _ HB (bcc_count C CC)) as HB'. clear HB. rename HB' into HB. f_equal.
  rewrite <- (block_bits C CC B i HB) in L0, L1 by lia. rewrite (weighted_claim (block C B) i a be R0 R1 L0 L1).
  rewrite (block_bits C CC B i HB) by lia. rewrite (block_vals C CC B i HB Hi). reflexivity.
Qed.

(** A factor that agrees with the one of the honest prover. *)
Definition fair_factor (k : nat) (factor : bprover -> list fe -> list fe -> fe) : Prop :=
  forall p rb0 rb1 Rb rb, reps rb0 Rb -> reps rb1 rb -> length Rb = k -> length rb = k ->
    rep (b_blk p) (mle rb (eqw Rb)) -> rep (factor p rb0 rb1) (mle rb (eqw Rb)).
Lemma bc_layer_with_ok : forall factor C m i rnd st a be Rb R0 R1, fair_factor (total_blocks_binary_length C) factor ->
  bc_circuit C -> 0 < i < total_depth (block C 0) ->
  (forall j, j < total_depth (block C 0) -> bit_length (layer_at (block C 0) j) <= m) -> (forall n, reduced (rnd n)) ->
  bclaim C m i st a be Rb R0 R1 ->
  returns (bc_layer_with bc_honest factor (block C 0) (total_blocks_binary_length C) rnd i st)
    (fun st' => exists a' be' Rb' R0' R1', bclaim C m (i - 1) st' a' be' Rb' R0' R1').
Proof.
  intros factor C m i rnd [st rb0 ob0] a be Rb R0 R1 HF CC Hi Hm Hrnd
    [Kp Ka Kb Krb Kob Klb Kr0 Kr1 Ko0 Ko1 Kl0 Kl1 (KB0 & KB1 & KB2 & KB3) Ks].
  cbn [bs_v bs_rb bs_ob] in *.
  set (k := total_blocks_binary_length C) in *. set (C0 := block C 0) in *. unfold bc_layer_with. cbn [bs_v bs_rb bs_ob].
  eapply rb_nth; [apply (o_lay C m i CC Hi)|]. eapply rb_nth; [apply (o_laym C m i CC Hi)|]. fold C0.
  set (L := layer_at C0 i) in *. set (Lm := layer_at C0 (i - 1)). set (lg := bit_length L) in *. set (b := bit_length Lm).
  cbn [bc_honest bi_sumcheck_init bi_phase0_init bi_phase0_update bi_phase1_init bi_phase1_update bi_phase2_init
       bi_phase2_update bi_finalize bi_beta_blk_val bind].
  set (p0 := bc_sumcheck_init _ _ _ _ _ _ _ _ _ _ _ _ _ _).
  destruct (generate_randomness rnd (s_pos st) b) as [r_u pos1] eqn:Eu.
  destruct (generate_randomness rnd pos1 k) as [r_b pos2] eqn:Eb.
  destruct (generate_randomness rnd pos2 b) as [r_v pos3] eqn:Ev.
  pose proof (generate_randomness_ok rnd (s_pos st) b Hrnd) as Hru. rewrite Eu in Hru. cbn [fst] in Hru.
  pose proof (generate_randomness_ok rnd pos1 k Hrnd) as Hrb. rewrite Eb in Hrb. cbn [fst] in Hrb.
  pose proof (generate_randomness_ok rnd pos2 b Hrnd) as Hrv. rewrite Ev in Hrv. cbn [fst] in Hrv.
  set (ru := map _ _) in Hru. set (rb := map _ _) in Hrb. set (rv := map _ _) in Hrv.
  assert (Lru : length ru = b) by (unfold ru; rewrite map_length, seq_length; reflexivity).
  assert (Lrb : length rb = k) by (unfold rb; rewrite map_length, seq_length; reflexivity).
  assert (Lrv : length rv = b) by (unfold rv; rewrite map_length, seq_length; reflexivity).
  clearbody ru rb rv. clear Eu Eb Ev.
  eapply returns_bind; [apply (one_minus_ok r_b rb k Hrb); symmetry; exact Lrb|]. intros o_b Hob. cbv beta in Hob.
  assert (RD : b_ready C m i a be Rb R0 R1 p0).
  { split; [destruct Kp as [? ? ? [] ? ? ?]; constructor; try assumption; constructor; assumption|].
    constructor; try assumption; try reflexivity. constructor; try assumption; reflexivity. }
  eapply returns_bind; [apply (phase0_init_ok C m i CC Hi Hm a be Rb R0 R1 p0 RD)|].
  intros p1 D1. cbv beta in D1.
  rewrite (claim_bsum C i a be Rb R0 R1 CC Hi Klb Kl0 Kl1) in Ks.
  eapply returns_bind; [apply (rounds0_ok C m i CC Hi a be Rb R0 R1 p1 r_b rb (s_sum st) Lrb Hrb D1 Ks)|].
  intros [[prev0 sum0] p2] (Rp0 & Rs0 & D2).
  set (V := fun x => mle rb (fun B => vals (block C B) (i - 1) x)).
  set (bb := mle rb (eqw Rb)) in *. set (W := gw a be R0 R1) in *.
  eapply returns_bind; [apply (phase1_init_ok C m i CC Hi Hm a be Rb R0 R1 rb Lrb p2 prev0 D2 Rp0)|].
  intros p3 [PT3 HB3].
  eapply returns_bind; [apply (one_minus_ok r_u ru b Hru); symmetry; exact Lru|]. intros o_u Hou.
  eapply returns_bind; [apply (one_minus_ok r_v rv b Hrv); symmetry; exact Lrv|]. intros o_v Hov.
  cbv beta in Hou, Hov.
  assert (TG : forall g, g < 2 ^ lg -> trad_gate (2 ^ b) (gate_at L g)) by apply (o_TG C m i CC Hi).
  change (rep sum0 (bb * gsumF (2 ^ lg) L W V)%F) in Rs0.
  rewrite <- (g_start lg b L W V TG) in Rs0.
  eapply returns_bind.
  { apply (roundsR_ok C m i CC Hi Hm a be Rb R0 R1 rb Lrb g_u (wu L) W (fun g => V (wv L g))
      (fun gt => iv <- idx (g_v gt) ;; rd (b_copy p3) iv) p3 bc_phase1_update) with (R := ru); try assumption.
    - apply (live1 C m i CC Hi).
    - intros g Hg Hl. apply (other1 C m i CC Hi a be Rb R0 R1 rb Lrb p3 g PT3 Hg Hl).
    - intros. apply upd1_shape. }
  intros [[prev1 sum1] p4] (Rp1 & Rs1 & D4).
  destruct (duringR_point C m i a be Rb R0 R1 rb (wu L) W p3 PT3 p4 ru D4) as (PT4 & HB4 & _).
  change (rep sum1 (bb * (mle ru V * mle ru (gM1 lg L W V) + mle ru (gA1 lg L W V)))%F) in Rs1.
  rewrite (g_link lg b L W V TG ru Lru) in Rs1.
  eapply returns_bind; [apply (phase2_init_ok C m i CC Hi Hm a be Rb R0 R1 rb Lrb p4 prev1 ru Lru); split; [exact PT4|split; [exact HB4|exact Rp1]]|].
  intros p5 (PT5 & Rvu & HB5).
  set (W2 := fun g => (W g * eqw ru (wu L g))%F) in *.
  eapply returns_bind.
  { apply (roundsR_ok C m i CC Hi Hm a be Rb R0 R1 rb Lrb g_v (wv L) W2 (fun _ => mle ru V)
      (fun _ => Ok (t_v_u (b_t p5))) p5 bc_phase2_update) with (R := rv); try assumption.
    - apply (live2 C m i CC Hi).
    - intros g Hg Hl. apply returns_ok. exact Rvu.
    - intros. apply (upd2_shape m). assumption. }
  intros [[prev2 sum2] p6] (Rp2 & Rs2 & D6).
  destruct (duringR_point C m i a be Rb R0 R1 rb (wv L) W2 p5 PT5 p6 rv D6) as (PT6 & HB6 & S6).
  change (rep sum2 (bb * (mle rv V * mle rv (gM2 lg L W V ru) + mle rv (gA2 lg L W V ru)))%F) in Rs2.
  rewrite (g_end lg b L W V TG ru rv Lrv) in Rs2.
  eapply returns_bind; [apply (finalize_ok C m i CC Hi a be Rb R0 R1 rb p6 prev2 rv _ _ Lrv PT6 HB6 Rp2)|].
  intros [[v_u v_v] p7]. cbn [fst snd]. intros (Evu & Rvv & PI7 & Ebl).
  assert (Evu' : t_v_u (b_t p6) = t_v_u (b_t p5)) by (destruct S6 as (? & ? & ? & ? & -> & _); reflexivity).
  rewrite Evu' in Evu. subst v_u.
  assert (Rbb : rep (factor p7 rb0 r_b) bb).
  { apply HF; try assumption. rewrite Ebl. apply PT6. }
  assert (Hb : b <= m) by apply (o_Hb C m i Hi Hm).
  assert (Hlg : lg <= m) by apply (o_Hlg C m i Hi Hm).
  assert (HG : 2 ^ lg <= length (gates L)) by apply (o_HG C m i CC Hi).
  eapply returns_bind.
  { apply (beta_init_btabs (2 ^ m) lg b) with (R0 := R0) (R1 := R1) (Ru := ru) (Rv := rv) (Ov := comp rv) (a := a) (be := be);
      try assumption.
    - rewrite comp_length. exact Lrv.
    - apply pow_mono, Hlg.
    - apply pow_mono, Hb. }
  intros B' (BT' & LB0 & LB1 & LB2 & LB3).
  assert (LO : forall j, j < 2 ^ lg -> layer_ok b (gate_at L j) j).
  { intros j Hj. left. apply trad_proto, TG, Hj. }
  eapply returns_bind; [apply (mult_pred_ok (2 ^ m) lg b L B' _ _ _ BT' eq_refl HG LO)|]. intros mult_v R_mult.
  eapply returns_bind; [apply (add_pred_ok (2 ^ m) lg b L B' _ _ _ BT' eq_refl HG LO)|]. intros add_v R_add.
  cbv beta in R_mult, R_add.
  assert (EP : prs rv (comp rv) 0 b = point rv) by (rewrite <- Lrv; apply prs_point).
  rewrite EP in R_mult, R_add.
  apply rb_reject.
  { eapply rep_fne_false; [exact Rs2|apply rep_mul; [exact Rbb|apply trad_combine_ok; [exact R_add|exact R_mult|exact Rvu|exact Rvv]]|].
    reflexivity. }
  apply returns_ok. exists (ofZ (val512 (rnd pos3))), (ofZ (val512 (rnd (pos3 + 1)))), rb, ru, rv.
  pose proof (rnd_val rnd Hrnd) as RV.
  constructor; cbn [bs_v bs_rb bs_ob s_p s_alpha s_beta s_r0 s_r1 s_o0 s_o1 s_B s_sum]; try assumption.
  - apply RV.
  - apply RV.
  - split; [exact LB0|]. split; [exact LB1|]. split; [exact LB2|exact LB3].
  - rewrite (mle_swap ru rb), (mle_swap rv rb). apply rep_add; (apply rep_mul; [apply RV|assumption]).
Qed.

(** ** Completeness *)
Lemma bc_input_ok : forall C, bc_circuit C -> let bl := bit_length (layer_at (block C 0) 0) in
  returns (bc_input_vector C (block C 0)) (fun l => vtab (2 ^ bl * total_blocks C) l (total_blocks C) bl
    (fun B => vals (block C B) 0)).
Proof.
  intros C CC bl. unfold bc_input_vector. set (d := total_depth (block C 0)).
  assert (Dp : 0 < d) by apply (bcc_pos C CC).
  eapply rb_nth; [apply (block_wf C CC 0 0 (some_block C CC)); exact Dp|]. fold bl.
  set (bs := 2 ^ bl). assert (Hbs : 0 < bs) by apply pow2_pos.
  set (f := fun z => vals (block C (z / bs)) 0 (z mod bs)). set (N := bs * total_blocks C).
  apply (returns_for _ (total_blocks C) 0 _ (fun B l => tab N l (B * bs) f)).
  - pose proof (tab_nil (repeat fe_zero N) f) as K. rewrite repeat_length in K. exact K.
  - intros B l HB T. simpl in HB. eapply rb_nth; [apply (block_rd C CC); lia|].
    eapply rb_nth; [apply (block_wf C CC B 0); [lia|exact Dp]|].
    rewrite (bcc_input_bits C CC B) by lia. fold bl bs.
    eapply returns_conseq.
    + apply (returns_for _ bs 0 _ (fun j l => tab N l (B * bs + j) f)).
      * rewrite Nat.add_0_r. exact T.
      * intros j l' Hj T'. simpl in Hj.
        assert (HG : bs <= length (gates (layer_at (block C B) 0))).
        { pose proof (bcc_gates C CC B 0 ltac:(lia) Dp) as H. rewrite (bcc_input_bits C CC B) in H by lia. exact H. }
        eapply rb_nth; [apply gate_rd; lia|].
        assert (Ety : ((g_ty (gate_at (layer_at (block C B) 0) j) =? 3)%Z || (g_ty (gate_at (layer_at (block C B) 0) j) =? 2)%Z)%bool = true).
        { destruct (bcc_input C CC B j ltac:(lia) ltac:(fold bl bs; lia)) as [E|E]; rewrite E; reflexivity. }
        rewrite Ety. pose proof (tab_len _ _ _ _ T') as LT.
        assert (HI : B * bs + j < N) by (unfold N; rewrite (Nat.mul_comm bs (total_blocks C)); apply pair_lt; lia).
        apply returns_wr; [lia|]. rewrite Nat.add_succ_r. apply tab_push; [exact T'|exact HI|].
        unfold f. rewrite pair_div, pair_mod by lia. rewrite (block_vals_0 C CC B) by lia. apply rep_of_int.
    + cbv beta. intros l' T'. simpl (0 + bs) in T'. replace (S B * bs) with (B * bs + bs) by (simpl; lia). exact T'.
Qed.
(** The multilinear extension of a table of blocks. *)
Lemma vtab_mle : forall (R Rb : list F) (VB : nat -> nat -> F),
  mle (R ++ Rb) (fun z => VB (z / 2 ^ length R) (z mod 2 ^ length R)) = mle Rb (fun B => mle R (VB B)).
Proof.
  intros R Rb VB. rewrite mle_blocks. apply mle_ext. intros B _. apply mle_ext. intros g Hg.
  rewrite pair_div, pair_mod by lia. reflexivity.
Qed.

Theorem bc_complete_with : forall factor C rnd, fair_factor (total_blocks_binary_length C) factor ->
  bc_circuit C -> (forall n, reduced (rnd n)) -> let m := max_bit_length (block C 0) in
  bc_verify_with bc_honest factor C rnd (init_betas m) (init_bprover C (block C 0) m) = Ok true.
Proof.
  intros factor C rnd HF CC Hrnd. cbv zeta.
  set (C0 := block C 0). set (m := max_bit_length C0). set (k := total_blocks_binary_length C). set (d := total_depth C0).
  assert (Dp : 0 < d) by apply (bcc_pos C CC).
  assert (D : length (circuit C0) = d) by apply (bcc_depth C CC 0 (some_block C CC)).
  assert (Hm : forall j, j < d -> bit_length (layer_at C0 j) <= m) by (intros; apply bit_length_max; lia).
  cut (returns (bc_verify_body bc_honest factor C rnd (init_betas m) (init_bprover C C0 m)) (eq true)).
  { intros (x & E & <-). unfold bc_verify_with. rewrite E. reflexivity. }
  unfold bc_verify_body. fold k.
  eapply returns_bind; [cbn [bi_evaluate bc_honest]; apply (bc_evaluate_ok C CC); reflexivity|].
  intros [result p0]. cbn [fst snd]. fold C0 d. intros (cv & E0 & Rows & Tr).
  eapply rb_nth; [apply (block_rd C CC 0 (some_block C CC))|]. fold C0 d.
  eapply rb_nth; [apply layer_rd; lia|]. set (lo := bit_length (layer_at C0 (d - 1))) in *.
  destruct (generate_randomness rnd 0 lo) as [r_0 pos0] eqn:Eu.
  destruct (generate_randomness rnd pos0 k) as [r_b pos1] eqn:Eb.
  destruct (generate_randomness rnd pos1 lo) as [r_1 pos2] eqn:Ev.
  pose proof (generate_randomness_ok rnd 0 lo Hrnd) as Hr0. rewrite Eu in Hr0. cbn [fst] in Hr0.
  pose proof (generate_randomness_ok rnd pos0 k Hrnd) as Hrb. rewrite Eb in Hrb. cbn [fst] in Hrb.
  pose proof (generate_randomness_ok rnd pos1 lo Hrnd) as Hr1. rewrite Ev in Hr1. cbn [fst] in Hr1.
  set (R0 := map _ _) in Hr0. set (Rb := map _ _) in Hrb. set (R1 := map _ _) in Hr1.
  assert (L0 : length R0 = lo) by (unfold R0; rewrite map_length, seq_length; reflexivity).
  assert (Lb : length Rb = k) by (unfold Rb; rewrite map_length, seq_length; reflexivity).
  assert (L1 : length R1 = lo) by (unfold R1; rewrite map_length, seq_length; reflexivity).
  clearbody R0 Rb R1. clear Eu Eb Ev.
  eapply returns_bind; [apply (one_minus_ok r_0 R0 lo Hr0); symmetry; exact L0|]. intros o_0 Ho0.
  eapply returns_bind; [apply (one_minus_ok r_1 R1 lo Hr1); symmetry; exact L1|]. intros o_1 Ho1.
  eapply returns_bind; [apply (one_minus_ok r_b Rb k Hrb); symmetry; exact Lb|]. intros o_b Hob. cbv beta in Ho0, Ho1, Hob.
  pose proof (init_binv C m cv Rows) as PI. fold C0 in PI. rewrite <- E0 in PI.
  assert (ET : forall c, 2 ^ k * c <= total_blocks C * c) by (intro c; apply Nat.mul_le_mono_r, (bcc_count C CC)).
  cbn [bi_V_res bc_honest].
  eapply (returns_bind _ _ _ _ (fun x => rep (fst x) (mle Rb (fun B => mle R0 (vals (block C B) (d - 1)))) /\ snd x = p0)).
  { eapply returns_bind.
    - rewrite <- L0, <- Lb. eapply bc_V_res_ok; [exact Hr0|exact Ho0|exact Hrb|exact Hob|].
      rewrite Nat.pow_add_r, L0, Lb, (Nat.mul_comm (2 ^ lo)). exact (tab_sub _ _ _ _ _ Tr (ET _)).
    - intros x Rx. cbv beta in Rx. apply returns_ok. split; [|reflexivity]. cbn [fst].
      change (rep x (mle (R0 ++ Rb) (fun z => vals (block C (z / 2 ^ lo)) (d - 1) (z mod 2 ^ lo)))) in Rx.
      rewrite <- L0 in Rx. rewrite (vtab_mle R0 Rb (fun B => vals (block C B) (d - 1))) in Rx. exact Rx. }
  intros [a_0 p1]. cbn [fst snd]. intros [Ra0 ->].
  eapply returns_bind.
  { apply (returns_for _ (d - 1) 0 _ (fun n st => exists a be Rb R0 R1, bclaim C m (d - 1 - n) st a be Rb R0 R1)).
    - exists 1%F, 0%F, Rb, R0, R1. rewrite Nat.sub_0_r. constructor;
        cbn [bs_v bs_rb bs_ob s_p s_alpha s_beta s_r0 s_r1 s_o0 s_o1 s_B s_sum]; try assumption.
      + exact rep_i1.
      + exact rep_i0.
      + unfold init_betas. cbn [b_g0 b_g1 b_u b_v]. rewrite repeat_length. auto.
      + lzr.
    - intros n st Hn (a & be & Rb' & R0' & R1' & CL). simpl in Hn.
      eapply returns_conseq; [apply (bc_layer_with_ok factor C m (d - 1 - n) rnd st a be Rb' R0' R1' HF CC ltac:(fold C0 d; lia) Hm Hrnd CL)|].
      intros st' H. cbv beta in H. replace (d - 1 - S n) with (d - 1 - n - 1) by lia. exact H. }
  simpl (0 + (d - 1)). rewrite Nat.sub_diag. intros bst (a & be & Rb' & R0' & R1' & CL).
  eapply returns_bind; [apply bc_input_ok, CC|]. intros input Ti. cbv beta in Ti. fold C0 in Ti.
  eapply rb_nth; [apply layer_rd; lia|].
  destruct CL as [_ Ka Kb Krb Kob Klb Kr0 Kr1 Ko0 Ko1 Kl0 Kl1 _ Ks].
  fold C0 in Kl0, Kl1. fold k in Klb. set (bl := bit_length (layer_at C0 0)) in *. apply (fun T => tab_sub _ _ _ _ _ T (ET _)) in Ti.
  eapply (returns_bind _ _ _ _ (fun x => rep x (mle Rb' (fun B => mle R0' (vals (block C B) 0))))).
  { eapply returns_conseq.
    - rewrite <- Kl0, <- Klb. eapply bc_V_in_ok; [exact Kr0|exact Ko0|exact Krb|exact Kob|].
      rewrite Nat.pow_add_r, Kl0, Klb, (Nat.mul_comm (2 ^ bl) (2 ^ k)). exact Ti.
    - cbv beta. intros x Rx.
      change (rep x (mle (R0' ++ Rb') (fun z => vals (block C (z / 2 ^ bl)) 0 (z mod 2 ^ bl)))) in Rx. rewrite <- Kl0 in Rx. rewrite (vtab_mle R0' Rb' (fun B => vals (block C B) 0)) in Rx. exact Rx. }
  intros x Rx. 
  eapply (returns_bind _ _ _ _ (fun x => rep x (mle Rb' (fun B => mle R1' (vals (block C B) 0))))).
  { eapply returns_conseq.
    - rewrite <- Kl1, <- Klb. eapply bc_V_in_ok; [exact Kr1|exact Ko1|exact Krb|exact Kob|].
      rewrite Nat.pow_add_r, Kl1, Klb, (Nat.mul_comm (2 ^ bl) (2 ^ k)). exact Ti.
    - cbv beta. intros y Ry.
      change (rep y (mle (R1' ++ Rb') (fun z => vals (block C (z / 2 ^ bl)) 0 (z mod 2 ^ bl)))) in Ry. rewrite <- Kl1 in Ry. rewrite (vtab_mle R1' Rb' (fun B => vals (block C B) 0)) in Ry. exact Ry. }
  intros y Ry.
  apply rb_reject; [eapply rep_fne_false; [exact Ks|apply rep_add; [apply rep_mul; [exact Rx|exact Ka]|apply rep_mul; [exact Ry|exact Kb]]|ring]|].
  apply returns_ok. reflexivity.
Qed.
Theorem bc_complete : forall C rnd, bc_circuit C -> (forall n, reduced (rnd n)) -> run_bc C rnd = Ok true.
Proof.
  intros C rnd CC Hrnd. unfold run_bc, rd. rewrite (block_rd C CC 0 (some_block C CC)). cbn [bind].
  apply (bc_complete_with (asked bc_honest) C rnd); [|exact CC|exact Hrnd].
  intros p rb0 rb1 Rb rb _ _ _ _ H. exact H.
Qed.
