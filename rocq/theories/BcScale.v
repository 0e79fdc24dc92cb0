(** * A prover that scales the outputs (C59) *)
From Coq Require Import ZArith List Bool Arith Lia Ring.
From Verif Require Import Limbs Field FieldProofs Fp Base MleSpec GkrMath Poly PolyProofs Circuit
  FastProver Lazy TablesProofs FastProverProofs PhaseProofs FastVerifier FastVerifierProofs
  SpecGkr RoundProofs TradProver TradVerifier TradProofs TradPhase TradVerifierProofs
  BcProver BcVerifier BcPhase0 BcPhase BcVerifierProofs.
Import ListNotations.
Open Scope nat_scope.

Definition scale_cubic (c : fe) (q : cubic_poly) : cubic_poly :=
  CubicPoly (fe_mul (c_a q) c) (fe_mul (c_b q) c) (fe_mul (c_c q) c) (fe_mul (c_d q) c).
Lemma scale_cubic_ok : forall p c w wv, crep p c -> rep w wv ->
  exists d, crep (scale_cubic w p) d /\ forall t, peval d t = (wv * peval c t)%F.
Proof.
  intros p c w wv (a0 & b0 & c0 & d0 & -> & Ra & Rb & Rc & Rd) Rw. exists [a0 * wv; b0 * wv; c0 * wv; d0 * wv]%F. split.
  - eexists _, _, _, _. split; [reflexivity|]. unfold scale_cubic. cbn [c_a c_b c_c c_d].
    split; [apply rep_mul; assumption|]. split; [apply rep_mul; assumption|]. split; apply rep_mul; assumption.
  - intro t. cbn [peval length Fpow]. ring.
Qed.

(** The honest prover, except that it announces [c] times the true outputs, and
    at the output layer multiplies every message and [beta_blk_val] by [c]. *)
Definition layer_factor (c : fe) (p : bprover) : fe :=
  if t_layer (b_t p) =? total_depth (t_C (b_t p)) - 1 then c else fe_of_int 1.
Definition bc_scaling (c : fe) : bprover_if bprover := {|
  bi_evaluate := fun p => ' (row, p') <- bc_evaluate p ;; Ok (map (fe_mul c) row, p');
  bi_V_res := bi_V_res bc_honest;
  bi_sumcheck_init := bi_sumcheck_init bc_honest;
  bi_phase0_init := bc_phase0_init;
  bi_phase0_update := fun p r j => ' (q, p') <- bc_phase0_update p r j ;; Ok (scale_cubic (layer_factor c p) q, p');
  bi_phase1_init := bc_phase1_init;
  bi_phase1_update := fun p r j => ' (q, p') <- bc_phase1_update p r j ;; Ok (scale_quad (layer_factor c p) q, p');
  bi_phase2_init := bc_phase2_init;
  bi_phase2_update := fun p r j => ' (q, p') <- bc_phase2_update p r j ;; Ok (scale_quad (layer_factor c p) q, p');
  bi_finalize := bc_finalize;
  bi_beta_blk_val := fun p => fe_mul (layer_factor c p) (b_blk p) |}.

(** Rounds with scaled messages. *)
Section Drive.
Context {St P : Type}.
Variables (eval : P -> fe -> fe) (scale : fe -> P -> P) (prep : P -> list F -> Prop) (fac : St -> fe) (c : F).
Hypothesis Hscale : forall q e w, prep q e -> rep w c -> exists d, prep (scale w q) d /\ forall t, peval d t = (c * peval e t)%F.
Hypothesis Heval : forall q e x t, prep q e -> rep x t -> rep (eval q x) (peval e t).
Variables (upd : St -> fe -> nat -> outcome (P * St)) (n : nat).
Variables (Inv : St -> list F -> Prop) (g : list F -> F -> F) (run : list F -> F).
Hypothesis Hfac : forall s R, Inv s R -> rep (fac s) c.
Hypothesis Hupd : forall s R prev, length R < n -> Inv s R -> (R = [] \/ rep prev (last R 0%F)) ->
  returns (upd s prev (length R)) (fun res => (forall a, Inv (snd res) (R ++ [a])) /\
    exists e, prep (fst res) e /\ forall t, peval e t = g R t).
Hypothesis Hsum : forall R, length R < n -> (g R 0 + g R 1)%F = run R.
Hypothesis Hrun : forall R a, length R < n -> run (R ++ [a]) = g R a.
Lemma drive_scaled : forall rs R prev sum s, length R = n -> reps rs R -> Inv s [] -> rep sum (c * run [])%F ->
  returns (for_ n 0 (fun j st =>
    let '(prev, sum, s) := st in
    ' (poly, s) <- ( ' (q, s') <- upd s prev j ;; Ok (scale (fac s) q, s')) ;;
    r <- rd rs j ;;
    reject_if (fe_ne (fe_add (eval poly (fe_of_int 0)) (eval poly (fe_of_int 1))) sum) ;;;
    Ok (r, eval poly r, s)) (prev, sum, s))
    (fun st => let '(prev', sum, s') := st in
      (0 < n -> rep prev' (last R 0%F)) /\ rep sum (c * run R)%F /\ Inv s' R).
Proof.
  apply (drive eval (fun s prev j => ' (q, s') <- upd s prev j ;; Ok (scale (fac s) q, s')) n Inv
    (fun R t => c * g R t)%F (fun R => c * run R)%F).
  - intros s R prev HR HI Hp. eapply returns_bind; [apply (Hupd s R prev HR HI Hp)|].
    intros [q s'] (HI' & e & Pe & He). apply returns_ok. cbn [fst snd] in *. split; [exact HI'|].
    intros x t Rx. destruct (Hscale q e (fac s) Pe (Hfac s R HI)) as (d & Pd & Hd).
    eapply rep_eq; [apply (Heval _ _ _ _ Pd Rx)|]. rewrite Hd, He. reflexivity.
  - intros R HR. rewrite <- (Hsum R HR). ring.
  - intros R a HR. rewrite (Hrun R a HR). reflexivity.
Qed.
End Drive.

Section OneLayer.
Variables (C : blocked_circuit) (m i : nat) (cf : fe) (cv : F).
Hypothesis CC : bc_circuit C.
Hypothesis Rcf : rep cf cv.
Let C0 := block C 0.
Let k := total_blocks_binary_length C.
Hypothesis Hi : 0 < i < total_depth C0.
Hypothesis Hm : forall j, j < total_depth C0 -> bit_length (layer_at C0 j) <= m.
Let L := layer_at C0 i.
Let lg := bit_length L.
Let b := bit_length (layer_at C0 (i - 1)).
(** The factor at this layer. *)
Let c : F := if i =? total_depth C0 - 1 then cv else 1%F.
Variables (a be : F) (Rb R0 R1 : list F).
Let W := gw a be R0 R1.
Lemma factor_ok : forall p, b_ready C m i a be Rb R0 R1 p -> rep (layer_factor cf p) c.
Proof.
  intros p [PI BP]. unfold layer_factor, c. rewrite (bp_layer _ _ _ _ _ _ _ _ _ _ BP), (bn_C0 _ _ _ PI). fold C0.
  destruct (i =? total_depth C0 - 1); [exact Rcf|exact rep_i1].
Qed.
Lemma scaled0 : forall p r_b rb sum, length rb = k -> reps r_b rb -> during0 C m i a be Rb R0 R1 p [] ->
  rep sum (c * bsum (2 ^ k) (2 ^ lg) L W (eqw Rb) (fun B => vals (block C B) (i - 1)))%F ->
  returns (bc_rounds0 (bi_phase0_update (bc_scaling cf)) k r_b sum p) (fun st => let '(prev, sum, p') := st in
    rep prev (last rb 0%F) /\
    rep sum (c * (mle rb (eqw Rb) * gsumF (2 ^ lg) L W (fun x => mle rb (fun B => vals (block C B) (i - 1) x))))%F /\
    during0 C m i a be Rb R0 R1 p' rb).
Proof.
  intros p r_b rb sum Lr Hr D0 Hs. unfold bc_rounds0. cbn [bc_scaling bi_phase0_update].
  eapply returns_conseq.
  { apply (drive_scaled cubic_eval scale_cubic crep (layer_factor cf) c (fun q e w => fun A B => scale_cubic_ok q e w c A B)
      (fun q e x t A B => cubic_eval_ok q e x t A B) bc_phase0_update k (during0 C m i a be Rb R0 R1)
      (msg0 C i a be Rb R0 R1) (run0 C i a be Rb R0 R1)
      (fun p' R D => factor_ok p' (proj1 (proj1 D)))
      (update0_rep C m i CC Hi a be Rb R0 R1) (msg0_sum C m i CC Hi a be Rb R0 R1) (msg0_run C m i CC Hi a be Rb R0 R1) r_b rb _ sum p Lr Hr D0).
    unfold run0. cbn [length folds]. rewrite Nat.sub_0_r. exact Hs. }
  intros [[prev sm] p'] (Hp & Hs' & D'). split; [apply Hp; apply (bcc_bits C CC)|]. split; [|exact D'].
  eapply rep_eq; [exact Hs'|]. f_equal. unfold run0. fold k C0 L lg W. rewrite Lr, Nat.sub_diag. unfold bsum. cbn [Nat.pow sumn].
  rewrite mle_folds.
  rewrite (gsumF_ext (2 ^ lg) b L W (o_BG C m i CC Hi) (foldsV rb (fun B => vals (block C B) (i - 1)) 0)
    (fun x => mle rb (fun B => vals (block C B) (i - 1) x))).
  - ring.
  - intros x _. unfold foldsV. rewrite mle_folds. reflexivity.
Qed.
Section Rounds.
Variables (rb : list F) (sel : gate -> Z) (K : nat -> nat) (W' X : nat -> F) (other : gate -> outcome fe) (p1 : bprover).
Variable update : bprover -> fe -> nat -> outcome (quadratic_poly * bprover).
Hypothesis Lrb : length rb = k.
Hypothesis HK : forall g, g < 2 ^ lg -> livegate L g -> sel (gate_at L g) = Z.of_nat (K g) /\ K g < 2 ^ b.
Hypothesis Hother : forall g, g < 2 ^ lg -> livegate L g -> returns (other (gate_at L g)) (fun x => rep x (X g)).
Hypothesis HP : b_point C m i a be Rb R0 R1 rb p1.
Hypothesis Hup : forall t x j, same (2 ^ m) (b_t p1) t -> update (b_set_t p1 t) x j =
  ( ' (q, t') <- cmt_update sel other t x j ;; Ok (scale_quad (b_blk p1) q, b_set_t p1 t')).
Let V : nat -> F := fun x => mle rb (fun B => vals (block C B) (i - 1) x).
Let bb : F := mle rb (eqw Rb).
Let M := scat (2 ^ lg) (rM L W' K X).
Let A := scat (2 ^ lg) (rA L W' K X).
Lemma scaledR : forall r_u R prev sum, length R = b -> reps r_u R -> before (2 ^ m) lg b L V W' K (b_t p1) [] ->
  rep sum (c * (bb * psum b V M A))%F ->
  returns (bc_rounds (fun p r j => ' (q, p') <- update p r j ;; Ok (scale_quad (layer_factor cf p) q, p')) b r_u prev sum p1)
   (fun st => let '(prev', sum, p') := st in
    rep prev' (last R 0%F) /\ rep sum (c * (bb * (mle R V * mle R M + mle R A)))%F /\ duringR C m i rb K W' p1 p' R).
Proof.
  intros r_u R prev sum LR Hr HB Hs. unfold bc_rounds. eapply returns_conseq.
  { apply (drive_scaled quadratic_eval scale_quad qrep (layer_factor cf) c (fun q e w => fun A B => scale_quad_ok q e w c A B)
      (fun q e x t A B => quadratic_eval_ok q e x t A B) update b (duringR C m i rb K W' p1)
      (msgR C i Rb rb K W' X) (runR C i Rb rb K W' X)) with (R := R); try assumption.
    - intros s R' D. apply factor_ok. apply (duringR_point C m i a be Rb R0 R1 rb K W' p1 HP s R' D).
    - apply (updateR_rep C m i CC Hi Hm a be Rb R0 R1 rb sel K W' X other p1 update HK Hother HP Hup).
    - apply (msgR_sum C m i Hi Rb rb Lrb).
    - apply (msgR_run C m i Hi Rb rb Lrb).
    - apply (duringR_0 C m i a be Rb R0 R1 rb K W' p1 HP HB).
    - unfold runR. cbn [length folds]. rewrite Nat.sub_0_r. exact Hs. }
  intros [[prev' sm] p'] (Hp & Hs' & D'). split; [apply Hp, (o_Hb1 C m i CC Hi)|]. split; [|exact D'].
  eapply rep_eq; [exact Hs'|]. f_equal. unfold runR. fold C0 b. rewrite LR, Nat.sub_diag, psum_0, <- !mle_folds. reflexivity.
Qed.
End Rounds.
End OneLayer.

(** The claim at layer [i], times [c]. *)
Record sclaim (c : F) (C : blocked_circuit) (m i : nat) (st : bstate bprover) (a be : F) (Rb R0 R1 : list F) : Prop := {
  sk_p : binv C m (s_p (bs_v st));
  sk_a : rep (s_alpha (bs_v st)) a; sk_b : rep (s_beta (bs_v st)) be;
  sk_rb : reps (bs_rb st) Rb; sk_ob : reps (bs_ob st) (comp Rb); sk_lb : length Rb = total_blocks_binary_length C;
  sk_r0 : reps (s_r0 (bs_v st)) R0; sk_r1 : reps (s_r1 (bs_v st)) R1;
  sk_o0 : reps (s_o0 (bs_v st)) (comp R0); sk_o1 : reps (s_o1 (bs_v st)) (comp R1);
  sk_l0 : length R0 = bit_length (layer_at (block C 0) i); sk_l1 : length R1 = bit_length (layer_at (block C 0) i);
  sk_B : length (b_g0 (s_B (bs_v st))) = 2 ^ m /\ length (b_g1 (s_B (bs_v st))) = 2 ^ m /\
         length (b_u (s_B (bs_v st))) = 2 ^ m /\ length (b_v (s_B (bs_v st))) = 2 ^ m;
  sk_s : rep (s_sum (bs_v st)) (c * (a * mle Rb (fun B => mle R0 (vals (block C B) i)) +
                                     be * mle Rb (fun B => mle R1 (vals (block C B) i))))%F }.
Lemma scaled_layer_ok : forall C m i rnd cf cv st a be Rb R0 R1, bc_circuit C -> 0 < i < total_depth (block C 0) ->
  (forall j, j < total_depth (block C 0) -> bit_length (layer_at (block C 0) j) <= m) -> (forall n, reduced (rnd n)) ->
  rep cf cv -> sclaim (if i =? total_depth (block C 0) - 1 then cv else 1%F) C m i st a be Rb R0 R1 ->
  returns (bc_layer (bc_scaling cf) (block C 0) (total_blocks_binary_length C) rnd i st)
    (fun st' => exists a' be' Rb' R0' R1', sclaim 1%F C m (i - 1) st' a' be' Rb' R0' R1').
Proof.
  intros C m i rnd cf cv [st rb0 ob0] a be Rb R0 R1 CC Hi Hm Hrnd Rcf
    [Kp Ka Kb Krb Kob Klb Kr0 Kr1 Ko0 Ko1 Kl0 Kl1 (KB0 & KB1 & KB2 & KB3) Ks].
  cbn [bs_v bs_rb bs_ob] in *.
  set (k := total_blocks_binary_length C) in *. set (C0 := block C 0) in *. unfold bc_layer, bc_layer_with, asked. cbn [bs_v bs_rb bs_ob].
  eapply rb_nth; [apply (o_lay C m i CC Hi)|]. eapply rb_nth; [apply (o_laym C m i CC Hi)|]. fold C0.
  set (L := layer_at C0 i) in *. set (Lm := layer_at C0 (i - 1)). set (lg := bit_length L) in *. set (b := bit_length Lm).
  cbn [bc_scaling bc_honest bi_sumcheck_init bi_phase0_init bi_phase1_init bi_phase1_update bi_phase2_init
       bi_phase2_update bi_finalize bi_beta_blk_val bind].
  set (p0 := bc_sumcheck_init _ _ _ _ _ _ _ _ _ _ _ _ _ _).
  destruct (generate_randomness rnd (s_pos st) b) as [r_u pos1] eqn:Eu.
  destruct (generate_randomness rnd pos1 k) as [r_b pos2] eqn:Eb.
  destruct (generate_randomness rnd pos2 b) as [r_v pos3] eqn:Ev.
  pose proof (generate_randomness_ok rnd (s_pos st) b Hrnd) as Hru. rewrite Eu in Hru. cbn [fst] in Hru.
  pose proof (generate_randomness_ok rnd pos1 k Hrnd) as Hrb. rewrite Eb in Hrb. cbn [fst] in Hrb.
  pose proof (generate_randomness_ok rnd pos2 b Hrnd) as Hrv. rewrite Ev in Hrv. cbn [fst] in Hrv.
  set (ru := map _ _) in Hru. set (rb := map _ _) in Hrb. set (rv := map _ _) in Hrv.
  assert (Lru : length ru = b) by (unfold ru; rewrite map_length, seq_length; reflexivity).
  assert (Lrb : length rb = k) by (unfold rb; rewrite map_length, seq_length; reflexivity).
  assert (Lrv : length rv = b) by (unfold rv; rewrite map_length, seq_length; reflexivity).
  clearbody ru rb rv. clear Eu Eb Ev.
  eapply returns_bind; [apply (one_minus_ok r_b rb k Hrb); symmetry; exact Lrb|]. intros o_b Hob. cbv beta in Hob.
  assert (RD : b_ready C m i a be Rb R0 R1 p0).
  { split; [destruct Kp as [? ? ? [] ? ? ?]; constructor; try assumption; constructor; assumption|].
    constructor; try assumption; try reflexivity. constructor; try assumption; reflexivity. }
  eapply returns_bind; [apply (phase0_init_ok C m i CC Hi Hm a be Rb R0 R1 p0 RD)|].
  intros p1 D1. cbv beta in D1.
  rewrite (claim_bsum C i a be Rb R0 R1 CC Hi Klb Kl0 Kl1) in Ks.
  eapply returns_bind; [apply (scaled0 C m i cf cv CC Rcf Hi a be Rb R0 R1 p1 r_b rb (s_sum st) Lrb Hrb D1 Ks)|].
  intros [[prev0 sum0] p2] (Rp0 & Rs0 & D2).
  set (c := if i =? total_depth C0 - 1 then cv else 1%F) in *.
  set (V := fun x => mle rb (fun B => vals (block C B) (i - 1) x)).
  set (bb := mle rb (eqw Rb)) in *. set (W := gw a be R0 R1) in *.
  eapply returns_bind; [apply (phase1_init_ok C m i CC Hi Hm a be Rb R0 R1 rb Lrb p2 prev0 D2 Rp0)|].
  intros p3 [PT3 HB3].
  eapply returns_bind; [apply (one_minus_ok r_u ru b Hru); symmetry; exact Lru|]. intros o_u Hou.
  eapply returns_bind; [apply (one_minus_ok r_v rv b Hrv); symmetry; exact Lrv|]. intros o_v Hov.
  cbv beta in Hou, Hov.
  assert (TG : forall g, g < 2 ^ lg -> trad_gate (2 ^ b) (gate_at L g)) by apply (o_TG C m i CC Hi).
  change (rep sum0 (c * (bb * gsumF (2 ^ lg) L W V))%F) in Rs0.
  rewrite <- (g_start lg b L W V TG) in Rs0.
  eapply returns_bind.
  { apply (scaledR C m i cf cv CC Rcf Hi Hm a be Rb R0 R1 rb g_u (wu L) W (fun g => V (wv L g))
      (fun gt => iv <- idx (g_v gt) ;; rd (b_copy p3) iv) p3 bc_phase1_update) with (R := ru); try assumption.
    - apply (live1 C m i CC Hi).
    - intros g Hg Hl. apply (other1 C m i CC Hi a be Rb R0 R1 rb Lrb p3 g PT3 Hg Hl).
    - intros. apply upd1_shape. }
  intros [[prev1 sum1] p4] (Rp1 & Rs1 & D4).
  destruct (duringR_point C m i a be Rb R0 R1 rb (wu L) W p3 PT3 p4 ru D4) as (PT4 & HB4 & _).
  change (rep sum1 (c * (bb * (mle ru V * mle ru (gM1 lg L W V) + mle ru (gA1 lg L W V))))%F) in Rs1.
  rewrite (g_link lg b L W V TG ru Lru) in Rs1.
  eapply returns_bind; [apply (phase2_init_ok C m i CC Hi Hm a be Rb R0 R1 rb Lrb p4 prev1 ru Lru); split; [exact PT4|split; [exact HB4|exact Rp1]]|].
  intros p5 (PT5 & Rvu & HB5).
  set (W2 := fun g => (W g * eqw ru (wu L g))%F) in *.
  eapply returns_bind.
  { apply (scaledR C m i cf cv CC Rcf Hi Hm a be Rb R0 R1 rb g_v (wv L) W2 (fun _ => mle ru V)
      (fun _ => Ok (t_v_u (b_t p5))) p5 bc_phase2_update) with (R := rv); try assumption.
    - apply (live2 C m i CC Hi).
    - intros g Hg Hl. apply returns_ok. exact Rvu.
    - intros. apply (upd2_shape m). assumption. }
  intros [[prev2 sum2] p6] (Rp2 & Rs2 & D6).
  destruct (duringR_point C m i a be Rb R0 R1 rb (wv L) W2 p5 PT5 p6 rv D6) as (PT6 & HB6 & S6).
  change (rep sum2 (c * (bb * (mle rv V * mle rv (gM2 lg L W V ru) + mle rv (gA2 lg L W V ru))))%F) in Rs2.
  rewrite (g_end lg b L W V TG ru rv Lrv) in Rs2.
  destruct (finalize_ok C m i CC Hi a be Rb R0 R1 rb p6 prev2 rv _ _ Lrv PT6 HB6 Rp2) as ([[v_u v_v] p7] & EF & Evu & Rvv & PI7 & Ebl).
  cbn [fst snd] in Evu, Rvv, PI7, Ebl. rewrite EF. cbn [bind].
  assert (Fac : rep (layer_factor cf p7) c).
  { pose proof (factor_ok C m i cf cv Rcf a be Rb R0 R1 p6 (proj1 PT6)) as K.
    assert (layer_factor cf p7 = layer_factor cf p6) as ->; [|exact K].
    unfold bc_finalize, trad_finalize in EF. destruct (last_value (t_V (b_t p6)) prev2) as [x| | | | | |]; try discriminate EF.
    cbn [bind] in EF. injection EF as _ _ <-. reflexivity. }
  assert (Evu' : t_v_u (b_t p6) = t_v_u (b_t p5)) by (destruct S6 as (? & ? & ? & ? & -> & _); reflexivity).
  rewrite Evu' in Evu. subst v_u.
  assert (Rbb : rep (b_blk p7) bb) by (rewrite Ebl; apply PT6).
  assert (Hb : b <= m) by apply (o_Hb C m i Hi Hm).
  assert (Hlg : lg <= m) by apply (o_Hlg C m i Hi Hm).
  assert (HG : 2 ^ lg <= length (gates L)) by apply (o_HG C m i CC Hi).
  eapply returns_bind.
  { apply (beta_init_btabs (2 ^ m) lg b) with (R0 := R0) (R1 := R1) (Ru := ru) (Rv := rv) (Ov := comp rv) (a := a) (be := be);
      try assumption.
    - rewrite comp_length. exact Lrv.
    - apply pow_mono, Hlg.
    - apply pow_mono, Hb. }
  intros B' (BT' & LB0 & LB1 & LB2 & LB3).
  assert (LO : forall j, j < 2 ^ lg -> layer_ok b (gate_at L j) j).
  { intros j Hj. left. apply trad_proto, TG, Hj. }
  eapply returns_bind; [apply (mult_pred_ok (2 ^ m) lg b L B' _ _ _ BT' eq_refl HG LO)|]. intros mult_v R_mult.
  eapply returns_bind; [apply (add_pred_ok (2 ^ m) lg b L B' _ _ _ BT' eq_refl HG LO)|]. intros add_v R_add.
  cbv beta in R_mult, R_add.
  assert (EP : prs rv (comp rv) 0 b = point rv) by (rewrite <- Lrv; apply prs_point).
  rewrite EP in R_mult, R_add.
  apply rb_reject.
  { eapply rep_fne_false; [exact Rs2|apply rep_mul; [apply rep_mul; [exact Fac|exact Rbb]|apply trad_combine_ok; [exact R_add|exact R_mult|exact Rvu|exact Rvv]]|].
    assert (AS : forall x y z : F, (x * (y * z) = x * y * z)%F) by (intros; ring). etransitivity; [apply AS|]. reflexivity. }
  apply returns_ok. exists (ofZ (val512 (rnd pos3))), (ofZ (val512 (rnd (pos3 + 1)))), rb, ru, rv.
  pose proof (rnd_val rnd Hrnd) as RV.
  constructor; cbn [bs_v bs_rb bs_ob s_p s_alpha s_beta s_r0 s_r1 s_o0 s_o1 s_B s_sum]; try assumption.
  - apply RV.
  - apply RV.
  - split; [exact LB0|]. split; [exact LB1|]. split; [exact LB2|exact LB3].
  - rewrite (mle_swap ru rb), (mle_swap rv rb).
    eapply rep_eq; [apply rep_add; (apply rep_mul; [apply RV|eassumption])|]. fold V. ring.
Qed.

(** The claimed outputs. *)
Lemma scaled_row : forall N l n cf cv f, tab N l n f -> n = N -> rep cf cv -> tab N (map (fe_mul cf) l) n (fun x => cv * f x)%F.
Proof.
  intros N l n cf cv f (LN & Hle & H) E Rc. split; [rewrite map_length; exact LN|]. split; [exact Hle|].
  intros j Hj. destruct (H j Hj) as (x & Ex & Rx). exists (fe_mul cf x). split; [|apply rep_mul; assumption].
  apply map_nth_error, Ex.
Qed.
Lemma scaled_evaluate : forall C cf cv m, bc_circuit C -> rep cf cv ->
  let d := total_depth (block C 0) in let bl := bit_length (layer_at (block C 0) (d - 1)) in
  returns (bi_evaluate (bc_scaling cf) (init_bprover C (block C 0) m)) (fun x =>
    binv C m (snd x) /\
    vtab (total_blocks C * 2 ^ bl) (fst x) (total_blocks C) bl (fun B y => cv * vals (block C B) (d - 1) y)%F).
Proof.
  intros C cf cv m CC Rc d bl. cbn [bc_scaling bi_evaluate].
  eapply returns_bind; [apply (bc_evaluate_ok C CC); reflexivity|]. intros [row p]. cbn [fst snd]. fold d bl. intros (cvs & -> & Rows & T).
  apply returns_ok. cbn [fst snd]. split; [apply init_binv, Rows|]. unfold vtab in *.
  apply (scaled_row _ _ _ cf cv _ T eq_refl Rc).
Qed.

Theorem scaled_accepted : forall C rnd cf cv, bc_circuit C -> 1 < total_depth (block C 0) -> rep cf cv ->
  (forall n, reduced (rnd n)) -> let m := max_bit_length (block C 0) in
  bc_verify (bc_scaling cf) C rnd (init_betas m) (init_bprover C (block C 0) m) = Ok true.
Proof.
  intros C rnd cf cv CC Hd Rc Hrnd m.
  set (C0 := block C 0) in *. set (k := total_blocks_binary_length C). set (d := total_depth C0) in *.
  assert (Dp : 0 < d) by lia.
  assert (D : length (circuit C0) = d) by apply (bcc_depth C CC 0 (some_block C CC)).
  assert (Hm : forall j, j < d -> bit_length (layer_at C0 j) <= m) by (intros; apply bit_length_max; lia).
  cut (returns (bc_verify_body (bc_scaling cf) (asked (bc_scaling cf)) C rnd (init_betas m) (init_bprover C C0 m)) (eq true)).
  { intros (x & E & <-). unfold bc_verify, bc_verify_with. rewrite E. reflexivity. }
  unfold bc_verify_body. fold k.
  eapply returns_bind; [apply (scaled_evaluate C cf cv m CC Rc)|].
  intros [result p0]. cbn [fst snd]. fold C0 d. intros (PI & Tr).
  eapply rb_nth; [apply (block_rd C CC 0 (some_block C CC))|]. fold C0 d.
  eapply rb_nth; [apply layer_rd; lia|]. set (lo := bit_length (layer_at C0 (d - 1))) in *.
  destruct (generate_randomness rnd 0 lo) as [r_0 pos0] eqn:Eu.
  destruct (generate_randomness rnd pos0 k) as [r_b pos1] eqn:Eb.
  destruct (generate_randomness rnd pos1 lo) as [r_1 pos2] eqn:Ev.
  pose proof (generate_randomness_ok rnd 0 lo Hrnd) as Hr0. rewrite Eu in Hr0. cbn [fst] in Hr0.
  pose proof (generate_randomness_ok rnd pos0 k Hrnd) as Hrb. rewrite Eb in Hrb. cbn [fst] in Hrb.
  pose proof (generate_randomness_ok rnd pos1 lo Hrnd) as Hr1. rewrite Ev in Hr1. cbn [fst] in Hr1.
  set (R0 := map _ _) in Hr0. set (Rb := map _ _) in Hrb. set (R1 := map _ _) in Hr1.
  assert (L0 : length R0 = lo) by (unfold R0; rewrite map_length, seq_length; reflexivity).
  assert (Lb : length Rb = k) by (unfold Rb; rewrite map_length, seq_length; reflexivity).
  assert (L1 : length R1 = lo) by (unfold R1; rewrite map_length, seq_length; reflexivity).
  clearbody R0 Rb R1. clear Eu Eb Ev.
  eapply returns_bind; [apply (one_minus_ok r_0 R0 lo Hr0); symmetry; exact L0|]. intros o_0 Ho0.
  eapply returns_bind; [apply (one_minus_ok r_1 R1 lo Hr1); symmetry; exact L1|]. intros o_1 Ho1.
  eapply returns_bind; [apply (one_minus_ok r_b Rb k Hrb); symmetry; exact Lb|]. intros o_b Hob. cbv beta in Ho0, Ho1, Hob.
  assert (ET : forall c, 2 ^ k * c <= total_blocks C * c) by (intro c; apply Nat.mul_le_mono_r, (bcc_count C CC)).
  cbn [bi_V_res bc_scaling bc_honest].
  eapply (returns_bind _ _ _ _ (fun x => rep (fst x) (cv * mle Rb (fun B => mle R0 (vals (block C B) (d - 1))))%F /\ snd x = p0)).
  { eapply returns_bind.
    - rewrite <- L0, <- Lb. eapply bc_V_res_ok; [exact Hr0|exact Ho0|exact Hrb|exact Hob|].
      rewrite Nat.pow_add_r, L0, Lb, (Nat.mul_comm (2 ^ lo)). exact (tab_sub _ _ _ _ _ Tr (ET _)).
    - intros x Rx. cbv beta in Rx. apply returns_ok. split; [|reflexivity]. cbn [fst].
      change (rep x (mle (R0 ++ Rb) (fun z => cv * vals (block C (z / 2 ^ lo)) (d - 1) (z mod 2 ^ lo)))%F) in Rx.
      rewrite mle_scal, <- L0 in Rx. rewrite (vtab_mle R0 Rb (fun B => vals (block C B) (d - 1))) in Rx. exact Rx. }
  intros [a_0 p1]. cbn [fst snd]. intros [Ra0 ->].
  eapply returns_bind.
  { apply (returns_for _ (d - 1) 0 _ (fun n st => exists a be Rb R0 R1,
      sclaim (if d - 1 - n =? d - 1 then cv else 1%F) C m (d - 1 - n) st a be Rb R0 R1)).
    - exists 1%F, 0%F, Rb, R0, R1. rewrite Nat.sub_0_r, Nat.eqb_refl. constructor;
        cbn [bs_v bs_rb bs_ob s_p s_alpha s_beta s_r0 s_r1 s_o0 s_o1 s_B s_sum]; try assumption.
      + exact rep_i1.
      + exact rep_i0.
      + unfold init_betas. cbn [b_g0 b_g1 b_u b_v]. rewrite repeat_length. auto.
      + lzr.
    - intros n st Hn (a & be & Rb' & R0' & R1' & CL). simpl in Hn.
      eapply returns_conseq; [apply (scaled_layer_ok C m (d - 1 - n) rnd cf cv st a be Rb' R0' R1' CC ltac:(fold C0 d; lia) Hm Hrnd Rc CL)|].
      intros st' H. cbv beta in H. replace (d - 1 - S n) with (d - 1 - n - 1) by lia.
      destruct (Nat.eqb_spec (d - 1 - n - 1) (d - 1)) as [K|_]; [lia|]. exact H. }
  simpl (0 + (d - 1)). rewrite Nat.sub_diag. destruct (Nat.eqb_spec 0 (d - 1)) as [K|_]; [lia|].
  intros bst (a & be & Rb' & R0' & R1' & CL).
  eapply returns_bind; [apply bc_input_ok, CC|]. intros input Ti. cbv beta in Ti. fold C0 in Ti.
  eapply rb_nth; [apply layer_rd; lia|].
  destruct CL as [_ Ka Kb Krb Kob Klb Kr0 Kr1 Ko0 Ko1 Kl0 Kl1 _ Ks].
  fold C0 in Kl0, Kl1. fold k in Klb. set (bl := bit_length (layer_at C0 0)) in *. apply (fun T => tab_sub _ _ _ _ _ T (ET _)) in Ti.
  eapply (returns_bind _ _ _ _ (fun x => rep x (mle Rb' (fun B => mle R0' (vals (block C B) 0))))).
  { eapply returns_conseq.
    - rewrite <- Kl0, <- Klb. eapply bc_V_in_ok; [exact Kr0|exact Ko0|exact Krb|exact Kob|].
      rewrite Nat.pow_add_r, Kl0, Klb, (Nat.mul_comm (2 ^ bl) (2 ^ k)). exact Ti.
    - cbv beta. intros x Rx.
      change (rep x (mle (R0' ++ Rb') (fun z => vals (block C (z / 2 ^ bl)) 0 (z mod 2 ^ bl)))) in Rx. rewrite <- Kl0 in Rx. rewrite (vtab_mle R0' Rb' (fun B => vals (block C B) 0)) in Rx. exact Rx. }
  intros x Rx. 
  eapply (returns_bind _ _ _ _ (fun x => rep x (mle Rb' (fun B => mle R1' (vals (block C B) 0))))).
  { eapply returns_conseq.
    - rewrite <- Kl1, <- Klb. eapply bc_V_in_ok; [exact Kr1|exact Ko1|exact Krb|exact Kob|].
      rewrite Nat.pow_add_r, Kl1, Klb, (Nat.mul_comm (2 ^ bl) (2 ^ k)). exact Ti.
    - cbv beta. intros y Ry.
      change (rep y (mle (R1' ++ Rb') (fun z => vals (block C (z / 2 ^ bl)) 0 (z mod 2 ^ bl)))) in Ry. rewrite <- Kl1 in Ry. rewrite (vtab_mle R1' Rb' (fun B => vals (block C B) 0)) in Ry. exact Ry. }
  intros y Ry.
  apply rb_reject; [eapply rep_fne_false; [exact Ks|apply rep_add; [apply rep_mul; [exact Rx|exact Ka]|apply rep_mul; [exact Ry|exact Kb]]|ring]|].
  apply returns_ok. reflexivity.
Qed.
