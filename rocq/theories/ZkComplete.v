(** * Completeness of the zk protocol *)
From Coq Require Import ZArith List Bool Arith Lia Ring.
From Verif Require Import Limbs Field Fp Base ArithProofs MleSpec GkrMath Poly PolyProofs Circuit
  FastProver FastVerifier Lazy TablesProofs FastProverProofs PhaseProofs FastVerifierProofs SpecVpd VpdGroup VpdR VpdMask VpdInput
  VpdGroupProofs VpdInputProofs PropsVpd SpecTranscript Transcript TranscriptProofs LoaderProofs ZkEval ZkEvalProofs
  ZkProver ZkVerifier ZkPhaseProofs ZkMaskProofs ZkRoundProofs ZkLayerProofs ZkPredProofs ZkOpenProofs ZkLinkProofs ZkVerifierProofs.
Import ListNotations.
Open Scope nat_scope.

(** ** The commitment to the input *)
Definition iready (kI : keyI) (ip : ipart) (C : layered_circuit) (d d2 x0 x1 : F) : Prop :=
  iopen kI d d2 (bit_length (layer_at C 0)) (vals C 0) x0 x1 (i_maskr_mpz ip) (i_mpz ip) (i_rf ip) (i_rf2 ip) /\
  reps (i_maskr ip) [x0; x1].

(** The input values as integers: zk_prover.cpp:186-203. *)
Lemma input_list_ok : forall C, zcomplete_circuit C -> let n := bit_length (layer_at C 0) in
  returns (for_ (2 ^ n) 0 (fun g input =>
    gt <- rd (gates (layer_at C 0)) g ;;
    if (g_ty gt =? 3)%Z then x <- gmp (fe_of_int (g_u gt)) ;; wr input g x
    else if (g_ty gt =? 2)%Z then x <- gmp (fe_of_int 0) ;; wr input g x
    else AssertFail) (repeat 0%Z (2 ^ n + 1))) (fun l => length l = 2 ^ n + 1 /\ forall g, g < 2 ^ n -> nth_error l g = Some (fz (vals C 0 g))).
Proof.
  intros C CC n.
  pose proof (zc_depth C CC) as D. pose proof (zc_pos C CC) as Dp.
  pose proof (zc_gates C CC 0 Dp) as HG. fold n in HG.
  assert (E0 : vals C 0 = input_spec (layer_at C 0)).
  { apply vals_0. intro E. rewrite E in D. simpl in D. lia. }
  apply (returns_for _ (2 ^ n) 0 _ (fun j l => length l = 2 ^ n + 1 /\ forall g, g < j -> nth_error l g = Some (fz (vals C 0 g)))).
    - split; [apply repeat_length|]. intros g H. lia.
    - intros j l Hj [Ll Hl]. simpl in Hj. eapply rb_nth; [apply gate_rd; lia|].
      set (gt := gate_at (layer_at C 0) j).
      assert (W : forall x, x = fz (vals C 0 j) -> returns (wr l j x) (fun l' => length l' = 2 ^ n + 1 /\ forall g, g < S j -> nth_error l' g = Some (fz (vals C 0 g)))).
      { intros x Ex. apply returns_wr; [lia|]. split; [rewrite upd_length; exact Ll|]. intros g Hg.
        destruct (Nat.eq_dec g j) as [->|Ng]; [rewrite nth_upd_same by lia; rewrite Ex; reflexivity|rewrite nth_upd_other by lia; apply Hl; lia]. }
      destruct (zc_input C CC j ltac:(fold n; lia)) as [H|[H Hu]]; fold gt in H; rewrite H; cbn [Z.eqb Pos.eqb].
      + rewrite (gmp_ok _ _ (rep_of_int (g_u gt))), bind_ok. apply W. rewrite E0. reflexivity.
      + rewrite (gmp_ok _ _ (rep_of_int 0)), bind_ok. apply W. rewrite E0. unfold input_spec. fold gt. unfold gt. rewrite Hu. reflexivity.
Qed.

Lemma commit_ok : forall fr zr C z, stream_ok fr zr -> zcomplete_circuit C -> p_C (z_p z) = C ->
  returns (keygen_and_commit fr zr z (bit_length (layer_at C 0))) (fun res => let '(d, da, d2, d2a, z') := res in
    z_p z' = z_p z /\ z_m z' = z_m z /\ z_r z' = z_r z /\ exists x0 x1, iready (z_kI z') (z_i z') C d d2 x0 x1 /\
    [x0; x1] = drawn fr (z_pos z) 2 /\ z_pos z' = z_pos z + 2).
Proof.
  intros fr zr C z Hst CC EC. set (n := bit_length (layer_at C 0)).
  destruct (zc_inbits C CC) as [Hn1 Hn31]. fold n in Hn1, Hn31.
  pose proof (zc_depth C CC) as D. pose proof (zc_pos C CC) as Dp.
  pose proof (zc_gates C CC 0 Dp) as HG. fold n in HG.
  unfold keygen_and_commit. cbv zeta. rewrite EC.
  assert (Hz : forall k, red (zr k)) by apply Hst.
  set (q := z_zpos z).
  destruct (input_list_ok C CC) as (input & EI & Li & Hi). fold n in EI, Li, Hi.
  pose proof (draw_ok fr zr (z_pos z) 2 Hst) as HR. set (mr := drawn fr (z_pos z) 2) in HR.
  destruct mr as [|x0 [|x1 [|]]] eqn:Emr; try (pose proof (drawn_length fr (z_pos z) 2) as H; fold mr in H; rewrite Emr in H; discriminate H).
  destruct (I_commit_open n (zr q) (drawz zr (q + 1) (n + 1)) input (fz x0) (fz x1) (zr (q + n + 2)) (zr (q + n + 2 + 1)))
    as (kI & co & d & da & d2 & d2a & EK & ECm & OP); try apply Hz; try apply fz_red; [lia|apply drawz_length|eapply drawz_red; exact Hst|exact Li| |].
  { intros g Hg. rewrite (nth_error_nth _ _ 0%Z (Hi g Hg)). apply fz_red. }
  rewrite EK, bind_ok. eapply rb_nth; [apply layer_rd; lia|].
  rewrite shl_int_ok by exact Hn31. rewrite bind_ok, EI, bind_ok.
  rewrite (gmps_ok _ _ HR), bind_ok. cbn [map]. rewrite ECm, bind_ok.
  apply returns_ok. cbn [z_p z_m z_r z_i z_kI]. split; [reflexivity|]. split; [reflexivity|]. split; [reflexivity|].
  exists x0, x1. split; [|split; [symmetry; exact Emr|reflexivity]]. split; [|exact HR]. cbn [i_maskr_mpz i_mpz i_rf i_rf2].
  destruct OP as [EN OP]. split; [exact EN|]. intros r Zv t Lr Hr Hzv Lt Ht.
  destruct (OP r Zv t Lr Hr Hzv Lt Ht) as (ans & w & wa & Ea & Ra & Va & VV & L1 & L2).
  exists ans, w, wa. split; [exact Ea|]. split; [exact Ra|]. split; [|split; [exact VV|split; assumption]].
  rewrite Va, !ofZ_fz. f_equal. apply mle_ext. intros g Hg. rewrite map_length, Lr in Hg. unfold ent. rewrite (nth_error_nth _ _ 0%Z (Hi g Hg)). apply ofZ_fz.
Qed.
Lemma last_nth' : forall (l : list F) n, length l = n -> last l 0%F = nth (n - 1) l 0%F.
Proof.
  intros l n <-. induction l as [|a l IH]; [reflexivity|]. destruct l as [|b l]; [reflexivity|].
  change (last (a :: b :: l) 0%F) with (last (b :: l) 0%F). rewrite IH. cbn [length]. rewrite !Nat.sub_succ, !Nat.sub_0_r. reflexivity.
Qed.

Section Body.
Variable enc : F -> list Z.
Variable ec1 : nat.
Hypothesis Henc : forall x, length (enc x) = ec1.
Hypothesis Hec1 : 0 < ec1.
Variables (fr : nat -> u512) (zr : nat -> Z).
Hypothesis Hst : stream_ok fr zr.
Variables (ev : zprover -> outcome (list fe * zprover))
  (vr : zprover -> list fe -> list fe -> list fe -> nat -> nat -> outcome (fe * zprover)) (f : zprover -> fe).
Let I := zlike fr zr ev vr f.
Variables (rng : list msg -> nat -> outcome (list fe * list msg)) (K : nat).
Hypothesis Hrng : rng_ok ec1 K rng.
Variables (C : layered_circuit) (m : nat).
Hypothesis CC : zcomplete_circuit C.
Hypothesis Hm : forall k, k < total_depth C -> bit_length (layer_at C k) <= m.
Let d := total_depth C.
Hypothesis Hf : forall z, p_layer (z_p z) <> d - 1 -> f z = m_sumc (z_m z).

(** ** The loop over the layers *)
(** After [j] layers; [k] bounds the transcript. *)
Definition loop_inv (x0 x1 : F) (ip : ipart) (kI : keyI) (k j : nat) (st : zvstate zprover) : Prop :=
  exists a be R0 R1 mk zu zv pu pv,
  zclaim C m ip kI (d - 1 - j) st a be R0 R1 mk zu zv pu pv /\ tr_ok ec1 (k + j * (18 * m + 24)) (t_tr st) /\
  (d = 1 \/ 0 < j -> rep (t_sum st) (zvalue C x0 x1 (d - 1 - j) a be R0 R1 mk zu zv pu pv)) /\
  (j = 0 -> 1 < d -> forall z s, z_p z = zinit_p C (d - 1) st -> rep (m_sumc (z_m z)) s ->
    rep (addm (t_sum st) (f z)) (zvalue C x0 x1 (d - 1) a be R0 R1 mk zu zv pu pv + s)%F).
(** What the layer reveals: [v_u], [v_v] are the values of the previous layer at
    the new points, masked by six fresh random elements. *)
Definition revealed (i : nat) (st st' : zvstate zprover) : Prop := exists ru rv,
  let mk := drawn fr (z_pos (t_p st)) 6 in
  reps (t_r0 st') ru /\ reps (t_r1 st') rv /\ length ru = bit_length (layer_at C (i - 1)) /\ length rv = bit_length (layer_at C (i - 1)) /\
  rep (p_v_u (z_p (t_p st'))) (mle ru (vals C (i - 1)) + zp ru * RS mk (last ru 0))%F /\
  rep (p_v_v (z_p (t_p st'))) (mle rv (vals C (i - 1)) + zp rv * RS mk (last rv 0))%F.
Lemma zstep_ok : forall x0 x1 ip kI k j st, reps (i_maskr ip) [x0; x1] -> j < d - 1 -> k + (d - 1) * (18 * m + 24) <= K ->
  loop_inv x0 x1 ip kI k j st ->
  returns (zverify_layer enc rng I C (d - 1 - j) st) (fun st' => loop_inv x0 x1 ip kI k (S j) st' /\ (d - 1 - j <> 1 -> revealed (d - 1 - j) st st') /\
    (d - 1 - j = 1 -> rep (p_v_v (z_p (t_p st'))) (vals C 0 0))).
Proof.
  intros x0 x1 ip kI k j s Hip Hj HK (a1 & be1 & Q0 & Q1 & mk1 & zu1 & zv1 & pu1 & pv1 & CL1 & T1 & S1 & HS1).
  assert (Hb : bit_length (layer_at C (d - 1 - j - 1)) <= m) by (apply Hm; fold d; lia).
  assert (Hjd : j * (18 * m + 24) + (18 * m + 24) <= (d - 1) * (18 * m + 24)).
  { replace (j * (18 * m + 24) + (18 * m + 24)) with (S j * (18 * m + 24)) by lia. apply Nat.mul_le_mono_r. lia. }
  eapply returns_conseq.
  - apply (zverify_layer_ok enc ec1 Henc Hec1 fr zr Hst ev vr f rng K Hrng C m CC Hm x0 x1 ip kI Hip (d - 1 - j) s
      (k + j * (18 * m + 24)) a1 be1 Q0 Q1 mk1 zu1 zv1 pu1 pv1); [fold d; lia|exact CL1|exact T1|lia|].
    intros z q Ez Rq. destruct (Nat.eq_dec j 0) as [->|Nj].
    { rewrite Nat.sub_0_r in *. apply HS1; [reflexivity|lia|exact Ez|exact Rq]. }
    rewrite Hf by (rewrite Ez; cbn [zinit_p sumcheck_init p_layer]; lia).
    apply addm_ok; [apply S1; lia|exact Rq].
  - intros s' (a2 & be2 & ru & rv & mk2 & CL2 & S2 & T2 & V2 & V1). split; [|split].
    + exists a2, be2, ru, rv, mk2, (zp ru), (zp rv), (last ru 0%F), (last rv 0%F).
      replace (d - 1 - S j) with (d - 1 - j - 1) by lia. split; [exact CL2|].
      split; [eapply (tr_mono ec1 Hec1); [exact T2|lia]|]. split; [intros _; exact S2|discriminate].
    + intro N. destruct (V2 N) as (-> & V3 & V4). exists ru, rv. cbv zeta. destruct CL2.
      split; [assumption|]. split; [assumption|]. split; [assumption|]. split; [assumption|]. split; assumption.
    + intro N. apply (V1 N).
Qed.
Lemma zprefix_ok : forall x0 x1 ip kI k n st, reps (i_maskr ip) [x0; x1] -> n <= d - 1 -> k + (d - 1) * (18 * m + 24) <= K ->
  loop_inv x0 x1 ip kI k 0 st -> returns (zverify_layers enc rng I C n st) (loop_inv x0 x1 ip kI k n).
Proof.
  intros x0 x1 ip kI k n st Hip Hn HK H0. unfold zverify_layers. fold d.
  apply (returns_for _ n 0 _ (loop_inv x0 x1 ip kI k)); [exact H0|].
  intros j s Hj Hs. eapply returns_conseq; [apply (zstep_ok x0 x1 ip kI k j s Hip ltac:(lia) HK Hs)|]. intros s' [H _]. exact H.
Qed.

(** ** The opening of the input commitment *)
Lemma zinput_ok : forall x0 x1 ip kI dI dI2 st k a be R0 R1 mk zu zv pu pv, iready kI ip C dI dI2 x0 x1 ->
  zclaim C m ip kI 0 st a be R0 R1 mk zu zv pu pv ->
  rep (t_sum st) (zvalue C x0 x1 0 a be R0 R1 mk zu zv pu pv) -> tr_ok ec1 k (t_tr st) ->
  returns (zverify_input enc I (bit_length (layer_at C 0)) dI dI2 st) (fun t => tr_ok ec1 (k + 2 * (bit_length (layer_at C 0) + 1)) t).
Proof.
  intros x0 x1 ip kI dI dI2 st k a be R0 R1 mk zu zv pu pv [OP _] [Kp Ka Kb Kr0 Kr1 Ko0 Kl0 Kl1 Ko1 KB Kmk Kmkl Kzu Kzv Kpu Kpv Ki Kk] Rs T.
  set (n := bit_length (layer_at C 0)) in *. unfold zverify_input, I. cbn [zlike zi_Zu zi_prove_input zi_kI].
  rewrite !firstn_all2 by (rewrite (reps_length _ _ Kr0) || rewrite (reps_length _ _ Kr1); lia).
  rewrite (gmps_ok _ _ Kr0), bind_ok, (gmps_ok _ _ Kr1), bind_ok. cbv zeta. rewrite (gmp_ok _ _ Kzu), bind_ok.
  eapply returns_bind; [apply (prove_input_ok fr zr Hst (t_p st) n (vals C 0) x0 x1 dI dI2 R0 zu); [rewrite Ki, Kk; exact OP|exact Kl0]|].
  intros [[[ans w] wa] z'] ((q & E') & RA & EA & VV & L1 & L2).
  assert (Er : z_r z' = z_r (t_p st)) by (rewrite E'; reflexivity). assert (Ek : z_kI z' = z_kI (t_p st)) by (rewrite E'; reflexivity).
  rewrite Er, (gmp_ok _ _ Kzu), bind_ok, Ek, VV, bind_ok.
  eapply rb_reject; [reflexivity|]. eapply rb_reject.
  { eapply rep_fne_false; [exact Rs|apply fe_of_mpz_ok; exact RA|]. unfold zvalue. cbn [Nat.eqb]. rewrite EA, (last_nth' R0 n Kl0). reflexivity. }
  apply returns_ok. apply (tr_curves enc ec1 Henc Hec1); [exact T|lia].
Qed.

(** ** The whole run *)
(** The state before the first layer. *)
Definition claim0 (dI dI2 : F) (st : zvstate zprover) (k : nat) : Prop :=
  exists ip kI x0 x1, iready kI ip C dI dI2 x0 x1 /\ loop_inv x0 x1 ip kI k 0 st.
Lemma zstart_ok : forall s0 result s1 BB0, ev s0 = Ok (result, s1) -> pinv C m (z_p s1) ->
  z_r s1 = z_r (init_zprover C m) -> bsizes m BB0 ->
  (forall s o r R, z_p s = z_p s1 -> reps r R -> reps o (comp R) -> length R = bit_length (layer_at C (d - 1)) ->
     returns (vr s o r result (bit_length (layer_at C (d - 1))) (2 ^ bit_length (layer_at C (d - 1)))) (fun p => let '(x, s') := p in
       exists e, rep x (mle R (vals C (d - 1)) + e)%F /\ pinv C m (z_p s') /\ z_r s' = z_r s /\ z_i s' = z_i s /\ z_kI s' = z_kI s /\
         (d = 1 -> e = 0%F) /\
         forall z q, p_layer (z_p z) = d - 1 -> p_v_u (z_p z) = p_v_u (z_p s') -> rep (m_sumc (z_m z)) q -> rep (f z) (q - e)%F)) ->
  4 + 2 * bit_length (layer_at C (d - 1)) <= K ->
  returns (zverify_start enc rng I C BB0 s0) (fun p => let '(dI, dI2, st) := p in
    claim0 dI dI2 st (4 + 2 * bit_length (layer_at C (d - 1)))).
Proof.
  intros s0 result s1 BB0 EV PI1 ER HB HV HK.
  pose proof (zc_depth C CC) as D. pose proof (zc_pos C CC) as Dp. fold d in D, Dp.
  set (Lo := layer_at C (d - 1)) in *. set (blo := bit_length Lo) in *.
  unfold zverify_start, I. cbn [zlike zi_evaluate zi_commit zi_V_res]. fold I. cbv zeta. rewrite EV, bind_ok.
  eapply rb_nth; [apply layer_rd; lia|].
  eapply returns_bind; [apply (commit_ok fr zr C s1 Hst CC); exact (pi_C _ _ _ PI1)|].
  intros [[[[dI dIa] dI2] dI2a] s2] (P2 & M2 & R2 & x0 & x1 & IR & _).
  fold d. eapply rb_nth; [apply layer_rd; lia|]. fold Lo. fold blo.
  pose proof (tr_start enc ec1 Henc Hec1 dI dIa dI2 dI2a) as T0.
  eapply returns_bind; [apply (rng_step ec1 Hec1 K rng _ _ blo Hrng T0); lia|].
  intros [r_0 t1] [T1 (R0 & H0 & L0)]. cbn [fst snd] in T1, H0.
  eapply returns_bind; [apply (rng_step ec1 Hec1 K rng _ _ blo Hrng T1); lia|].
  intros [r_1 t2] [T2 (R1 & H1 & L1)]. cbn [fst snd] in T2, H1.
  eapply returns_bind; [apply (one_minus_ok r_0 R0); [exact H0|lia]|]. intros o_0 O0. cbv beta in O0.
  eapply returns_bind; [apply (one_minus_ok r_1 R1); [exact H1|lia]|]. intros o_1 O1. cbv beta in O1.
  eapply returns_bind; [apply (HV s2 o_0 r_0 R0 P2 H0 O0 L0)|].
  intros [x s3] (e & Rx & PI3 & R3 & I3 & KI3 & E1 & HF).
  rewrite ER in R2.
  assert (Z3 : z_r s3 = z_r (init_zprover C m)) by (rewrite R3; exact R2).
  assert (Rz : rep fe_zero 0%F) by exact rep_0.
  set (st0 := ZVState _ _ _ _ _ _ _ _ _ _). apply returns_ok.
  assert (Rt : rep (t_sum st0) (mle R0 (vals C (d - 1)) + e)%F).
  { unfold st0. cbn [t_sum]. eapply rep_eq; [apply rep_mul; [exact rep_i1|exact Rx]|]. ring. }
  exists (z_i s2), (z_kI s2), x0, x1. split; [exact IR|].
  exists 1%F, 0%F, R0, R1, (repeat 0%F 6), 0%F, 0%F, 0%F, 0%F. rewrite Nat.sub_0_r. simpl (0 * _). rewrite Nat.add_0_r.
  split; [|split; [|split]].
  - constructor; unfold st0; cbn [t_alpha t_beta t_sum t_r0 t_r1 t_o0 t_o1 t_B t_tr t_p]; try assumption; rewrite ?Z3;
      cbn [init_zprover z_r r_maskR r_Zu r_Zv r_preu1 r_prev1]; try exact Rz; try exact rep_i0; try exact rep_i1; try reflexivity.
    + intros _. exact O1.
    + cbn [repeat]. repeat (constructor; [exact Rz|]). constructor.
  - replace (4 + 2 * blo) with (4 + blo + blo) by lia. exact T2.
  - intros [Ed|]; [|lia]. eapply rep_eq; [exact Rt|]. rewrite (E1 Ed). replace (d - 1) with 0 by lia. unfold zvalue. cbn [Nat.eqb]. ring.
  - intros _ Hd z q Ez Rq. eapply rep_eq; [apply addm_ok; [exact Rt|apply (HF z q)]|].
    + rewrite Ez. reflexivity.
    + rewrite Ez. reflexivity.
    + exact Rq.
    + unfold zvalue. destruct (Nat.eqb_spec (d - 1) 0); [lia|]. ring.
Qed.
Lemma zbody_ok : forall s0 result s1 BB0, ev s0 = Ok (result, s1) -> pinv C m (z_p s1) ->
  z_r s1 = z_r (init_zprover C m) -> bsizes m BB0 ->
  (forall s o r R, z_p s = z_p s1 -> reps r R -> reps o (comp R) -> length R = bit_length (layer_at C (d - 1)) ->
     returns (vr s o r result (bit_length (layer_at C (d - 1))) (2 ^ bit_length (layer_at C (d - 1)))) (fun p => let '(x, s') := p in
       exists e, rep x (mle R (vals C (d - 1)) + e)%F /\ pinv C m (z_p s') /\ z_r s' = z_r s /\ z_i s' = z_i s /\ z_kI s' = z_kI s /\
         (d = 1 -> e = 0%F) /\
         forall z q, p_layer (z_p z) = d - 1 -> p_v_u (z_p z) = p_v_u (z_p s') -> rep (m_sumc (z_m z)) q -> rep (f z) (q - e)%F)) ->
  4 + 2 * bit_length (layer_at C (d - 1)) + (d - 1) * (18 * m + 24) + 2 * (bit_length (layer_at C 0) + 1) <= K ->
  (Z.of_nat (K * msize ec1) < 2 ^ 31)%Z ->
  returns (zverify_body enc rng I C BB0 s0) (fun p => fst p = true).
Proof.
  intros s0 result s1 BB0 EV PI1 ER HB HV HK HK31.
  pose proof (zc_depth C CC) as D. pose proof (zc_pos C CC) as Dp. fold d in D, Dp. unfold zverify_body.
  eapply returns_bind; [apply (zstart_ok s0 result s1 BB0 EV PI1 ER HB HV); lia|].
  intros [[dI dI2] st0] (ip & kI & x0 & x1 & IR & LI).
  eapply rb_nth; [apply layer_rd; lia|]. fold d.
  eapply returns_bind; [apply (zprefix_ok x0 x1 ip kI (4 + 2 * bit_length (layer_at C (d - 1))) (d - 1) st0 (proj2 IR) (le_n _)); [|exact LI]; lia|].
  intros st (a & be & Q0 & Q1 & mk & zu & zv & pu & pv & CL' & T3 & Rs & _). rewrite Nat.sub_diag in CL', Rs. specialize (Rs ltac:(lia)).
  eapply returns_bind; [apply (zinput_ok x0 x1 ip kI dI dI2 st _ a be Q0 Q1 mk zu zv pu pv IR CL' Rs T3)|].
  intros t T4. cbv beta in T4. set (n := bit_length (layer_at C 0)) in *. set (blo := bit_length (layer_at C (d - 1))) in *.
  eapply returns_bind; [apply (output_to_file_ok ec1 Hec1)|].
  { destruct T4 as [_ T4]. assert ((4 + 2 * blo + (d - 1) * (18 * m + 24) + 2 * (n + 1)) * msize ec1 <= K * msize ec1)
      by (apply Nat.mul_le_mono_r; lia). lia. }
  intros ? _. apply returns_ok. reflexivity.
Qed.
End Body.

(** ** The honest prover *)
(** The number of messages on the transcript. *)
Definition zmessages (C : layered_circuit) : nat :=
  4 + 2 * bit_length (layer_at C (total_depth C - 1)) + (total_depth C - 1) * (18 * max_bit_length C + 24)
    + 2 * (bit_length (layer_at C 0) + 1).

Lemma honest_start : forall C m, zcomplete_circuit C -> (forall k, k < total_depth C -> bit_length (layer_at C k) <= m) ->
  exists result s1, zk_evaluate (init_zprover C m) = Ok (result, s1) /\ pinv C m (z_p s1) /\ z_r s1 = z_r (init_zprover C m) /\
  let d := total_depth C in
  forall s o r R, z_p s = z_p s1 -> reps r R -> reps o (comp R) -> length R = bit_length (layer_at C (d - 1)) ->
     returns (honest_V_res s o r result (bit_length (layer_at C (d - 1))) (2 ^ bit_length (layer_at C (d - 1)))) (fun p => let '(x, s') := p in
       exists e, rep x (mle R (vals C (d - 1)) + e)%F /\ pinv C m (z_p s') /\ z_r s' = z_r s /\ z_i s' = z_i s /\ z_kI s' = z_kI s /\
         (d = 1 -> e = 0%F) /\
         forall z q, p_layer (z_p z) = d - 1 -> p_v_u (z_p z) = p_v_u (z_p s') -> rep (m_sumc (z_m z)) q -> rep (m_sumc (z_m z)) (q - e)%F).
Proof.
  intros C m CC Hm.
  destruct (zevaluate_ok C (zcomplete_wf C CC)) as ([out cv] & EV & Rw & Ro). cbn [fst snd] in Rw, Ro.
  exists out, (set_p (init_zprover C m) (set_values (z_p (init_zprover C m)) cv)).
  split; [unfold zk_evaluate; change (p_C (z_p (init_zprover C m))) with C; rewrite EV; reflexivity|].
  split; [apply init_pinv_sizes, Rw|]. split; [reflexivity|]. cbv zeta.
  intros s o r R P2 Hr Ho LR. pose proof Rw as RW. destruct Rw as [_ Rw]. pose proof (zc_pos C CC) as Dp.
  destruct (Rw (total_depth C - 1) ltac:(lia)) as (row & Er & Tr). rewrite Ro in Er. injection Er as <-.
  unfold honest_V_res, zk_V_res. rewrite <- LR in Tr |- *.
  eapply returns_bind; [apply (V_res_ok _ _ _ _ _ _ Hr Ho Tr)|]. intros x Rx. cbv beta in Rx. apply returns_ok.
  exists 0%F. split; [eapply rep_eq; [exact Rx|ring]|]. split; [rewrite P2; apply init_pinv_sizes; exact RW|].
  split; [reflexivity|]. split; [reflexivity|]. split; [reflexivity|]. split; [reflexivity|].
  intros z q _ _ Rq. eapply rep_eq; [exact Rq|ring].
Qed.

Theorem zk_complete : forall enc ec1 aes fr zr C, (forall x, length (enc x) = ec1) -> 0 < ec1 -> is_cipher aes ->
  stream_ok fr zr -> zcomplete_circuit C -> (Z.of_nat (zmessages C * msize ec1 + 512) < 2 ^ 31)%Z ->
  run_zk enc aes fr zr C = Ok true.
Proof.
  intros enc ec1 aes fr zr C Henc Hec1 Ha Hst CC HK. unfold run_zk. cbv zeta. set (m := max_bit_length C).
  rewrite zhonest_like.
  assert (Hm : forall k, k < total_depth C -> bit_length (layer_at C k) <= m).
  { intros k Hk. apply bit_length_max. rewrite <- (zc_depth C CC). exact Hk. }
  destruct (honest_start C m CC Hm) as (out & s1 & EV & PI & ER & HV).
  destruct (zbody_ok enc ec1 Henc Hec1 fr zr Hst zk_evaluate honest_V_res (fun z => m_sumc (z_m z)) (transcript_random aes) (zmessages C)
    (transcript_rng ec1 Hec1 aes _ Ha HK) C m CC Hm (fun z _ => eq_refl) (init_zprover C m) out s1 (init_zbetas m, init_zbetas m)
    EV PI ER (init_bsizes m) HV) as (p & E & Ep).
  - unfold zmessages, m. lia.
  - lia.
  - unfold zverify. rewrite E, bind_ok, Ep. reflexivity.
Qed.

(** The values the honest prover reveals in layer [i = d - 1 - k]. *)
Theorem zk_revealed : forall enc ec1 aes fr zr C k, (forall x, length (enc x) = ec1) -> 0 < ec1 -> is_cipher aes ->
  stream_ok fr zr -> zcomplete_circuit C -> (Z.of_nat (zmessages C * msize ec1 + 512) < 2 ^ 31)%Z ->
  let d := total_depth C in let m := max_bit_length C in let I := zhonest fr zr in let rng := transcript_random aes in
  1 + k < d - 1 ->
  exists dI dI2 st0 st st', zverify_start enc rng I C (init_zbetas m, init_zbetas m) (init_zprover C m) = Ok (dI, dI2, st0) /\
    zverify_layers enc rng I C k st0 = Ok st /\ zverify_layer enc rng I C (d - 1 - k) st = Ok st' /\
    revealed fr C (d - 1 - k) st st'.
Proof.
  intros enc ec1 aes fr zr C k Henc Hec1 Ha Hst CC HK d m I rng Hk. unfold I. rewrite zhonest_like.
  assert (Hm : forall k, k < total_depth C -> bit_length (layer_at C k) <= m).
  { intros i Hi. apply bit_length_max. rewrite <- (zc_depth C CC). exact Hi. }
  destruct (honest_start C m CC Hm) as (out & s1 & EV & PI & ER & HV).
  pose proof (transcript_rng ec1 Hec1 aes _ Ha HK) as Hrng. fold rng in Hrng.
  set (f := fun z => m_sumc (z_m z)) in *.
  destruct (zstart_ok enc ec1 Henc Hec1 fr zr Hst zk_evaluate honest_V_res f rng (zmessages C) Hrng C m CC
    (init_zprover C m) out s1 (init_zbetas m, init_zbetas m) EV PI ER (init_bsizes m) HV) as ([[dI dI2] st0] & E0 & ip & kI & x0 & x1 & IR & LI).
  { unfold zmessages. lia. }
  assert (HB : 4 + 2 * bit_length (layer_at C (d - 1)) + (d - 1) * (18 * m + 24) <= zmessages C) by (unfold zmessages; fold d m; lia).
  fold d in LI.
  destruct (zprefix_ok enc ec1 Henc Hec1 fr zr Hst zk_evaluate honest_V_res f rng (zmessages C) Hrng C m CC Hm (fun z _ => eq_refl)
    x0 x1 ip kI (4 + 2 * bit_length (layer_at C (d - 1))) k st0 (proj2 IR) ltac:(fold d; lia) HB LI) as (st & E1 & LI1).
  destruct (zstep_ok enc ec1 Henc Hec1 fr zr Hst zk_evaluate honest_V_res f rng (zmessages C) Hrng C m CC Hm (fun z _ => eq_refl)
    x0 x1 ip kI (4 + 2 * bit_length (layer_at C (d - 1))) k st (proj2 IR) ltac:(fold d; lia) HB LI1) as (st' & E2 & LI2 & RV & _).
  exists dI, dI2, st0, st, st'. split; [exact E0|]. split; [exact E1|]. split; [exact E2|]. apply RV. fold d. lia.
Qed.

(** In layer 1 the honest prover reveals the first value of the input. *)
Theorem zk_first_input : forall enc ec1 aes fr zr C, (forall x, length (enc x) = ec1) -> 0 < ec1 -> is_cipher aes ->
  stream_ok fr zr -> zcomplete_circuit C -> (Z.of_nat (zmessages C * msize ec1 + 512) < 2 ^ 31)%Z ->
  let d := total_depth C in let m := max_bit_length C in let I := zhonest fr zr in let rng := transcript_random aes in
  1 < d ->
  exists dI dI2 st0 st st', zverify_start enc rng I C (init_zbetas m, init_zbetas m) (init_zprover C m) = Ok (dI, dI2, st0) /\
    zverify_layers enc rng I C (d - 2) st0 = Ok st /\ zverify_layer enc rng I C 1 st = Ok st' /\
    rep (p_v_v (z_p (t_p st'))) (vals C 0 0).
Proof.
  intros enc ec1 aes fr zr C Henc Hec1 Ha Hst CC HK d m I rng Hd. set (k := d - 2). unfold I. rewrite zhonest_like.
  assert (Hm : forall k, k < total_depth C -> bit_length (layer_at C k) <= m).
  { intros i Hi. apply bit_length_max. rewrite <- (zc_depth C CC). exact Hi. }
  destruct (honest_start C m CC Hm) as (out & s1 & EV & PI & ER & HV).
  pose proof (transcript_rng ec1 Hec1 aes _ Ha HK) as Hrng. fold rng in Hrng.
  set (f := fun z => m_sumc (z_m z)) in *.
  destruct (zstart_ok enc ec1 Henc Hec1 fr zr Hst zk_evaluate honest_V_res f rng (zmessages C) Hrng C m CC
    (init_zprover C m) out s1 (init_zbetas m, init_zbetas m) EV PI ER (init_bsizes m) HV) as ([[dI dI2] st0] & E0 & ip & kI & x0 & x1 & IR & LI).
  { clear. unfold zmessages. generalize ((total_depth C - 1) * (18 * max_bit_length C + 24)). intro x. lia. }
  assert (HB : 4 + 2 * bit_length (layer_at C (d - 1)) + (d - 1) * (18 * m + 24) <= zmessages C) by (unfold zmessages; fold d m; lia).
  fold d in LI.
  destruct (zprefix_ok enc ec1 Henc Hec1 fr zr Hst zk_evaluate honest_V_res f rng (zmessages C) Hrng C m CC Hm (fun z _ => eq_refl)
    x0 x1 ip kI (4 + 2 * bit_length (layer_at C (d - 1))) k st0 (proj2 IR) ltac:(fold d; unfold k; lia) HB LI) as (st & E1 & LI1).
  destruct (zstep_ok enc ec1 Henc Hec1 fr zr Hst zk_evaluate honest_V_res f rng (zmessages C) Hrng C m CC Hm (fun z _ => eq_refl)
    x0 x1 ip kI (4 + 2 * bit_length (layer_at C (d - 1))) k st (proj2 IR) ltac:(fold d; unfold k; lia) HB LI1) as (st' & E2 & LI2 & _ & RV).
  fold d in E2, RV. replace (d - 1 - k) with 1 in E2, RV by (unfold k; lia).
  exists dI, dI2, st0, st, st'. split; [exact E0|]. split; [exact E1|]. split; [exact E2|]. apply RV. reflexivity.
Qed.
