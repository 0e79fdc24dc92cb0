(** * The zk verifier accepts the honest prover *)
From Coq Require Import ZArith List Bool Arith Lia Ring.
From Verif Require Import Limbs Field Fp Base ArithProofs MleSpec GkrMath Poly PolyProofs Circuit
  FastProver FastVerifier Lazy TablesProofs FastProverProofs PhaseProofs FastVerifierProofs SpecVpd VpdGroup VpdR VpdMask VpdInput
  VpdGroupProofs PropsVpd Transcript TranscriptProofs LoaderProofs ZkEval ZkEvalProofs
  ZkProver ZkVerifier ZkPhaseProofs ZkMaskProofs ZkRoundProofs ZkLayerProofs ZkPredProofs ZkOpenProofs ZkLinkProofs.
Import ListNotations.
Open Scope nat_scope.

(** ** Provers that differ from the honest one in three answers *)
(** Circuit evaluation, the evaluation of the claimed output and the mask sum
    are replaced; everything else is the honest prover. *)
Definition zlike (fr : nat -> u512) (zr : nat -> Z) (ev : zprover -> outcome (list fe * zprover))
    (vr : zprover -> list fe -> list fe -> list fe -> nat -> nat -> outcome (fe * zprover)) (f : zprover -> fe)
  : zprover_if zprover := {|
  zi_evaluate := ev;
  zi_commit := keygen_and_commit fr zr;
  zi_V_res := vr;
  zi_sumcheck_init := zk_sumcheck_init fr zr;
  zi_pre_rho := generate_maskpoly_pre_rho fr zr;
  zi_set_rho := set_rho;
  zi_after_rho := generate_maskpoly_after_rho;
  zi_sumc := f;
  zi_phase1_init := zk_phase1_init;
  zi_phase1_update := zk_phase1_update;
  zi_phase1_lastbit := zk_phase1_lastbit;
  zi_phase2_init := zk_phase2_init;
  zi_phase2_update := zk_phase2_update;
  zi_phase2_lastbit := zk_phase2_lastbit;
  zi_finalize := zk_finalize;
  zi_finalround := zk_finalround;
  zi_prove_R := prove_R zr;
  zi_prove_mask := prove_mask zr;
  zi_prove_input := prove_input zr;
  zi_v_u := fun z => p_v_u (z_p z);
  zi_Iuv := fun z => r_Iuv (z_r z); zi_preZu := fun z => r_preZu (z_r z);
  zi_preZv := fun z => r_preZv (z_r z); zi_Zu := fun z => r_Zu (z_r z);
  zi_prepreu1 := fun z => r_prepreu1 (z_r z); zi_preprev1 := fun z => r_preprev1 (z_r z);
  zi_kR := z_kR; zi_kM := z_kM; zi_kI := z_kI |}.
Definition honest_V_res (z : zprover) (o r out : list fe) (n m : nat) : outcome (fe * zprover) :=
  x <- zk_V_res o r out n m ;; Ok (x, z).
Lemma zhonest_like : forall fr zr, zhonest fr zr = zlike fr zr zk_evaluate honest_V_res (fun z => m_sumc (z_m z)).
Proof. reflexivity. Qed.
Lemma zlike_phase1 : forall fr zr ev vr f, @zphase1_rounds zprover (zlike fr zr ev vr f) = zphase1_rounds (zhonest fr zr).
Proof. reflexivity. Qed.
Lemma zlike_phase2 : forall fr zr ev vr f, @zphase2_rounds zprover (zlike fr zr ev vr f) = zphase2_rounds (zhonest fr zr).
Proof. reflexivity. Qed.

(** Only the position in the stream differs. *)
Definition zsame (z z' : zprover) : Prop :=
  exists q, z' = ZProver (z_p z) (z_m z) (z_r z) (z_i z) (z_kR z) (z_kM z) (z_kI z) (z_pos z) q.
Lemma zsame_trans : forall a b c, zsame a b -> zsame b c -> zsame a c.
Proof. intros a b c (q & ->) (q' & ->). exists q'. reflexivity. Qed.

Section Openings.
Variable enc : F -> list Z.
Variable ec1 : nat.
Hypothesis Henc : forall x, length (enc x) = ec1.
Hypothesis Hec1 : 0 < ec1.
Variables (fr : nat -> u512) (zr : nat -> Z).
Hypothesis Hst : stream_ok fr zr.
Variables (ev : zprover -> outcome (list fe * zprover))
  (vr : zprover -> list fe -> list fe -> list fe -> nat -> nat -> outcome (fe * zprover)) (f : zprover -> fe).
Let I := zlike fr zr ev vr f.

Lemma tr_curves : forall k t l1 l2 j, tr_ok ec1 k t -> length l1 + length l2 <= j ->
  tr_ok ec1 (k + j) (t ++ curve_msgs enc l1 ++ curve_msgs enc l2).
Proof.
  intros k t l1 l2 j H Hj. apply (tr_app ec1 Hec1); [exact H| |rewrite app_length, !curves_len; exact Hj].
  apply Forall_app. split; apply short_curves; assumption.
Qed.

Lemma open_R_ok : forall z r_c rc dR mk pu pv t k, rep r_c rc ->
  rep (r_prepreu1 (z_r z)) pu -> rep (r_preprev1 (z_r z)) pv -> reps (r_preR (z_r z)) mk ->
  ropen (z_kR z) dR (map fz mk) (r_rf (z_r z)) -> tr_ok ec1 k t ->
  returns (open_R enc I r_c dR t z) (fun res => let '(v1, v2, b, t', z') := res in
    zsame z z' /\ b = true /\ red v1 /\ red v2 /\
    ofZ v1 = poly_R (fun i => nth i mk 0%F) pu rc /\ ofZ v2 = poly_R (fun i => nth i mk 0%F) pv rc /\ tr_ok ec1 (k + 12) t').
Proof.
  intros z r_c rc dR mk pu pv t k Rc Rpu Rpv Rm OP T. unfold open_R, I. cbn [zlike zi_prepreu1 zi_preprev1 zi_prove_R zi_kR].
  rewrite (gmp_ok _ _ Rpu), bind_ok, (gmp_ok _ _ Rc), bind_ok.
  eapply returns_bind; [apply (prove_R_ok fr zr Hst z mk dR _ _ Rm OP); apply fz_red|].
  intros [[[v1 w] wa] z1] ((q1 & E1) & D1 & V1 & VV1 & L1 & L2).
  assert (K1 : z_kR z1 = z_kR z) by (rewrite E1; reflexivity). rewrite K1, VV1, bind_ok.
  assert (R1 : z_r z1 = z_r z) by (rewrite E1; reflexivity). rewrite R1, (gmp_ok _ _ Rpv), bind_ok.
  eapply returns_bind; [apply (prove_R_ok fr zr Hst z1 mk dR); [rewrite R1; exact Rm|rewrite K1, R1; exact OP| |]; apply fz_red|].
  intros [[[v2 w2] wa2] z2] ((q2 & E2) & D2 & V2 & VV2 & L3 & L4).
  assert (K2 : z_kR z2 = z_kR z1) by (rewrite E2; reflexivity). rewrite K2, VV2, bind_ok.
  apply returns_ok. split; [eapply zsame_trans; [exists q1; exact E1|exists q2; exact E2]|].
  split; [reflexivity|]. split; [exact D1|]. split; [exact D2|]. rewrite V1, V2, !ofZ_fz.
  split; [reflexivity|]. split; [reflexivity|]. replace (k + 12) with (k + 6 + 6) by lia.
  apply tr_curves; [apply tr_curves; [exact T|lia]|lia].
Qed.

Lemma open_mask_ok : forall z n r_u r_v r_c ru rv rc dM c0 t k, reps r_u ru -> reps r_v rv -> length ru = n -> length rv = n -> rep r_c rc ->
  m_gmp (z_m z) = map fz c0 -> mopen (z_kM z) dM (2 * n + 1) (map fz c0) (m_rf (z_m z)) -> tr_ok ec1 k t ->
  returns (open_mask enc I n r_u r_v r_c dM t z) (fun res => let '(v, b, t', z') := res in
    zsame z z' /\ b = true /\ red v /\
    ofZ v = mask_poly (2 * n + 1) (fun i => nth i c0 0%F) (fun i => nth i (ru ++ rv ++ [rc]) 0%F) /\ tr_ok ec1 (k + (4 * n + 4)) t').
Proof.
  intros z n r_u r_v r_c ru rv rc dM c0 t k Hu Hv Lu Lv Rc Eg OP T. unfold open_mask, I. cbn [zlike zi_prove_mask zi_kM].
  rewrite !firstn_all2 by (rewrite (reps_length _ _ Hu) || rewrite (reps_length _ _ Hv); lia).
  rewrite (gmps_ok _ _ Hu), bind_ok, (gmps_ok _ _ Hv), bind_ok, (gmp_ok _ _ Rc), bind_ok. cbv zeta.
  replace (map fz ru ++ map fz rv ++ [fz rc]) with (map fz (ru ++ rv ++ [rc])) by (rewrite !map_app; reflexivity).
  eapply returns_bind; [apply (prove_mask_ok fr zr Hst z (2 * n + 1) c0 dM (ru ++ rv ++ [rc]) Eg OP)|].
  { rewrite !app_length. simpl. lia. }
  intros [[[v w] wa] z1] ((q & E1) & D & V & VV & L1 & L2).
  assert (K1 : z_kM z1 = z_kM z) by (rewrite E1; reflexivity). rewrite K1, VV, bind_ok.
  apply returns_ok. split; [exists q; exact E1|]. split; [reflexivity|]. split; [exact D|]. split; [exact V|].
  apply tr_curves; [exact T|lia].
Qed.
End Openings.

(** ** Circuits the zk protocol can prove *)
Record zcomplete_circuit (C : layered_circuit) : Prop := {
  zc_depth : total_depth C = length (circuit C);
  zc_pos : 0 < total_depth C;
  zc_small : (Z.of_nat (total_depth C) < 1000000)%Z;
  zc_gates : forall i, i < total_depth C -> 2 ^ bit_length (layer_at C i) <= length (gates (layer_at C i));
  zc_input : forall g, g < 2 ^ bit_length (layer_at C 0) ->
     g_ty (gate_at (layer_at C 0) g) = 3%Z \/
     (g_ty (gate_at (layer_at C 0) g) = 2%Z /\ g_u (gate_at (layer_at C 0) g) = 0%Z);
  zc_copy : 1 < total_depth C -> copy_layer C /\ is_parallel (layer_at C 1) = false;
  zc_wires : forall i g, 2 <= i < total_depth C -> g < 2 ^ bit_length (layer_at C i) ->
     zproto_gate (2 ^ bit_length (layer_at C (i - 1))) (gate_at (layer_at C i) g);
  zc_par : forall i, 2 <= i < total_depth C -> zpar_ok (layer_at C i) (layer_at C (i - 1));
  zc_bits : forall i, i + 1 < total_depth C ->
     1 <= bit_length (layer_at C i) /\ (Z.of_nat (2 * bit_length (layer_at C i) + 1) < 2 ^ 31)%Z;
  zc_inbits : 1 <= bit_length (layer_at C 0) < 31 }.
Lemma zcomplete_wf : forall C, zcomplete_circuit C -> zwf_circuit C.
Proof.
  intros C [D P S G I K W _ _ _]. constructor; try assumption.
  - intros g Hg. destruct (I g Hg) as [H|[H _]]; auto.
  - intros i g Hi Hg. destruct (Nat.eq_dec i 1) as [->|N].
    + destruct (K ltac:(lia)) as [[Kb Kg] _]. rewrite (Kg g Hg). unfold zreads_in, reads_in. cbn [g_ty g_u]. simpl (1 - 1).
      rewrite <- Kb. lia.
    + apply zproto_reads, W; [lia|exact Hg].
Qed.

Section ZLayer.
Variables (C : layered_circuit) (m i : nat).
Hypothesis CC : zcomplete_circuit C.
Hypothesis Hi : 0 < i < total_depth C.
Hypothesis Hm : forall k, k < total_depth C -> bit_length (layer_at C k) <= m.
Let L := layer_at C i.
Let Lm := layer_at C (i - 1).
Let lg := bit_length L.
Let b := bit_length Lm.
Let V := vals C (i - 1).

Lemma zvals_this : vals C i = fun g => gate_spec V (gate_at L g).
Proof.
  pose proof (zc_depth C CC) as D. replace i with (S (i - 1)) at 1 by lia. rewrite vals_S by lia.
  replace (S (i - 1)) with i by lia. reflexivity.
Qed.
Lemma zcopy_at : i = 1 -> b = lg /\ forall k, k < 2 ^ lg -> gate_at L k = Gate 4 (Z.of_nat k) 0.
Proof.
  intro E. destruct (zc_copy C CC ltac:(lia)) as [[Kb Kg] _]. subst b lg L Lm. rewrite E in *.
  split; [symmetry; exact Kb|exact Kg].
Qed.
Lemma zproto_at : i <> 1 -> forall k, k < 2 ^ lg -> zproto_gate (2 ^ b) (gate_at L k).
Proof. intros N k Hk. apply (zc_wires C CC); [lia|exact Hk]. Qed.
Lemma zrange_at : i <> 1 -> forall k, k < 2 ^ lg -> in_range (2 ^ b) (gate_at L k).
Proof. intros N k Hk. apply zproto_range; [apply pow2_pos|apply zproto_at; assumption]. Qed.
(** The phase 2 tables of the copy layer are empty. *)
Lemma copy_scat2 : i = 1 -> forall W vu U x, scat (2 ^ lg) (tM2 (gate_at L) W vu U) x = 0%F /\ scat (2 ^ lg) (tA2 (gate_at L) W vu U) x = 0%F.
Proof.
  intros E W vu U x. destruct (zcopy_at E) as [_ Eg].
  split; unfold scat; apply sumn_zero'; intros g Hg; unfold tM2, tA2; rewrite (Eg g Hg), copy_wires; reflexivity.
Qed.

(** The tables of phase 1. *)
Definition ztA (W : nat -> F) : nat -> list (F * nat) := if i =? 1 then fun _ => [] else tA1 (gate_at L) W V.
Definition ztM (W : nat -> F) : nat -> list (F * nat) := if i =? 1 then fun g => [(W g, g)] else tM1 (gate_at L) W V.
Lemma zphase1_tables' : forall a be R0 R1, length R0 = lg -> length R1 = lg ->
  let W := gw a be R0 R1 in let tA := ztA W in let tM := ztM W in
    (forall w wraw Np prev, tab Np prev (2 ^ b) V -> (forall k, k < 2 ^ lg -> returns (w k) (fun x => rep x (W k))) ->
       (forall k, k < 2 ^ lg -> returns (wraw k) (fun x => lzy x (W k) 2 0)) ->
       forall k, k < 2 ^ lg -> gate_step (2 ^ m) (2 ^ b) (zphase1_gate w wraw prev k (gate_at L k)) (tA k) (tM k)) /\
    psum b V (scat (2 ^ lg) tM) (scat (2 ^ lg) tA) = (a * mle R0 (vals C i) + be * mle R1 (vals C i))%F /\
    forall ru vu, length ru = b -> (mle ru (scat (2 ^ lg) tM) * vu + mle ru (scat (2 ^ lg) tA))%F =
    (psum b V (scat (2 ^ lg) (tM2 (gate_at L) W vu (eqw ru))) (scat (2 ^ lg) (tA2 (gate_at L) W vu (eqw ru)))
     + relay_at i a be R0 R1 ru * vu)%F.
Proof.
  intros a be R0 R1 L0 L1 W. unfold ztA, ztM.
  rewrite (weighted_claim C i a be R0 R1 L0 L1). fold L lg. fold W. rewrite zvals_this. unfold relay_at.
  destruct (Nat.eqb_spec i 1) as [E|N].
  - destruct (zcopy_at E) as [Eb Eg].
    cbv zeta. split; [|split].
    + intros w wraw Np prev T Hw Hwr k Hk. eapply zphase1_copy_ok; [apply pow2_pos|exact Hwr|exact Hk|rewrite Eb; exact Hk|apply Eg, Hk].
    + unfold psum. rewrite Eb. apply sumn_ext. intros g Hg. rewrite scat_copy by exact Hg. rewrite scat_nil.
      rewrite (Eg g Hg). unfold gate_spec. cbn [g_ty g_u]. rewrite Nat2Z.id. ring.
    + intros ru vu Lu. rewrite (mle_copy lg) by lia. rewrite (mle_ext ru (scat _ _) (fun _ => 0%F)) by (intros; apply scat_nil).
      rewrite mle_zero.
      assert (P0 : psum b V (scat (2 ^ lg) (tM2 (gate_at L) W vu (eqw ru))) (scat (2 ^ lg) (tA2 (gate_at L) W vu (eqw ru))) = 0%F).
      { unfold psum. apply sumn_zero'. intros x _. destruct (copy_scat2 E W vu (eqw ru) x) as [Z2 Z3]. rewrite Z2, Z3. ring. }
      rewrite P0. unfold W. unfold gw. rewrite mle_add, !mle_scal, !eqw_sym_mle by lia. ring.
  - pose proof (zproto_at N) as PG.
    cbv zeta. split; [|split].
    + intros w wraw Np prev T Hw Hwr k Hk. eapply zphase1_gate_ok; [apply pow2_pos|exact T|exact Hw|exact Hk|apply PG, Hk].
    + rewrite (phase1_start (2 ^ lg) (gate_at L) W V b).
      * apply sumn_ext. intros g Hg. rewrite (zproto_value (2 ^ b)) by (apply PG, Hg). reflexivity.
      * apply zrange_at, N.
    + intros ru vu Lu. rewrite <- (phase1_link (2 ^ lg) (gate_at L) W V b (zrange_at N) ru vu Lu). ring.
Qed.

Lemma zphase1_tables : forall a be R0 R1, length R0 = lg -> length R1 = lg ->
  let W := gw a be R0 R1 in
  exists tA tM,
    (forall w wraw Np prev, tab Np prev (2 ^ b) V -> (forall k, k < 2 ^ lg -> returns (w k) (fun x => rep x (W k))) ->
       (forall k, k < 2 ^ lg -> returns (wraw k) (fun x => lzy x (W k) 2 0)) ->
       forall k, k < 2 ^ lg -> gate_step (2 ^ m) (2 ^ b) (zphase1_gate w wraw prev k (gate_at L k)) (tA k) (tM k)) /\
    psum b V (scat (2 ^ lg) tM) (scat (2 ^ lg) tA) = (a * mle R0 (vals C i) + be * mle R1 (vals C i))%F /\
    forall ru vu, length ru = b -> (mle ru (scat (2 ^ lg) tM) * vu + mle ru (scat (2 ^ lg) tA))%F =
    (psum b V (scat (2 ^ lg) (tM2 (gate_at L) W vu (eqw ru))) (scat (2 ^ lg) (tA2 (gate_at L) W vu (eqw ru)))
     + relay_at i a be R0 R1 ru * vu)%F.
Proof. intros a be R0 R1 L0 L1 W. exists (ztA W), (ztM W). apply zphase1_tables'; assumption. Qed.

Lemma zphase2_step : forall a be R0 R1 ru wu w v_u vu, let W := gw a be R0 R1 in
  (forall k, k < 2 ^ b -> returns (wu k) (fun x => rep x (eqw ru k))) ->
  (forall k, k < 2 ^ lg -> returns (w k) (fun x => rep x (W k))) -> rep v_u vu ->
  forall k, k < 2 ^ lg -> gate_step (2 ^ m) (2 ^ b) (zphase2_gate wu w v_u k (gate_at L k))
     (tA2 (gate_at L) W vu (eqw ru) k) (tM2 (gate_at L) W vu (eqw ru) k).
Proof.
  intros a be R0 R1 ru wu w v_u vu W Hwu Hw Rv k Hk. destruct (Nat.eq_dec i 1) as [E|N].
  - destruct (zcopy_at E) as [_ Eg]. unfold tA2, tM2. rewrite (Eg k Hk), copy_wires. cbn [map]. rewrite <- (Eg k Hk) at 1.
    apply zphase2_copy_ok. apply Eg, Hk.
  - eapply zphase2_gate_ok; [apply pow2_pos|exact Hw|exact Hwu|exact Rv|exact Hk|apply zproto_at; assumption].
Qed.

(** The predicates and what the verifier makes of them. *)
Lemma zgeneral_value : forall BB alpha beta r0 r1 r_u r_v o0 o1 o_u o_v a be R0 R1 ru Rv,
  let rv := rv_point (i =? 1) Rv in let W := gw a be R0 R1 in
  reps r0 R0 -> reps r1 R1 -> reps r_u ru -> reps r_v rv -> reps o0 (comp R0) -> reps o1 (comp R1) -> reps o_u (comp ru) -> reps o_v (comp Rv) ->
  length R0 = lg -> length R1 = lg -> length ru = b -> length Rv = b -> bsizes m BB -> rep alpha a -> rep beta be ->
  returns (zbeta_init i L Lm alpha beta r0 r1 r_u r_v o0 o1 o_u o_v BB) (fun BB' => bsizes m BB' /\
    returns (predicates i L Lm BB' r0 r1 r_u r_v) (fun pv => exists PR, tab 14 pv 14 (fun j => PR (Z.of_nat j)) /\
      forall vu vv, zcombine PR vu vv =
        (mle rv (scat (2 ^ lg) (tM2 (gate_at L) W vu (eqw ru))) * vv + mle rv (scat (2 ^ lg) (tA2 (gate_at L) W vu (eqw ru))))%F)).
Proof.
  intros BB alpha beta r0 r1 r_u r_v o0 o1 o_u o_v a be R0 R1 ru Rv rv W H0 H1 Hu Hv K0 K1 Ku Kv L0 L1 Lu Lv HB Ra Rb.
  assert (Lrv : length rv = b) by (unfold rv; rewrite rv_length; exact Lv).
  eapply returns_conseq.
  - apply (zbeta_init_ok m i L Lm alpha beta r0 r1 r_u r_v o0 o1 o_u o_v BB a be R0 R1 ru rv (comp R0) (comp R1) (comp ru) (comp Rv));
      rewrite ?comp_length; try assumption.
    + apply Hm; lia.
    + apply Hm; lia.
    + intro E. unfold L. rewrite E. apply (zc_copy C CC). lia.
    + destruct (Nat.eq_dec i 1) as [E|N]; [|apply (zc_par C CC); lia].
      intro Hp. unfold L in Hp. rewrite E in Hp. destruct (zc_copy C CC ltac:(lia)) as [_ Q]. congruence.
  - intros BB' [SB BT]. split; [exact SB|]. destruct (Nat.eqb_spec i 1) as [E|N].
    + rewrite E at 1. eapply returns_conseq; [apply predicates_1|]. intros pv T. cbv beta in T.
      exists (fun _ => 0%F). split; [exact T|]. intros vu vv.
      rewrite (mle_ext rv _ (fun _ => 0%F)) by (intros; apply (copy_scat2 E)).
      rewrite (mle_ext rv (scat _ (tA2 _ _ _ _)) (fun _ => 0%F)) by (intros; apply (copy_scat2 E)).
      rewrite mle_zero. unfold zcombine, zptypes. rewrite !lsum_cons, lsum_nil. ring.
    + cbn [rv_point] in rv. subst rv.
      eapply returns_conseq; [eapply (predicates_ok m i L Lm BB' r0 r1 r_u r_v a be R0 R1 ru Rv); try eassumption|].
      * apply (zc_par C CC). lia.
      * intros k Hk. eexists. apply gate_rd. fold lg in Hk. pose proof (zc_gates C CC i ltac:(lia)). fold L in H. fold lg in H. lia.
      * apply zproto_at, N.
      * intros pv T. cbv beta in T. fold lg in T.
        exists (fun ty => pred (2 ^ lg) (gate_at L) W ty (eqw ru) (eqw Rv)). split; [exact T|]. intros vu vv. unfold zcombine.
        rewrite <- (pred_split (2 ^ lg) (gate_at L) W zptypes vu vv (eqw ru) (eqw Rv) zptypes_nodup).
        -- rewrite <- (phase2_link (2 ^ lg) (gate_at L) W b (zrange_at N) vu vv (eqw ru) Rv Lv). ring.
        -- intros g Hg. eapply zlayer_types, zproto_at; assumption.
Qed.
End ZLayer.

(** ** Bookkeeping of the state *)
Definition zfix (z z' : zprover) : Prop := z_i z' = z_i z /\ z_kR z' = z_kR z /\ z_kM z' = z_kM z /\ z_kI z' = z_kI z.
Lemma zfix_trans : forall a b c, zfix a b -> zfix b c -> zfix a c.
Proof. intros a b c (A1 & A2 & A3 & A4) (B1 & B2 & B3 & B4). unfold zfix. repeat split; congruence. Qed.
Lemma zfix_pmr : forall z z' p m r, z' = set_pmr z p m r -> zfix z z'.
Proof. intros z z' p m r ->. repeat split. Qed.
Lemma zfix_same : forall z z', zsame z z' -> zfix z z' /\ z_p z' = z_p z /\ z_m z' = z_m z /\ z_r z' = z_r z.
Proof. intros z z' (q & ->). repeat split. Qed.
Definition mfix (m m' : mpart) : Prop := m_gmp m' = m_gmp m /\ m_rf m' = m_rf m.
Lemma mfix_sums : forall m m' a b, m' = set_sums m a b -> mfix m m'.
Proof. intros m m' a b ->. split; reflexivity. Qed.
Lemma mfix_trans : forall a b c, mfix a b -> mfix b c -> mfix a c.
Proof. intros a b c (A1 & A2) (B1 & B2). split; congruence. Qed.

Lemma set_arrays_id : forall p, p = set_arrays p (p_total_uv p) (p_Vmult p) (p_addV p) (p_addmult p).
Proof. intros []. reflexivity. Qed.
Lemma set_sums_id : forall m, m = set_sums m (m_sumc m) (m_sumr m).
Proof. intros []. reflexivity. Qed.
Lemma set_pmr_id : forall z, z = set_pmr z (z_p z) (z_m z) (z_r z).
Proof. intros []. reflexivity. Qed.
Lemma zs_init1 : forall N n c cu cv V M A z, tabs_bound N n (z_p z) V M A [] -> mstate n c (z_m z) 0 0%F ->
  rdyn (z_r z) cu cv 1 1 1 -> zs N n c cu cv V M A false [] [] z z.
Proof.
  intros N n c cu cv V M A z TB MS [D1 D2 D3 D4 D5]. constructor; try reflexivity.
  - exact TB.
  - exact MS.
  - constructor; cbn [removelast app op zp]; try assumption; (eapply rep_eq; [eassumption|ring]).
  - do 4 eexists. apply set_arrays_id.
  - do 2 eexists. apply set_sums_id.
  - apply rsame_refl.
  - apply set_pmr_id.
Qed.
Lemma zs_init2 : forall N n c cu cv V M A ru z, length ru = n -> tabs_bound N n (z_p z) V M A [] -> mstate n c (z_m z) n (qsum c n ru) ->
  rphase true (z_r z) cu cv ru [] -> zs N n c cu cv V M A true ru [] z z.
Proof.
  intros N n c cu cv V M A ru z Hl TB MS RP. constructor; try reflexivity.
  - exact TB.
  - cbn [length removelast]. rewrite Nat.add_0_r, app_nil_r, Hl. exact MS.
  - exact RP.
  - do 4 eexists. apply set_arrays_id.
  - do 2 eexists. apply set_sums_id.
  - apply rsame_refl.
  - apply set_pmr_id.
Qed.
Lemma zsum_start : forall n c k V M A ru, (zsum n c k V M A ru [] = psum n V M A + k * op ru + Mk c n ru)%F.
Proof. intros. unfold zsum. cbn [length folds]. rewrite Nat.sub_0_r, app_nil_r. reflexivity. Qed.
Lemma Mk_nil : forall c n, Mk c n [] = Sc c n 0.
Proof. intros. unfold Mk, qsum. cbn [length sumn]. ring. Qed.
Lemma mask_poly_scal : forall d c x rho, mask_poly d (fun i => c i * rho)%F x = (rho * mask_poly d c x)%F.
Proof.
  intros d c x rho. unfold mask_poly.
  rewrite (sumn_ext d _ (fun i => rho * (c (2 * i)%nat * (x i * x i) + c (2 * i + 1)%nat * x i))%F) by (intros; ring).
  rewrite sumn_scal. ring.
Qed.
Lemma pinv_bound : forall C m n p q k l1 l2 l3 V M A R, pinv C m p -> q = set_arrays p k l1 l2 l3 ->
  tabs_bound (2 ^ m) n q V M A R -> pinv C m q.
Proof.
  intros C m n p q k l1 l2 l3 V M A R PI E (BV & BM & BA & _).
  assert (BL : forall N n l T R, bound N n l T R -> length l = N).
  { intros N0 n0 l T R' B0. destruct R'; [destruct B0 as [fa [H _]]|destruct B0 as [H _]]; exact H. }
  destruct PI as [? ? ? ? ? ? ? ? ? ? ? ? ?]. rewrite E in *. constructor; try assumption; eapply BL; eassumption.
Qed.
Lemma pinv_set_v : forall C m p a b, pinv C m p -> pinv C m (set_v p a b).
Proof. intros C m p a b []. constructor; assumption. Qed.

(** At the point zero the mask vanishes. *)
Lemma mle_zeros : forall (R : list F) f, mle (map (fun _ => 0%F) R) f = f 0.
Proof.
  induction R as [|a R IH]; intro f; [unfold mle, eqw; simpl; ring|].
  cbn [map]. rewrite mle_cons, IH. unfold fold1. simpl (2 * 0). simpl (0 + 1). ring.
Qed.
Lemma rv_zeros : forall (R : list F), 0 < length R -> zp (rv_point true R) = 0%F.
Proof. intros [|a R] H; simpl in H; [lia|]. cbn [rv_point map zp]. ring. Qed.

Section ZVerify.
Variable enc : F -> list Z.
Variable ec1 : nat.
Hypothesis Henc : forall x, length (enc x) = ec1.
Hypothesis Hec1 : 0 < ec1.
Variables (fr : nat -> u512) (zr : nat -> Z).
Hypothesis Hst : stream_ok fr zr.
Variables (ev : zprover -> outcome (list fe * zprover))
  (vr : zprover -> list fe -> list fe -> list fe -> nat -> nat -> outcome (fe * zprover)) (f : zprover -> fe).
Let I := zlike fr zr ev vr f.
Variables (rng : list msg -> nat -> outcome (list fe * list msg)) (K : nat).
Hypothesis Hrng : rng_ok ec1 K rng.
Variables (C : layered_circuit) (m : nat).
Hypothesis CC : zcomplete_circuit C.
Hypothesis Hm : forall k, k < total_depth C -> bit_length (layer_at C k) <= m.
Variables (x0 x1 : F) (ip : ipart) (kI : keyI).
Hypothesis Hip : reps (i_maskr ip) [x0; x1].

(** The state before layer [i]: [R0], [R1] the points, [mk] the mask of the values
    of layer [i], [zu], [zv] the vanishing factors and [pu], [pv] the last
    coordinates at the points. *)
Record zclaim (i : nat) (st : zvstate zprover) (a be : F) (R0 R1 mk : list F) (zu zv pu pv : F) : Prop := {
  zl_p : pinv C m (z_p (t_p st));
  zl_a : rep (t_alpha st) a; zl_b : rep (t_beta st) be;
  zl_r0 : reps (t_r0 st) R0; zl_r1 : reps (t_r1 st) R1; zl_o0 : reps (t_o0 st) (comp R0);
  zl_l0 : length R0 = bit_length (layer_at C i); zl_l1 : length R1 = bit_length (layer_at C i);
  zl_o1 : i <> 0 -> reps (t_o1 st) (comp R1);
  zl_B : bsizes m (t_B st);
  zl_mk : reps (r_maskR (z_r (t_p st))) mk; zl_mkl : length mk = 6;
  zl_zu : rep (r_Zu (z_r (t_p st))) zu; zl_zv : rep (r_Zv (z_r (t_p st))) zv;
  zl_pu : rep (r_preu1 (z_r (t_p st))) pu; zl_pv : rep (r_prev1 (z_r (t_p st))) pv;
  zl_i : z_i (t_p st) = ip; zl_k : z_kI (t_p st) = kI }.
(** The masked value the running sum stands for. *)
Definition zvalue (i : nat) (a be : F) (R0 R1 mk : list F) (zu zv pu pv : F) : F :=
  if i =? 0 then (mle R0 (vals C 0) + zu * (x0 + x1 * last R0 0))%F
  else (a * (mle R0 (vals C i) + zu * RS mk pu) + be * (mle R1 (vals C i) + zv * RS mk pv))%F.
(** The prover's record when it answers [zi_sumc]. *)
Definition zinit_p (i : nat) (st : zvstate zprover) : prover :=
  let lg := bit_length (layer_at C i) in let b := bit_length (layer_at C (i - 1)) in
  sumcheck_init (z_p (t_p st)) i lg b b (t_alpha st) (t_beta st) (t_r0 st) (t_r1 st) (t_o0 st) (t_o1 st).

Lemma zverify_layer_ok : forall i st k a be R0 R1 mk zu zv pu pv, 0 < i < total_depth C ->
  zclaim i st a be R0 R1 mk zu zv pu pv -> tr_ok ec1 k (t_tr st) -> k + (18 * bit_length (layer_at C (i - 1)) + 24) <= K ->
  (forall z s, z_p z = zinit_p i st -> rep (m_sumc (z_m z)) s ->
     rep (addm (t_sum st) (f z)) (zvalue i a be R0 R1 mk zu zv pu pv + s)%F) ->
  returns (zverify_layer enc rng I C i st) (fun st' => exists a' be' ru rv mk',
    zclaim (i - 1) st' a' be' ru rv mk' (zp ru) (zp rv) (last ru 0%F) (last rv 0%F) /\
    rep (t_sum st') (zvalue (i - 1) a' be' ru rv mk' (zp ru) (zp rv) (last ru 0%F) (last rv 0%F)) /\
    tr_ok ec1 (k + (18 * bit_length (layer_at C (i - 1)) + 24)) (t_tr st') /\
    (i <> 1 -> mk' = drawn fr (z_pos (t_p st)) 6 /\
      rep (p_v_u (z_p (t_p st'))) (mle ru (vals C (i - 1)) + zp ru * RS mk' (last ru 0))%F /\
      rep (p_v_v (z_p (t_p st'))) (mle rv (vals C (i - 1)) + zp rv * RS mk' (last rv 0))%F) /\
    (i = 1 -> rep (p_v_u (z_p (t_p st'))) (mle ru (vals C 0) + zp ru * (x0 + x1 * last ru 0))%F /\
      rep (p_v_v (z_p (t_p st'))) (vals C 0 0))).
Proof.
  intros i st k a be R0 R1 mk zu zv pu pv Hi [Kp Ka Kb Kr0 Kr1 Ko0 Kl0 Kl1 Ko1 KB Kmk Kmkl Kzu Kzv Kpu Kpv Ki Kk] T0 HK HS.
  specialize (Ko1 ltac:(lia)). unfold zvalue in HS. destruct (Nat.eqb_spec i 0) as [|_]; [lia|].
  pose proof (zc_depth C CC) as D.
  set (L := layer_at C i) in *. set (Lm := layer_at C (i - 1)) in *. set (lg := bit_length L) in *. set (b := bit_length Lm) in *.
  set (V := vals C (i - 1)).
  assert (Hbm : b <= m) by (apply Hm; lia). assert (Hlg : lg <= m) by (apply Hm; lia).
  assert (HG : 2 ^ lg <= length (gates L)) by (apply (zc_gates C CC); lia).
  destruct (zc_bits C CC (i - 1) ltac:(lia)) as [Hb1 Hb31]. fold Lm in Hb1, Hb31. fold b in Hb1, Hb31.
  unfold zverify_layer. eapply rb_nth; [apply layer_rd; lia|]. eapply rb_nth; [apply layer_rd; lia|].
  fold L Lm. fold lg b. cbv zeta.
  set (oR := open_R enc I). set (oM := open_mask enc I).
  change (@zphase1_rounds zprover I) with (zphase1_rounds (zhonest fr zr)).
  change (@zphase2_rounds zprover I) with (zphase2_rounds (zhonest fr zr)).
  unfold I.
  cbn [zlike zi_sumcheck_init zi_pre_rho zi_set_rho zi_after_rho zi_sumc zi_phase1_init zi_phase2_init zi_finalize zi_finalround
    zi_v_u zi_Iuv zi_preZu zi_preZv zi_kR zi_kM].
  fold I.
  (* rho *)
  eapply returns_bind; [apply (rng_step ec1 Hec1 K rng k (t_tr st) 1 Hrng T0); lia|].
  intros [rhos t1] [T1 (Rr & Hr & Lr)]. cbn [fst snd] in T1, Hr.
  eapply rb_reps; [exact Hr|lia|]. intros rho Rrho. set (rh := nth 0 Rr 0%F) in Rrho. clearbody rh.
  (* value masks *)
  unfold zk_sumcheck_init. set (p0 := sumcheck_init _ _ _ _ _ _ _ _ _ _ _).
  assert (Ep0 : p0 = zinit_p i st) by reflexivity.
  eapply returns_bind; [apply (generate_maskR_ok fr zr Hst (set_p (t_p st) p0) i mk zu zv pu pv a be x0 x1); try assumption; [lia|]|].
  { cbn [set_p z_i]. rewrite Ki. exact Hip. }
  intros [[dR dRa] z1] (_ & P1 & _ & I1 & KI1 & CC1 & OP1 & PR1 & DY1 & PZu & PZv & PPu & PPv & (g1 & Q1 & Eg1) & (g2 & Q2 & Eg2) & mk' & sc & Dmk' & Rmk' & Lmk' & Qsc & Esc).
  cbn [set_p z_p z_i z_kI z_r] in P1, I1, KI1, PR1.
  (* mask polynomial *)
  eapply returns_bind; [apply (pre_rho_ok fr zr Hst z1 b Hb1 Hb31)|].
  intros [[dM dMa] z2] (_ & P2 & R2 & I2 & KI2 & KR2 & CM2 & c0 & _ & Lc0 & Rc0 & Gc0 & OM2).
  pose proof (tr_curves enc ec1 Henc Hec1 (k + 1) t1 [dM; dMa] [dR; dRa] 4 T1 (le_n _)) as T2.
  set (t2 := t1 ++ _ ++ _) in *. clearbody t2.
  set (z3 := set_rho z2 rho).
  eapply returns_bind.
  { apply (after_rho_ok b (fun i => nth i c0 0%F) z3 rh Hb1).
    - unfold z3. cbn [set_rho set_m set_pmr z_m m_poly]. pose proof (reps_tab _ _ Rc0) as TT.
      rewrite (reps_length _ _ Rc0), Lc0 in TT. exact TT.
    - exact Rrho. }
  intros z4 (poly & s & E4 & MS4). set (c := fun i => (nth i c0 0 * rh)%F) in *.
  set (M4 := MPart poly _ s _ _ _) in *.
  assert (P4 : z_p z4 = p0) by (rewrite E4; unfold z3; cbn [set_m set_pmr set_rho z_p]; congruence).
  assert (R4 : z_r z4 = z_r z1) by (rewrite E4; unfold z3; cbn [set_m set_pmr set_rho z_r]; congruence).
  assert (M4e : z_m z4 = M4) by (rewrite E4; reflexivity).
  assert (F4 : zfix z2 z4) by (rewrite E4; repeat split).
  assert (G4 : m_gmp (z_m z4) = map fz c0 /\ m_rf (z_m z4) = m_rf (z_m z2)).
  { rewrite M4e. unfold M4, z3. cbn [m_gmp m_rf set_rho set_m set_pmr z_m]. split; [exact Gc0|reflexivity]. }
  rewrite <- M4e in MS4. clearbody M4. clear E4 M4e z3.
  pose proof (HS z4 _ ltac:(rewrite P4; exact Ep0) (ms_sumc _ _ _ _ _ MS4)) as Rsum.
  set (sum0 := addm _ _) in *. clearbody sum0.
  rewrite (proj1 (proj2 F4)), KR2, CC1, (proj1 (proj2 (proj2 F4))), CM2.
  (* challenges are drawn after the tables of phase 1 are set up *)
  assert (PI0 : pinv C m p0) by (destruct Kp; constructor; assumption).
  assert (PP0 : pparams p0 lg a be R0 R1) by (constructor; try assumption; reflexivity).
  destruct (zphase1_tables C m i CC Hi a be R0 R1 Kl0 Kl1) as (tA & tM & HS1 & Start & Link).
  fold L Lm in HS1, Start, Link. fold lg b in HS1, Start, Link. fold V in HS1, Start, Link.
  set (W := gw a be R0 R1) in *. set (M1 := scat (2 ^ lg) tM) in *. set (A1 := scat (2 ^ lg) tA) in *.
  eapply (returns_bind _ _ _ _ (fun z5 => exists p1, z5 = set_p z4 p1 /\ pinv C m p1 /\ gtabs p1 (2 ^ (m / 2 + 1)) lg a be R0 R1 /\
    tabs_bound (2 ^ m) b p1 V M1 A1 [] /\ exists lV lA lM g0f g0s g1f g1s gs, p1 = set_g_tables (set_arrays p0 (2 ^ b) lV lA lM) g0f g0s g1f g1s gs)).
  { unfold zk_phase1_init. rewrite P4. eapply returns_bind.
    - apply (zphase1_init_ok C m i Hi D Hlg Hbm HG p0 a be R0 R1 tA tM PI0 eq_refl PP0 HS1).
    - intros p1 H1. apply returns_ok. exists p1. split; [reflexivity|exact H1]. }
  intros z5 (p1 & E5 & PI1 & GT1 & TB1 & lV1 & lA1 & lM1 & g0f & g0s & g1f & g1s & gs & Ep1).
  assert (Z5 : zs (2 ^ m) b c (a * zu * RS mk pu) (be * zv * RS mk pv) V M1 A1 false [] [] z5 z5).
  { apply zs_init1; rewrite E5; cbn [set_p z_p z_m z_r]; [exact TB1|exact MS4|rewrite R4; exact DY1]. }
  assert (R5 : z_r z5 = z_r z1) by (rewrite E5; exact R4).
  assert (U5 : p_length_u (z_p z5) = b) by (rewrite E5, Ep1; reflexivity).
  assert (V5 : p_length_v (z_p z5) = b) by (rewrite E5, Ep1; reflexivity).
  assert (S5 : qrep (r_sumRc (z_r z5)) sc) by (rewrite R5; exact Qsc).
  assert (F5 : zfix z2 z5) by (rewrite E5; exact F4).
  assert (G5 : m_gmp (z_m z5) = map fz c0 /\ m_rf (z_m z5) = m_rf (z_m z2)) by (rewrite E5; exact G4).
  assert (P5 : z_p z5 = p1) by (rewrite E5; reflexivity). clear E5.
  (* challenges *)
  eapply returns_bind; [apply (rng_step ec1 Hec1 K rng (k + 1 + 4) t2 b Hrng T2); lia|].
  intros [r_u t3] [T3 (ru & Hru & Lru)]. cbn [fst snd] in T3, Hru.
  eapply returns_bind; [apply (rng_step ec1 Hec1 K rng (k + 1 + 4 + b) t3 b Hrng T3); lia|].
  intros [r_v t4] [T4 (Rv & Hrv & LRv)]. cbn [fst snd] in T4, Hrv.
  assert (HD : forall r R, reps r R -> length R = lg ->
    returns (direct_relay i lg r r_u) (fun x => rep x (if i =? 1 then eqpt R ru else 0%F))).
  { intros r R Hr' LR. destruct (Nat.eqb_spec i 1) as [E|N].
    - rewrite E. apply direct_relay_ok; try assumption. rewrite Lru. apply (zcopy_at C i CC Hi E).
    - rewrite direct_relay_0 by exact N. apply returns_ok. exact rep_i0. }
  eapply returns_bind; [apply (HD _ R0 Kr0 Kl0)|]. intros d0 Rd0.
  eapply returns_bind; [apply (HD _ R1 Kr1 Kl1)|]. intros d1 Rd1. cbv beta in Rd0, Rd1.
  set (drv := fe_add (fe_mul (t_alpha st) d0) (fe_mul (t_beta st) d1)).
  assert (Rdrv : rep drv (relay_at i a be R0 R1 ru)).
  { unfold drv, relay_at. destruct (i =? 1); lzr. }
  clearbody drv. set (dr := relay_at i a be R0 R1 ru) in *.
  eapply returns_bind; [apply (rng_step ec1 Hec1 K rng (k + 1 + 4 + b + b) t4 1 Hrng T4); lia|].
  intros [r_cs t5] [T5 (Rcs & Hrc & Lrc)]. cbn [fst snd] in T5, Hrc.
  eapply rb_reps; [exact Hrc|lia|]. intros r_c0 Rrc0. set (rc0 := nth 0 Rcs 0%F) in Rrc0. clearbody rc0.
  eapply returns_bind; [apply (one_minus_ok r_u ru b Hru); symmetry; exact Lru|]. intros o_u Hou.
  eapply returns_bind; [apply (one_minus_ok r_v Rv b Hrv); symmetry; exact LRv|]. intros o_v Hov.
  cbv beta in Hou, Hov.
  (* phase 1 *)
  eapply returns_bind.
  { apply (zphase1_rounds_ok fr zr (2 ^ m) b c _ _ V M1 A1 z5 sc Hb1 U5 V5 S5 r_u ru sum0 t5 Lru Hru Z5).
    rewrite zsum_start, Start, Mk_nil. cbn [op]. eapply rep_eq; [exact Rsum|]. ring. }
  intros [[[prev1 sum1] t6] z6] (Rp1 & Rs1 & T6 & Z6). apply (tr_grows ec1 Hec1 _ _ _ _ T5) in T6.
  assert (PI6 : pinv C m (z_p z6)).
  { destruct (zs_pp _ _ _ _ _ _ _ _ _ _ _ _ _ Z6) as (k6 & l1 & l2 & l3 & E6).
    eapply pinv_bound; [rewrite P5 in E6; exact PI1|rewrite P5 in E6; exact E6|apply (zs_tabs _ _ _ _ _ _ _ _ _ _ _ _ _ Z6)]. }
  assert (E6 : exists k l1 l2 l3, z_p z6 = set_arrays p1 k l1 l2 l3).
  { rewrite <- P5. apply (zs_pp _ _ _ _ _ _ _ _ _ _ _ _ _ Z6). }
  destruct E6 as (k6 & l61 & l62 & l63 & E6).
  assert (PP6 : pparams (z_p z6) lg a be R0 R1) by (rewrite E6, Ep1; constructor; try assumption; reflexivity).
  assert (GT6 : gtabs (z_p z6) (2 ^ (m / 2 + 1)) lg a be R0 R1) by (rewrite E6; exact GT1).
  (* between the phases *)
  set (vu := masked V sc ru).
  set (M2 := scat (2 ^ lg) (tM2 (gate_at L) W vu (eqw ru))). set (A2 := scat (2 ^ lg) (tA2 (gate_at L) W vu (eqw ru))).
  eapply returns_bind.
  { apply (zk_phase2_init_ok (2 ^ m) b c _ _ V M1 A1 z5 sc Hb1 U5 V5 S5 ru z6 prev1 r_u o_u
      (fun p' => pinv C m p' /\ tabs_bound (2 ^ m) b p' V M2 A2 [] /\
        exists lV lA lM uf us bu x y, p' = set_v (set_u_tables (set_arrays (z_p z6) (2 ^ b) lV lA lM) uf us bu) x y) Lru Z6 Rp1).
    intros v_u Rvu. eapply returns_conseq.
    - apply (zphase2_tables_ok C m i Hi D Hlg Hbm HG (z_p z6) v_u vu r_u o_u a be R0 R1 ru
        (tA2 (gate_at L) W vu (eqw ru)) (tM2 (gate_at L) W vu (eqw ru)) PI6 ltac:(rewrite E6, Ep1; reflexivity) PP6 GT6
        ltac:(rewrite E6, Ep1; reflexivity) Lru Hru Hou Rvu).
      intros wu w Hwu Hw. apply (zphase2_step C m i CC Hi a be R0 R1 ru wu w v_u vu Hwu Hw Rvu).
    - intros p' (Q1' & Q2' & lV & lA & lM & uf & us & bu & E). split; [split; [exact Q1'|split; [exact Q2'|]]|].
      + exists lV, lA, lM, uf, us, bu, v_u, (p_v_v (z_p z6)). exact E.
      + rewrite E, E6, Ep1. split; [reflexivity|]. split; reflexivity. }
  intros z7 ((PI7 & TB7 & lV7 & lA7 & lM7 & uf & us & bu & vx & vy & E7) & U7 & V7 & Rvu7 & MS7 & RP7 & (s71 & s72 & MM7) & RS7 & RE7 & PU7).
  fold vu in Rvu7.
  assert (F7 : zfix z2 z7) by (eapply zfix_trans; [exact F5|eapply zfix_pmr; exact RE7]).
  assert (G7 : m_gmp (z_m z7) = map fz c0 /\ m_rf (z_m z7) = m_rf (z_m z2)) by (rewrite MM7; exact G5).
  assert (S7 : qrep (r_sumRc (z_r z7)) sc) by (rewrite (rs_sumRc _ _ RS7); exact S5).
  assert (Z7 : zs (2 ^ m) b c (a * zu * RS mk pu) (be * zv * RS mk pv) V M2 A2 true ru [] z7 z7).
  { apply zs_init2; assumption. }
  (* phase 2 *)
  eapply returns_bind.
  { apply (zphase2_rounds_ok fr zr (2 ^ m) b c _ _ V M2 A2 z7 sc Hb1 U7 V7 S7 (i =? 1) drv dr vu r_v ru Rv sum1 t6 Lru LRv Hrv Z7 Rdrv Rvu7).
    rewrite zsum_start. eapply rep_eq; [exact Rs1|]. fold (masked V sc ru). fold vu.
    rewrite (Link ru vu Lru). fold dr M2 A2. ring. }
  intros [[[[prev2 sum2] r_v'] t7] z8]. cbv zeta. set (rv := rv_point (i =? 1) Rv).
  assert (Lrv : length rv = b) by (unfold rv; rewrite rv_length; exact LRv).
  intros (Rp2 & Rs2 & Hrv' & T7 & Z8). apply (tr_grows ec1 Hec1 _ _ _ _ T6) in T7.
  set (vv := masked V sc rv) in *.
  (* end of phase 2 *)
  eapply returns_bind; [apply (zk_finalize_ok (2 ^ m) b c _ _ V M2 A2 z7 sc Hb1 U7 V7 S7 ru rv z8 prev2 vu Lru Lrv Z8 Rp2 Rvu7)|].
  intros [[v_u v_v] z9] (Rvu & Rvv & Evu & (k9 & l91 & l92 & l93 & E9) & TB9 & M9 & RS9 & RE9 & Zu9 & Zv9 & Iuv9 & PU9 & PV9).
  fold vv in Rvv.
  assert (PI9 : pinv C m (z_p z9)).
  { assert (Ex : set_arrays (z_p z7) k9 l91 l92 l93 = set_v (z_p z9) (p_v_u (z_p z7)) (p_v_v (z_p z7))).
    { rewrite E9. destruct (z_p z7). reflexivity. }
    assert (PIx : pinv C m (set_arrays (z_p z7) k9 l91 l92 l93)).
    { eapply (pinv_bound C m b (z_p z7)); [exact PI7|reflexivity|]. rewrite Ex. exact TB9. }
    rewrite E9. apply pinv_set_v. exact PIx. }
  assert (F9 : zfix z2 z9) by (eapply zfix_trans; [exact F7|eapply zfix_pmr; exact RE9]).
  assert (G9 : m_gmp (z_m z9) = map fz c0 /\ m_rf (z_m z9) = m_rf (z_m z2)).
  { rewrite M9. destruct (zs_mm _ _ _ _ _ _ _ _ _ _ _ _ _ Z8) as (s81 & s82 & ->). exact G7. }
  assert (RS19 : rsame (z_r z1) (z_r z9)).
  { rewrite <- R5. eapply rsame_trans; [exact RS7|exact RS9]. }
  assert (ME : mstate b c (z_m z9) (2 * b) (qsum c b (ru ++ removelast rv))).
  { rewrite M9. pose proof (zs_m _ _ _ _ _ _ _ _ _ _ _ _ _ Z8) as H. rewrite Lru, Lrv in H. replace (b + b) with (2 * b) in H by lia. exact H. }
  assert (PA9 : rep (p_alpha (z_p z9)) a) by (rewrite E9, E7; exact (pp_a _ _ _ _ _ _ PP6)).
  assert (PB9 : rep (p_beta (z_p z9)) be) by (rewrite E9, E7; exact (pp_b _ _ _ _ _ _ PP6)).
  assert (U9 : p_length_u (z_p z9) = b) by (rewrite E9; exact U7).
  assert (V9 : p_length_v (z_p z9) = b) by (rewrite E9; exact V7).
  assert (PZu9 : rep (r_preZu (z_r z9)) zu) by (rewrite (rs_preZu _ _ RS19); exact PZu).
  assert (PZv9 : rep (r_preZv (z_r z9)) zv) by (rewrite (rs_preZv _ _ RS19); exact PZv).
  assert (Q19 : qrep (r_Rg1 (z_r z9)) g1) by (rewrite (rs_Rg1 _ _ RS19); exact Q1).
  assert (Q29 : qrep (r_Rg2 (z_r z9)) g2) by (rewrite (rs_Rg2 _ _ RS19); exact Q2).
  (* the verifier's predicates *)
  eapply returns_bind; [apply (zgeneral_value C m i CC Hi Hm (t_B st) (t_alpha st) (t_beta st) (t_r0 st) (t_r1 st) r_u r_v' (t_o0 st) (t_o1 st)
    o_u o_v a be R0 R1 ru Rv); assumption|].
  intros BB (SB & PV). cbv beta in PV.
  eapply returns_bind; [exact PV|]. intros pvs (PRD & TPR & CMB). cbv beta in CMB. specialize (CMB vu vv).
  change (zcombine PRD vu vv = mle rv M2 * vv + mle rv A2)%F in CMB.
  set (g := zcombine PRD vu vv) in *.
  eapply returns_bind; [apply (zgeneral_ok pvs PRD v_u v_v vu vv TPR Rvu Rvv)|]. intros general Rg. cbv beta in Rg. fold g in Rg.
  (* the last round *)
  eapply returns_bind; [apply (zk_finalround_ok b c z9 Hb1 U9 V9 ru rv z9 prev2 general g a be zu zv g1 g2); assumption|].
  intros [q z10] ((s101 & s102 & E10) & q' & Rq & Eq).
  set (G1 := poly_R (fun j => nth j mk 0%F) pu) in *. set (G2 := poly_R (fun j => nth j mk 0%F) pv) in *.
  assert (Eq' : forall x, peval q' x = (op (ru ++ rv) * (a * zu * G1 x + be * zv * G2 x) + g * x + mround c b (ru ++ rv) x)%F).
  { intro x. rewrite Eq, Eg1, Eg2. reflexivity. }
  assert (Luv : length (ru ++ rv) = 2 * b) by (rewrite app_length; lia).
  eapply rb_reject.
  { eapply rep_fne_false; [apply rep_add; [apply rep_add; apply quadratic_eval_ok; try exact Rq; [exact rep_i0|exact rep_i1]|apply rep_mul; [exact Rdrv|exact Rvu]]|exact Rs2|].
    rewrite !Eq', <- (mround_01 c b (ru ++ rv) ltac:(lia)). unfold RS. fold G1 G2.
    change (mle rv V + zp rv * peval sc (last rv 0))%F with vv. rewrite CMB. ring. }
  set (r_c := if i =? 1 then fe_of_int 0 else r_c0). set (rc := if i =? 1 then 0%F else rc0).
  assert (Rrc : rep r_c rc) by (unfold r_c, rc; destruct (i =? 1); [exact rep_i0|exact Rrc0]). clearbody r_c rc.
  assert (P10 : z_p z10 = z_p z9) by (rewrite E10; reflexivity). assert (R10 : z_r z10 = z_r z9) by (rewrite E10; reflexivity).
  assert (F10 : zfix z2 z10) by (rewrite E10; exact F9).
  assert (G10 : m_gmp (z_m z10) = map fz c0 /\ m_rf (z_m z10) = m_rf (z_m z2)) by (rewrite E10; exact G9).
  destruct F10 as (I10 & KR10 & KM10 & KI10). destruct G10 as [Gg10 Gr10].
  (* opening of the value mask *)
  eapply returns_bind; [apply (open_R_ok enc ec1 Henc Hec1 fr zr Hst ev vr f z10 r_c rc dR mk pu pv t7 (k + 1 + 4 + b + b + 1 + 6 * b + 6 * b) Rrc)|].
  { rewrite R10, (rs_ppu _ _ RS19). exact PPu. }
  { rewrite R10, (rs_ppv _ _ RS19). exact PPv. }
  { rewrite R10, (rs_preR _ _ RS19), PR1. exact Kmk. }
  { rewrite KR10, KR2, R10, (rs_rf _ _ RS19). exact OP1. }
  { exact T7. }
  intros [[[[vR1 vR2] r_ok] t8] z11] (S11 & -> & D1 & D2 & W1 & W2 & T8).
  destruct (zfix_same _ _ S11) as ((I11 & KR11 & KM11 & KI11) & P11 & M11 & R11).
  eapply rb_reject; [reflexivity|].
  (* opening of the round mask *)
  eapply returns_bind; [apply (open_mask_ok enc ec1 Henc Hec1 fr zr Hst ev vr f z11 b r_u r_v' r_c ru rv rc dM c0 t8 (k + 1 + 4 + b + b + 1 + 6 * b + 6 * b + 12) Hru Hrv' Lru Lrv Rrc)|].
  { rewrite M11. exact Gg10. }
  { rewrite KM11, KM10, M11, Gr10. exact OM2. }
  { exact T8. }
  intros [[[vM m_ok] t9] z12] (S12 & -> & D3 & W3 & T9).
  destruct (zfix_same _ _ S12) as ((I12 & KR12 & KM12 & KI12) & P12 & M12 & R12).
  eapply rb_reject; [reflexivity|].
  eapply returns_bind; [apply (zgeneral_ok pvs PRD v_u v_v vu vv TPR Rvu Rvv)|]. intros general' Rg'. cbv beta in Rg'. fold g in Rg'.
  assert (RR12 : z_r z12 = z_r z9) by (rewrite R12, R11; exact R10). assert (PP12 : z_p z12 = z_p z9) by (rewrite P12, P11; exact P10).
  assert (RvR1 : rep (fe_of_mpz vR1) (G1 rc)) by (eapply rep_eq; [apply fe_of_mpz_ok; exact D1|exact W1]).
  assert (RvR2 : rep (fe_of_mpz vR2) (G2 rc)) by (eapply rep_eq; [apply fe_of_mpz_ok; exact D2|exact W2]).
  set (mp := mask_poly (2 * b + 1) (fun j => nth j c0 0%F) (fun j => nth j (ru ++ rv ++ [rc]) 0%F)) in W3.
  assert (RvM : rep (fe_of_mpz vM) mp) by (eapply rep_eq; [apply fe_of_mpz_ok; exact D3|exact W3]).
  assert (EM : mround c b (ru ++ rv) rc = (rh * mp)%F).
  { rewrite mround_next by lia. rewrite Mk_end by (rewrite ?app_length; cbn [length]; lia). rewrite <- app_assoc. apply mask_poly_scal. }
  eapply rb_reject.
  { rewrite RR12, P10, Evu.
    eapply rep_fne_false; [apply rep_add; [apply quadratic_eval_ok; [exact Rq|exact Rrc]|apply rep_mul; [exact Rdrv|exact Rvu]]| |].
    - apply rep_add; [|apply rep_mul; [exact Rdrv|exact Rvu]].
      apply rep_add; [|apply rep_mul; [exact Rrho|exact RvM]].
      apply rep_add; [apply rep_add|].
      + apply rep_mul; [exact Rrc|exact Rg'].
      + apply rep_mul; [apply rep_mul; [apply rep_mul; [exact Ka|exact Iuv9]|exact PZu9]|exact RvR1].
      + apply rep_mul; [apply rep_mul; [apply rep_mul; [exact Kb|exact Iuv9]|exact PZv9]|exact RvR2].
    - rewrite Eq', EM. ring. }
  (* the next claim *)
  eapply returns_bind; [apply (rng_step ec1 Hec1 K rng _ t9 1 Hrng T9); lia|].
  intros [als t10] [T10 (Ra & Hals & La)]. cbn [fst snd] in T10, Hals.
  eapply returns_bind; [apply (rng_step ec1 Hec1 K rng _ t10 1 Hrng T10); lia|].
  intros [bes t11] [T11 (Rb & Hbes & Lb)]. cbn [fst snd] in T11, Hbes.
  eapply rb_reps; [exact Hals|lia|]. intros alpha Ral. set (a' := nth 0 Ra 0%F) in Ral.
  eapply rb_reps; [exact Hbes|lia|]. intros beta Rbe. set (be' := nth 0 Rb 0%F) in Rbe.
  apply returns_ok. exists a', be', ru, rv, mk'. split; [|split; [|split; [|split]]].
  - constructor; cbn [t_alpha t_beta t_sum t_r0 t_r1 t_o0 t_o1 t_B t_tr t_p]; try assumption.
    + rewrite PP12. exact PI9.
    + intro N. unfold rv. destruct (Nat.eqb_spec i 1); [lia|]. exact Hov.
    + rewrite RR12, (rs_maskR _ _ RS19). exact Rmk'.
    + rewrite RR12. exact Zu9.
    + rewrite RR12. exact Zv9.
    + rewrite RR12, PU9. exact PU7.
    + rewrite RR12. exact PV9.
    + rewrite I12, I11, I10, I2, I1. exact Ki.
    + rewrite KI12, KI11, KI10, KI2, KI1. exact Kk.
  - cbn [t_sum]. unfold zvalue. destruct (Nat.eqb_spec i 1) as [E|N]; cbn [negb].
    + rewrite E. cbn [Nat.sub Nat.eqb]. eapply rep_eq; [exact Rvu|]. unfold vu, masked. rewrite Esc. unfold V. rewrite E. reflexivity.
    + destruct (Nat.eqb_spec (i - 1) 0); [lia|].
      eapply rep_eq; [apply rep_add; (apply rep_mul; [eassumption|eassumption])|].
      unfold vu, vv, masked. rewrite !Esc. fold V. reflexivity.
  - cbn [t_tr]. replace (k + (18 * b + 24)) with (k + 1 + 4 + b + b + 1 + 6 * b + 6 * b + 12 + (4 * b + 4) + 1 + 1) by lia. exact T11.
  - cbn [t_p]. intro N. split; [exact (Dmk' N)|]. rewrite PP12, E9. cbn [set_v set_arrays p_v_u p_v_v].
    destruct (Nat.eqb_spec i 1) as [|_]; [contradiction|].
    split; (eapply rep_eq; [eassumption|]); unfold vu, vv, masked; rewrite Esc; reflexivity.
  - cbn [t_p]. intro N. rewrite PP12, E9. cbn [set_v set_arrays p_v_u p_v_v].
    rewrite N in Esc. cbn [Nat.eqb] in Esc.
    split; (eapply rep_eq; [eassumption|]); unfold vu, vv, masked; rewrite Esc; unfold V; rewrite N; [reflexivity|].
    unfold rv. rewrite N. cbn [Nat.eqb Nat.sub].
    rewrite (rv_zeros Rv ltac:(lia)). cbn [rv_point]. rewrite mle_zeros. ring.
Qed.
End ZVerify.
