(** * A prover that lies about the input layer (C26)

    At the copy layer the verifier sets [r_v] to 0 (verifier_fast_track.cpp:507-508),
    so the value at 1 of the first phase-2 polynomial is never used again. *)
From Coq Require Import ZArith List Bool Arith Lia Ring.
From Verif Require Import Limbs Field FieldProofs Fp ArithProofs Base MleSpec GkrMath Poly PolyProofs Circuit
  FastProver FastVerifier Lazy TablesProofs FastProverProofs PhaseProofs FastVerifierProofs.
Import ListNotations.
Open Scope nat_scope.

(** The prover runs the code of prover_fast_track.cpp on its own circuit, and
    deviates at layer 1 only: it announces the value [vu] of the input of [C]
    at [r_u], and sends [c X] as first polynomial of phase 2, where [c] is the
    amount by which the claim is off. *)
Definition cheat (C : layered_circuit) : prover_if prover := {|
  if_evaluate := evaluate;
  if_V_res := if_V_res honest;
  if_sumcheck_init := if_sumcheck_init honest;
  if_phase1_init := sumcheck_phase1_init;
  if_phase1_update := sumcheck_phase1_update;
  if_phase2_init := fun p x r o =>
    p' <- sumcheck_phase2_init p x r o ;;
    if p_layer p =? 1 then
      L0 <- rd (circuit C) 0 ;;
      row <- input_vector L0 ;;
      vu <- V_res o r row (p_length_u p) (2 ^ p_length_u p) ;;
      d0 <- direct_relay 1 (p_length_g p) (p_r_0 p) r ;;
      d1 <- direct_relay 1 (p_length_g p) (p_r_1 p) r ;;
      let drv := fe_add (fe_mul (p_alpha p) d0) (fe_mul (p_beta p) d1) in
      Ok (set_v p' vu (fe_mul drv (fe_sub (p_v_u p') vu)))
    else Ok p';
  if_phase2_update := fun p x j =>
    ' (poly, p') <- sumcheck_phase2_update p x j ;;
    if (p_layer p =? 1) && (j =? 0) then Ok (QuadraticPoly fe_zero (p_v_v p) fe_zero, p') else Ok (poly, p');
  if_finalize := sumcheck_finalize;
  if_v_u := p_v_u |}.

Lemma bind_ret : forall A (m : outcome A), (x <- m ;; Ok x) = m.
Proof. intros A []; reflexivity. Qed.
Lemma bind_ret2 : forall A B (m : outcome (A * B)), (' (x, y) <- m ;; Ok (x, y)) = m.
Proof. intros A B [[x y]| | | | | |]; reflexivity. Qed.
Lemma cheat_like : forall C i, i <> 1 -> like_honest (cheat C) i.
Proof.
  intros C i H. constructor; intros; cbn [cheat if_sumcheck_init if_phase1_init if_phase1_update if_phase2_init
    if_phase2_update if_finalize if_v_u honest]; try reflexivity.
  - rewrite H0. destruct (Nat.eqb_spec i 1); [contradiction|]. apply bind_ret.
  - rewrite H0. destruct (Nat.eqb_spec i 1); [contradiction|]. cbn [andb]. apply bind_ret2.
Qed.

(** The verifier only looks at the gates of layer [i] and the size of layer [i - 1]. *)
Lemma verify_layer_same : forall S (I : prover_if S) C C' rnd i st L Lm Lm',
  nth_error (circuit C) i = Some L -> nth_error (circuit C') i = Some L ->
  nth_error (circuit C) (i - 1) = Some Lm -> nth_error (circuit C') (i - 1) = Some Lm' ->
  bit_length Lm = bit_length Lm' -> verify_layer I C rnd i st = verify_layer I C' rnd i st.
Proof.
  intros S I C C' rnd i st L Lm Lm' E1 E2 E3 E4 E. unfold verify_layer, rd. rewrite E1, E2, E3, E4.
  cbn [bind]. rewrite E. reflexivity.
Qed.

(** Same circuit above the input layer. *)
Record same_above (C C' : layered_circuit) : Prop := {
  sa_depth : total_depth C = total_depth C';
  sa_layers : forall i, 0 < i < total_depth C -> layer_at C i = layer_at C' i;
  sa_size : bit_length (layer_at C 0) = bit_length (layer_at C' 0) }.

Lemma psum_zero : forall n V M A, (forall x, M x = 0%F) -> (forall x, A x = 0%F) -> psum n V M A = 0%F.
Proof. intros n V M A HM HA. unfold psum. apply sumn_zero'. intros x _. rewrite HM, HA. ring. Qed.
Lemma fold1_zero : forall a T, (forall x, T x = 0%F) -> forall x, fold1 a T x = 0%F.
Proof. intros a T H x. unfold fold1. rewrite !H. ring. Qed.
Lemma folds_zero : forall R T, (forall x, T x = 0%F) -> forall x, folds R T x = 0%F.
Proof. induction R; intros T H x; cbn [folds]; [apply H|]. apply IHR. apply fold1_zero, H. Qed.

(** Phase 2 of the copy layer against this prover. *)
Lemma cheat_rounds_ok : forall Cv N n p V M A r_v Rv relay d vu c sum,
  p_layer p = 1 -> 0 < n ->
  length Rv = n -> reps r_v Rv -> tabs_bound N n p V M A [] ->
  (forall x, M x = 0%F) -> (forall x, A x = 0%F) ->
  rep relay d -> rep (p_v_u p) vu -> rep (p_v_v p) c -> rep sum (c + d * vu)%F ->
  returns (phase2_rounds (cheat Cv) n true relay r_v sum p) (fun st => let '(prev, sum, r_v', p') := st in
    let R := map (fun _ => 0%F) Rv in
    rep prev (last R 0%F) /\ rep sum (d * vu)%F /\ reps r_v' R /\
    tabs_bound N n p' V M A R /\ exists k lV lA lM, p' = set_arrays p k lV lA lM).
Proof.
  intros Cv N n p V M A r_v Rv relay d vu c sum Pl Hn HR Hr TB HM HA Hd Hvu Hc Hs. unfold phase2_rounds.
  set (R := map (fun _ => 0%F) Rv). assert (LR : length R = n) by (unfold R; rewrite map_length; exact HR).
  eapply returns_conseq.
  - apply (returns_for _ n 0 _ (fun j st => let '(prev, sum, r_v', p') := st in
      let Rj := firstn j R in
      rep prev (last Rj 0%F) /\ rep sum ((if j =? 0 then c else 0) + d * vu)%F /\
      reps r_v' (firstn j R ++ skipn j Rv) /\
      tabs_bound N n p' V M A Rj /\ exists k lV lA lM, p' = set_arrays p k lV lA lM)).
    + cbn [firstn folds last app skipn Nat.eqb]. split; [exact rep_i0|]. split; [exact Hs|]. split; [exact Hr|].
      split; [exact TB|]. exists (p_total_uv p), (p_Vmult p), (p_addV p), (p_addmult p). destruct p; reflexivity.
    + intros j [[[prev sm] rv] p'] Hj (Rp & Rs & Rrv & TB' & k & lV & lA & lM & E). simpl in Hj.
      assert (Lj : length (firstn j R) = j) by (rewrite firstn_length; lia).
      assert (HS : firstn (S j) R ++ skipn (S j) Rv = firstn j R ++ nth j R 0%F :: skipn (S j) Rv).
      { rewrite (firstn_S_nth R j) by lia. rewrite <- app_assoc. reflexivity. }
      assert (E0 : nth j R 0%F = 0%F) by (unfold R; apply (map_nth (fun _ : F => 0%F) Rv 0%F j)).
      eapply (returns_bind _ _ _ _ (fun rv' => reps rv' (firstn (S j) R ++ skipn (S j) Rv))).
      { rewrite HS. apply returns_wr.
          + rewrite (reps_length _ _ Rrv), app_length, Lj, skipn_length. lia.
          + pose proof (reps_upd _ _ j _ _ Rrv ltac:(rewrite app_length, Lj, skipn_length; lia) rep_i0) as K.
            rewrite E0.
            rewrite firstn_app, Lj, Nat.sub_diag, firstn_O, app_nil_r, firstn_firstn, Nat.min_id in K.
            rewrite skipn_app, Lj, (skipn_all2 (firstn j R)) in K by lia.
            replace (S j - j) with 1 in K by lia. cbn [app] in K.
            rewrite (skipn_S_nth Rv j) in K by lia. cbn [skipn] in K. exact K. }
      intros rv' Rrv'.
      pose proof (sumcheck_update_ok bind_next2 next2_ok N n p' V M A (firstn j R) prev ltac:(lia) TB' Rp) as SU.
      rewrite Lj in SU. cbn [if_phase2_update if_v_u cheat]. unfold sumcheck_phase2_update.
      set (cj := if j =? 0 then c else 0%F) in *.
      assert (Ep : p_layer p' = 1) by (rewrite E; exact Pl). rewrite Ep. cbn [Nat.eqb andb].
      eapply (returns_bind _ _ _ _ (fun res => (forall a, tabs_bound N n (snd res) V M A (firstn j R ++ [a])) /\
         (exists lV lA lM, snd res = set_arrays p' (2 ^ (n - S j)) lV lA lM) /\
         qrep (fst res) [0%F; cj; 0%F])).
      { eapply returns_bind; [exact SU|]. intros [poly p2] (TB2 & (lV2 & lA2 & lM2 & E2) & cc & Qc & Hcc).
        unfold cj. destruct (Nat.eqb_spec j 0) as [Ej|Nj]; apply returns_ok; cbn [fst snd];
          (split; [exact TB2|split; [exists lV2, lA2, lM2; exact E2|]]).
        - exists 0%F, c, 0%F. cbn [q_a q_b q_c]. split; [reflexivity|]. split; [exact rep_0|].
          split; [rewrite E; exact Hc|exact rep_0].
        - (* an honest polynomial over zero tables is zero *)
          destruct Qc as (a0 & b0 & d0 & Ecc & Qa & Qb & Qd). subst cc.
          assert (Z : forall t, peval [a0; b0; d0] t = 0%F).
          { intro t. rewrite Hcc. unfold round. apply psum_zero; apply fold1_zero, folds_zero; assumption. }
          assert (D0 : d0 = 0%F).
          { pose proof (Z 0%F) as K. cbn [peval length Fpow] in K. rewrite <- K. ring. }
          assert (K1 : (a0 + b0 = 0)%F).
          { pose proof (Z 1%F) as K. cbn [peval length Fpow] in K. rewrite D0 in K. rewrite <- K. ring. }
          assert (K2 : (a0 - b0 = 0)%F).
          { pose proof (Z (- (1))%F) as K. cbn [peval length Fpow] in K. rewrite D0 in K. rewrite <- K. ring. }
          assert (A2 : ((1 + 1) * a0 = 0)%F).
          { transitivity ((a0 + b0) + (a0 - b0))%F; [ring|]. rewrite K1, K2. ring. }
          assert (A0 : a0 = 0%F).
          { transitivity ((1 + 1) * half * a0)%F; [rewrite two_half; ring|].
            transitivity (half * ((1 + 1) * a0))%F; [ring|]. rewrite A2. ring. }
          assert (B0 : b0 = 0%F) by (transitivity (a0 + b0)%F; [rewrite A0; ring|exact K1]).
          exists 0%F, 0%F, 0%F. split; [reflexivity|]. rewrite A0 in Qa. rewrite B0 in Qb. rewrite D0 in Qd.
          split; [exact Qa|]. split; [exact Qb|exact Qd]. }
      intros [poly p2]. cbn [fst snd]. intros (TB2 & (lV2 & lA2 & lM2 & E2) & Qc).
      assert (Rr : returns (rd rv' j) (fun r => rep r 0%F)).
      { rewrite HS in Rrv'. eapply reps_rd; [exact Rrv'|rewrite app_length, Lj; simpl; lia|]. intros x Rx.
        rewrite app_nth2 in Rx by lia. rewrite Lj, Nat.sub_diag in Rx. cbn [nth] in Rx. rewrite E0 in Rx. exact Rx. }
      eapply returns_bind; [exact Rr|]. clear Rr. intros r Rr. cbv beta in Rr.
      assert (Rvu : rep (p_v_u p2) vu) by (rewrite E2, E; exact Hvu).
      pose proof (quadratic_eval_ok _ _ _ _ Qc rep_i0) as Q0. pose proof (quadratic_eval_ok _ _ _ _ Qc rep_i1) as Q1.
      pose proof (quadratic_eval_ok _ _ _ _ Qc Rr) as Qr. cbn [peval length Fpow] in Q0, Q1, Qr.
      apply rb_reject.
      { eapply rep_fne_false; [apply rep_add; [apply rep_add; [exact Q0|exact Q1]|apply rep_mul; [exact Hd|exact Rvu]]|exact Rs|].
        ring. }
      apply returns_ok. cbv zeta. split; [|split; [|split; [exact Rrv'|split]]].
      * rewrite (firstn_S_nth R j) by lia. rewrite last_last, E0. exact Rr.
      * cbn [Nat.eqb]. eapply rep_eq; [apply rep_add; [exact Qr|apply rep_mul; [exact Hd|exact Rvu]]|]. ring.
      * rewrite (firstn_S_nth R j) by lia. apply TB2.
      * exists (2 ^ (n - S j)), lV2, lA2, lM2. rewrite E2, E. reflexivity.
  - intros [[[prev sm] rv] p'] H. simpl (0 + n) in H. rewrite (firstn_all2 R) in H by lia.
    rewrite (skipn_all2 Rv) in H by lia. rewrite app_nil_r in H.
    destruct (Nat.eqb_spec n 0); [lia|]. cbv zeta in H |- *. destruct H as (H1 & H2 & H3 & H4 & H5).
    split; [exact H1|]. split; [eapply rep_eq; [exact H2|ring]|]. split; [exact H3|]. split; [exact H4|exact H5].
Qed.

(** The copy layer: whatever the prover's own input is, the claim passed on is
    the value of the input of [Cv]. *)
Section CopyLayer.
Variables (Cv C : layered_circuit) (m : nat) (rnd : nat -> fe).
Hypothesis CCv : complete_circuit Cv.
Hypothesis CC : complete_circuit C.
Hypothesis Hd : 1 < total_depth C.
Hypothesis Hsz : bit_length (layer_at Cv 0) = bit_length (layer_at C 0).
Hypothesis Hpos : 0 < bit_length (layer_at C 0).
Hypothesis Hm : forall k, k < total_depth C -> bit_length (layer_at C k) <= m.
Hypothesis Hrnd : forall k, reduced (rnd k).
Let L := layer_at C 1.
Let Lm := layer_at C 0.
Let lg := bit_length L.
Let b := bit_length Lm.
Let V := vals C 0.

Lemma cheat_copy_layer : forall st a be R0 R1, claim C m 1 st a be R0 R1 ->
  returns (verify_layer (cheat Cv) C rnd 1 st) (fun st' =>
    exists R, length R = b /\ reps (s_r0 st') R /\ reps (s_o0 st') (comp R) /\
      rep (s_sum st') (mle R (vals Cv 0))).
Proof.
  intros st a be R0 R1 [Kp Ka Kb Kr0 Kr1 Ko0 Kl0 Kl1 Ko1 (KB0 & KB1 & KB2 & KB3) Ks].
  fold L lg in Kl0, Kl1. specialize (Ko1 ltac:(lia)). cbn [Nat.eqb] in Ks.
  assert (Hi : 0 < 1 < total_depth C) by lia.
  pose proof (cc_depth C CC) as D. destruct (cc_copy C CC Hd) as [Eb Eg]. fold L Lm lg b in Eb, Eg.
  unfold verify_layer. eapply rb_nth; [apply layer_rd; lia|]. eapply rb_nth; [apply layer_rd; lia|].
  fold L. change (layer_at C (1 - 1)) with Lm. fold lg b. cbn [cheat if_sumcheck_init honest bind].
  set (p0 := sumcheck_init _ _ _ _ _ _ _ _ _ _ _).
  set (ru := rnd_point rnd (s_pos st) b). set (Rv := rnd_point rnd (s_pos st + b) b).
  assert (Lru : length ru = b) by apply rnd_point_length.
  assert (LRv : length Rv = b) by apply rnd_point_length.
  assert (Hb : b <= m) by (apply Hm; lia). assert (Hlg : lg <= m) by (apply Hm; lia).
  assert (HG : 2 ^ lg <= length (gates L)) by (apply (cc_gates C CC); lia).
  assert (PI0 : pinv C m p0) by (destruct Kp; constructor; assumption).
  assert (PP0 : pparams p0 lg a be R0 R1) by (constructor; try assumption; reflexivity).
  destruct (phase1_tables C m 1 CC Hi a be R0 R1 ru Kl0 Kl1 Lru) as (tA & tM & HS1 & Start & Link).
  eapply returns_bind.
  { apply (phase1_init_ok C m 1 Hi D Hlg Hb HG p0 a be R0 R1 tA tM PI0 eq_refl PP0 HS1). }
  intros p1 (PI1 & GT1 & TB1 & lV1 & lA1 & lM1 & g0f & g0s & g1f & g1s & gs & E1).
  destruct (generate_randomness rnd (s_pos st) b) as [r_u pos1] eqn:Eu.
  destruct (generate_randomness rnd pos1 b) as [r_v pos2] eqn:Ev.
  pose proof (generate_randomness_ok rnd (s_pos st) b Hrnd) as Hru. rewrite Eu in Hru. cbn [fst] in Hru.
  assert (Epos1 : pos1 = s_pos st + b) by (unfold generate_randomness in Eu; congruence).
  pose proof (generate_randomness_ok rnd pos1 b Hrnd) as Hrv. rewrite Ev in Hrv. cbn [fst] in Hrv.
  rewrite Epos1 in Hrv. fold (rnd_point rnd (s_pos st) b) in Hru. fold (rnd_point rnd (s_pos st + b) b) in Hrv.
  fold ru in Hru. fold Rv in Hrv. clear Eu Ev.
  assert (HD : forall r R, reps r R -> length R = lg ->
    returns (direct_relay 1 lg r r_u) (fun x => rep x (eqpt R ru))).
  { intros r R Hr LR. apply direct_relay_ok; try assumption. rewrite Lru. symmetry. exact Eb. }
  destruct (HD _ R0 Kr0 Kl0) as (d0 & Ed0 & Rd0). destruct (HD _ R1 Kr1 Kl1) as (d1 & Ed1 & Rd1).
  rewrite Ed0, Ed1. cbn [bind].
  set (drv := fe_add (fe_mul (s_alpha st) d0) (fe_mul (s_beta st) d1)).
  set (dv := (a * eqpt R0 ru + be * eqpt R1 ru)%F).
  assert (Rdrv : rep drv dv) by (apply rep_add; apply rep_mul; assumption).
  eapply returns_bind; [apply (one_minus_ok r_u ru b Hru); symmetry; exact Lru|]. intros o_u Hou.
  eapply returns_bind; [apply (one_minus_ok r_v Rv b Hrv); symmetry; exact LRv|]. intros o_v Hov.
  cbv beta in Hou, Hov.
  eapply returns_bind.
  { change (phase1_rounds (cheat Cv)) with (phase1_rounds honest).
    apply (phase1_rounds_ok honest 1 _ b p1 V _ _ r_u ru (s_sum st) (honest_like 1) ltac:(rewrite E1; reflexivity) Lru Hru TB1).
    eapply rep_eq; [exact Ks|symmetry; exact Start]. }
  intros [[prev1 sum1] p2] (Rp1 & Rs1 & TB2 & k2 & lV2 & lA2 & lM2 & E2).
  assert (PI2 : pinv C m p2).
  { destruct PI1 as [? ? ? ? ? ? ? ? ? ? ? ? ?]. destruct TB2 as (BV & BM & BA & _).
    assert (BL : forall N n l T R, bound N n l T R -> length l = N).
    { intros N0 n0 l T R B0. destruct R; [destruct B0 as [fa [H _]]|destruct B0 as [H _]]; exact H. }
    rewrite E2 in *. constructor; try assumption; eapply BL; eassumption. }
  assert (PP2 : pparams p2 lg a be R0 R1) by (rewrite E2, E1; constructor; try assumption; reflexivity).
  assert (GT2 : gtabs p2 (2 ^ (m / 2 + 1)) lg a be R0 R1) by (rewrite E2; exact GT1).
  set (tA' := tA2 (gate_at L) (gw a be R0 R1) (mle ru V) (eqw ru)).
  set (tM' := tM2 (gate_at L) (gw a be R0 R1) (mle ru V) (eqw ru)).
  set (vu := mle ru (vals Cv 0)).
  eapply (returns_bind _ _ _ _ (fun p3 => pinv C m p3 /\ rep (p_v_u p3) vu /\
    rep (p_v_v p3) (dv * (mle ru V - vu))%F /\
    tabs_bound (2 ^ m) b p3 V (scat (2 ^ lg) tM') (scat (2 ^ lg) tA') [] /\ p_layer p3 = 1)).
  { cbn [cheat if_phase2_init].
    eapply returns_bind.
    { apply (phase2_init_ok C m 1 Hi D Hlg Hb HG p2 prev1 r_u o_u a be R0 R1 ru _ _ tA' tM'
             PI2 ltac:(rewrite E2, E1; reflexivity) PP2 GT2 ltac:(rewrite E2, E1; reflexivity) Lru Hru Hou TB2 Rp1).
      intros wu w v_u Hwu Hw Rv0. apply (phase2_step C m 1 CC Hi a be R0 R1 ru wu w v_u Hwu Hw Rv0). }
    intros p3 (PI3 & Rvu & TB3 & lV3 & lA3 & lM3 & uf & us & bu & vuf & E3).
    assert (Pl2 : p_layer p2 = 1) by (rewrite E2, E1; reflexivity). rewrite Pl2. cbn [Nat.eqb].
    eapply rb_nth; [apply layer_rd; rewrite <- (cc_depth Cv CCv); exact (cc_pos Cv CCv)|].
    eapply returns_bind; [apply input_vector_ok, CCv|]. intros row Trow. cbv beta in Trow. rewrite Hsz in Trow.
    assert (Plu : p_length_u p2 = length ru) by (rewrite E2, E1, Lru; reflexivity).
    assert (Plg : p_length_g p2 = lg) by (rewrite E2, E1; reflexivity). rewrite Plu, Plg.
    eapply returns_bind.
    { eapply V_res_ok; [exact Hru|exact Hou|]. rewrite Lru. exact Trow. }
    intros x Rx. cbv beta in Rx. fold vu in Rx.
    assert (Q0 : p_r_0 p2 = s_r0 st) by (rewrite E2, E1; reflexivity).
    assert (Q1 : p_r_1 p2 = s_r1 st) by (rewrite E2, E1; reflexivity). rewrite Q0, Q1, Ed0, Ed1. cbn [bind].
    assert (Q2 : p_alpha p2 = s_alpha st) by (rewrite E2, E1; reflexivity).
    assert (Q3 : p_beta p2 = s_beta st) by (rewrite E2, E1; reflexivity). rewrite Q2, Q3.
    fold drv. apply returns_ok. cbn [set_v p_v_u p_v_v p_layer]. split; [destruct PI3; constructor; assumption|].
    split; [exact Rx|]. split; [apply rep_mul; [exact Rdrv|apply rep_sub; [exact Rvu|exact Rx]]|].
    split; [exact TB3|]. rewrite E3. exact Pl2. }
  intros p3 (PI3 & Rvu & Rvv & TB3 & Pl3).
  assert (Z2 : forall x, scat (2 ^ lg) tM' x = 0%F).
  { intro x. unfold scat. apply sumn_zero'. intros g Hg. unfold tM', tM2. rewrite (Eg g Hg), copy_wires. reflexivity. }
  assert (Z3 : forall x, scat (2 ^ lg) tA' x = 0%F).
  { intro x. unfold scat. apply sumn_zero'. intros g Hg. unfold tA', tA2. rewrite (Eg g Hg), copy_wires. reflexivity. }
  eapply returns_bind.
  { cbn [Nat.eqb]. apply (cheat_rounds_ok Cv (2 ^ m) b p3 V _ _ r_v Rv drv dv vu (dv * (mle ru V - vu))%F sum1
      Pl3 Hpos LRv Hrv TB3 Z2 Z3 Rdrv Rvu Rvv).
    eapply rep_eq; [exact Rs1|]. eapply eq_trans; [exact Link|].
    change (layer_at C (1 - 1)) with Lm. fold L lg b. change (vals C (1 - 1)) with V. fold tA' tM'.
    rewrite (psum_zero _ _ _ _ Z2 Z3). unfold relay_at. cbn [Nat.eqb]. fold dv. ring. }
  intros [[[prev2 sum2] r_v'] p4]. cbv zeta. set (rv := map (fun _ => 0%F) Rv).
  assert (Lrv : length rv = b) by (unfold rv; rewrite map_length; exact LRv).
  intros (Rp2 & Rs2 & Hrv' & TB4 & k4 & lV4 & lA4 & lM4 & E4).
  destruct TB4 as (BV4 & BM4 & BA4 & _).
  destruct (bound_final _ _ _ _ _ _ Lrv BV4 Rp2) as (x & Ex & Rx).
  cbn [cheat if_finalize]. unfold sumcheck_finalize.
  eapply (returns_bind _ _ _ _ (fun res => rep (fst (fst res)) vu /\ rep (snd (fst res)) (mle rv V))).
  { eapply rb_nth; [exact Ex|]. apply returns_ok. cbn [fst snd]. split; [rewrite E4; exact Rvu|exact Rx]. }
  intros [[v_u v_v] p5]. cbn [fst snd]. intros (Rvu5 & Rvv5).
  eapply returns_bind.
  { apply (beta_init_btabs (2 ^ m) lg b) with (R0 := R0) (R1 := R1) (Ru := ru) (Rv := rv) (Ov := comp Rv) (a := a) (be := be);
      try assumption.
    - rewrite comp_length. exact LRv.
    - apply Nat.pow_le_mono_r; [lia|exact Hlg].
    - apply Nat.pow_le_mono_r; [lia|exact Hb]. }
  intros B' (BT & LB0 & LB1 & LB2 & LB3).
  pose proof (this_layer_ok C 1 CC Hi) as LO. change (layer_at C (1 - 1)) with Lm in LO. fold L lg b in LO.
  eapply returns_bind; [apply (mult_pred_ok (2 ^ m) lg b L B' _ _ _ BT eq_refl HG LO)|]. intros mult_v R_mult.
  eapply returns_bind; [apply (add_pred_ok (2 ^ m) lg b L B' _ _ _ BT eq_refl HG LO)|]. intros add_v R_add.
  eapply returns_bind; [apply (not_pred_ok (2 ^ m) lg b L B' _ _ _ BT eq_refl HG LO)|]. intros not_v R_not.
  eapply returns_bind; [apply (minus_pred_ok (2 ^ m) lg b L B' _ _ _ BT eq_refl HG LO)|]. intros minus_v R_minus.
  eapply returns_bind; [apply (xor_pred_ok (2 ^ m) lg b L B' _ _ _ BT eq_refl HG LO)|]. intros xor_v R_xor.
  eapply returns_bind; [apply (NAAB_pred_ok (2 ^ m) lg b L B' _ _ _ BT eq_refl HG LO)|]. intros naab_v R_naab.
  eapply returns_bind; [apply (sum_pred_ok' (2 ^ m) lg b L B' _ _ _ BT eq_refl HG LO)|]. intros sum_v R_sum.
  eapply returns_bind; [apply (relay_pred_ok (2 ^ m) lg b L B' _ _ _ BT eq_refl HG LO)|]. intros relay_v R_relay.
  cbv beta in *.
  apply rb_reject.
  { eapply rep_fne_false; [exact Rs2|eapply combine_ok; eassumption|].
    rewrite <- (pred_split (2 ^ lg) (gate_at L) (gw a be R0 R1) ptypes vu (mle rv V) (eqw ru) _ ptypes_nodup
               (layer_types lg b L LO)).
    rewrite sumn_zero'; [ring|]. intros g Hg. rewrite (Eg g Hg), copy_wires. rewrite lsum_nil. ring. }
  apply returns_ok. exists ru. cbn [s_r0 s_o0 s_sum Nat.eqb negb].
  split; [exact Lru|]. split; [exact Hru|]. split; [exact Hou|exact Rvu5].
Qed.
End CopyLayer.

(** The verifier of [Cv] accepts the output of [C], for all randomness. *)
Theorem cheat_accepted : forall Cv C rnd, complete_circuit Cv -> complete_circuit C -> same_above Cv C ->
  1 < total_depth C -> 0 < bit_length (layer_at C 0) -> (forall k, reduced (rnd k)) ->
  exists row p, if_evaluate (cheat Cv) (init_prover C (max_bit_length C)) = Ok (row, p) /\
    tab (2 ^ bit_length (layer_at C (total_depth C - 1))) row (2 ^ bit_length (layer_at C (total_depth C - 1)))
        (vals C (total_depth C - 1)) /\
    verify (cheat Cv) Cv rnd (init_betas (max_bit_length C)) (init_prover C (max_bit_length C)) = Ok true.
Proof.
  intros Cv C rnd CCv CC [SD SL SS] Hd Hb0 Hrnd. set (m := max_bit_length C).
  pose proof (cc_depth C CC) as D. pose proof (cc_pos C CC) as Dp. pose proof (cc_depth Cv CCv) as Dv.
  assert (Hm : forall k, k < total_depth C -> bit_length (layer_at C k) <= m) by (intros; apply bit_length_max; lia).
  destruct (evaluate_ok (init_prover C m) (complete_wf C CC)) as ([result p0] & Ee & (cv & E0 & Rows & Er)).
  cbn [fst snd init_prover p_C] in E0, Rows, Er. pose proof Rows as RowsK.
  rewrite SD in SL, Dv. set (d := total_depth C) in *.
  destruct Rows as [Lcv Rows]. destruct (Rows (d - 1) ltac:(lia)) as (row & Erow & Trow).
  assert (result = row) as -> by congruence.
  exists row, p0. split; [exact Ee|]. split; [exact Trow|].
  cut (returns (verify_body (cheat Cv) Cv rnd (init_betas m) (init_prover C m)) (eq true)).
  { intros (x & E & <-). unfold verify. rewrite E. reflexivity. }
  unfold verify_body. rewrite SD. fold d. cbn [if_evaluate cheat]. rewrite Ee. cbn [bind].
  eapply rb_nth; [apply layer_rd; fold d; lia|]. rewrite (SL (d - 1)) by lia.
  set (lo := bit_length (layer_at C (d - 1))) in *.
  destruct (generate_randomness rnd 0 lo) as [r_0 pos0] eqn:Eu.
  destruct (generate_randomness rnd pos0 lo) as [r_1 pos1] eqn:Ev.
  pose proof (generate_randomness_ok rnd 0 lo Hrnd) as Hr0. rewrite Eu in Hr0. cbn [fst] in Hr0.
  pose proof (generate_randomness_ok rnd pos0 lo Hrnd) as Hr1. rewrite Ev in Hr1. cbn [fst] in Hr1.
  set (R0 := map _ _) in Hr0. set (R1 := map _ _) in Hr1.
  assert (L0 : length R0 = lo) by (unfold R0; rewrite map_length, seq_length; reflexivity).
  assert (L1 : length R1 = lo) by (unfold R1; rewrite map_length, seq_length; reflexivity).
  clearbody R0 R1. clear Eu Ev.
  eapply returns_bind; [apply (one_minus_ok r_0 R0 lo Hr0); symmetry; exact L0|]. intros o_0 Ho0.
  eapply returns_bind; [apply (one_minus_ok r_1 R1 lo Hr1); symmetry; exact L1|]. intros o_1 Ho1. cbv beta in Ho0, Ho1.
  cbn [if_V_res honest].
  eapply (returns_bind _ _ _ _ (fun x => rep (fst x) (mle R0 (vals C (d - 1))) /\ snd x = p0)).
  { eapply returns_bind; [rewrite <- L0 in *; eapply V_res_ok; [exact Hr0|exact Ho0|exact Trow]|].
    intros x Rx. apply returns_ok. split; [exact Rx|reflexivity]. }
  intros [a_0 p1]. cbn [fst snd]. intros [Ra0 ->].
  assert (PI : pinv C m p0).
  { rewrite E0. apply init_pinv_sizes. exact RowsK. }
  eapply (returns_bind _ _ _ _ (fun st => exists R, length R = bit_length (layer_at C 0) /\ reps (s_r0 st) R /\
      reps (s_o0 st) (comp R) /\ rep (s_sum st) (mle R (vals Cv 0)))).
  { replace (d - 1) with (S (d - 2)) at 1 by lia.
    eapply returns_conseq.
    - apply (returns_for _ (S (d - 2)) 0 _ (fun k st => if k <=? d - 2 then exists a be R0 R1, claim C m (d - 1 - k) st a be R0 R1
        else exists R, length R = bit_length (layer_at C 0) /\ reps (s_r0 st) R /\
          reps (s_o0 st) (comp R) /\ rep (s_sum st) (mle R (vals Cv 0)))).
      + cbn [Nat.leb]. exists 1%F, 0%F, R0, R1. rewrite Nat.sub_0_r. constructor;
          cbn [s_p s_alpha s_beta s_r0 s_r1 s_o0 s_o1 s_B s_sum]; try assumption.
        * exact rep_i1.
        * exact rep_i0.
        * intros _. assumption.
        * unfold init_betas. cbn [b_g0 b_g1 b_u b_v]. rewrite repeat_length. auto.
        * destruct (Nat.eqb_spec (d - 1) 0) as [E|E]; [lia|]. lzr.
      + intros k st Hk. simpl in Hk. destruct (Nat.leb_spec k (d - 2)) as [Hk'|]; [|lia].
        intros (a & be & R0' & R1' & CL).
        assert (Same : forall i, 0 < i < d -> verify_layer (cheat Cv) Cv rnd i st = verify_layer (cheat Cv) C rnd i st).
        { intros i Hi. eapply verify_layer_same; try (apply layer_rd; lia).
          - rewrite (SL i) by lia. apply layer_rd; lia.
          - destruct (Nat.eq_dec i 1) as [->|N]; [exact SS|]. rewrite (SL (i - 1)) by lia. reflexivity. }
        rewrite Same by lia.
        destruct (Nat.leb_spec (S k) (d - 2)) as [Hk2|Hk2].
        * eapply returns_conseq; [apply (verify_layer_ok C m (d - 1 - k) rnd CC ltac:(fold d; lia) Hm Hrnd (cheat Cv) st a be R0' R1'
            (cheat_like Cv (d - 1 - k) ltac:(lia)) CL)|].
          intros st' H. cbv beta in H. replace (d - 1 - S k) with (d - 1 - k - 1) by lia. exact H.
        * replace (d - 1 - k) with 1 in * by lia.
          exact (cheat_copy_layer Cv C m rnd CCv CC Hd SS Hb0 Hm Hrnd st a be R0' R1' CL).
    - intros st H. simpl (0 + S (d - 2)) in H. destruct (Nat.leb_spec (S (d - 2)) (d - 2)); [lia|]. exact H. }
  intros st (R & LR & Hr & Ho & Hs).
  eapply rb_nth; [apply layer_rd; lia|].
  eapply returns_bind; [apply input_vector_ok, CCv|]. intros input Ti. cbv beta in Ti. rewrite SS, <- LR in *.
  eapply returns_bind; [eapply V_in_ok; [exact Hr|exact Ho|exact Ti]|].
  intros x Rx. cbv beta in Rx.
  apply rb_reject; [eapply rep_fne_false; [exact Hs|exact Rx|reflexivity]|].
  apply returns_ok. reflexivity.
Qed.
