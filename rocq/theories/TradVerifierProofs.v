(** * The traditional GKR programs: messages (C54) and completeness (C55) *)
From Coq Require Import ZArith List Bool Arith Lia Ring.
From Verif Require Import Limbs Field FieldProofs Fp Base MleSpec GkrMath Poly PolyProofs Circuit
  FastProver Lazy TablesProofs FastProverProofs PhaseProofs FastVerifier FastVerifierProofs
  SpecGkr RoundProofs TradProver TradVerifier TradProofs TradPhase.
Import ListNotations.
Open Scope nat_scope.

(** Circuits the protocol is complete for: gates of types 0, 1, 2 above the input
    layer, and at least two values in every layer but the last. *)
Record trad_circuit (C : layered_circuit) : Prop := {
  tc_depth : total_depth C = length (circuit C);
  tc_pos : 0 < total_depth C;
  tc_small : (Z.of_nat (total_depth C) <= 1000)%Z;
  tc_gates : forall i, i < total_depth C -> 2 ^ bit_length (layer_at C i) <= length (gates (layer_at C i));
  tc_input : forall g, g < 2 ^ bit_length (layer_at C 0) ->
     g_ty (gate_at (layer_at C 0) g) = 3%Z \/
     (g_ty (gate_at (layer_at C 0) g) = 2%Z /\ g_u (gate_at (layer_at C 0) g) = 0%Z);
  tc_bits : forall i, S i < total_depth C -> 0 < bit_length (layer_at C i);
  tc_wires : forall i g, 0 < i < total_depth C -> g < 2 ^ bit_length (layer_at C i) ->
     trad_gate (2 ^ bit_length (layer_at C (i - 1))) (gate_at (layer_at C i) g) }.

(** ** Evaluation *)
Lemma trad_gate_value_ok : forall N prev n V g, tab N prev n V -> trad_gate n g ->
  returns (trad_gate_value prev (g_ty g) (g_u g) (g_v g)) (fun x => rep x (gate_spec V g)).
Proof.
  intros N prev n V g T H. pose proof (gate_value_ok N prev n V g T (proto_reads _ _ (trad_proto _ _ H))) as K.
  destruct (trad_type _ _ H) as [E|[E|E]]; rewrite E in *; exact K.
Qed.
Lemma trad_layer_values_ok : forall L N prev n V, 2 ^ bit_length L <= length (gates L) -> tab N prev n V ->
  (forall g, g < 2 ^ bit_length L -> trad_gate n (gate_at L g)) ->
  returns (trad_layer_values L prev) (fun row => tab (2 ^ bit_length L) row (2 ^ bit_length L)
     (fun g => gate_spec V (gate_at L g))).
Proof.
  intros L N prev n V HG TP HR. unfold trad_layer_values. set (m := 2 ^ bit_length L) in *.
  eapply returns_conseq; [apply (returns_for _ m 0 _ (fun i row => tab m row i (fun g => gate_spec V (gate_at L g))))|].
  - pose proof (tab_nil (repeat fe_zero m) (fun g => gate_spec V (gate_at L g))) as K.
    rewrite repeat_length in K. exact K.
  - intros i row Hi T. simpl in Hi.
    eapply rb_nth; [apply gate_rd; lia|].
    eapply returns_bind; [eapply trad_gate_value_ok; [exact TP|apply HR; lia]|]. intros x Rx.
    apply returns_wr; [destruct T as [-> _]; lia|]. apply tab_push; [exact T|lia|exact Rx].
  - intros a H. exact H.
Qed.
Lemma trad_evaluate_ok : forall p, trad_circuit (t_C p) ->
  returns (trad_evaluate p) (fun x => exists cv, snd x = t_set_values p cv /\ rows_ok (t_C p) (total_depth (t_C p)) cv /\
     nth_error cv (total_depth (t_C p) - 1) = Some (fst x)).
Proof.
  intros p TC. set (C := t_C p) in *. destruct TC as [D0 Dp Ds Hg Hi Hb Hw]. unfold trad_evaluate. fold C.
  eapply rb_nth; [apply layer_rd; lia|].
  eapply returns_bind; [apply input_values_ok; [apply Hg; lia|]|].
  { intros g Hg'. destruct (Hi g Hg') as [H|[H _]]; auto. }
  intros row0 T0. cbv beta in T0.
  apply rb_assert; [apply Z.ltb_lt; lia|].
  eapply returns_bind.
  - apply (returns_for _ (total_depth C - 1) 1 _ (fun i cv => rows_ok C i cv)).
    + split; [reflexivity|]. intros i Hi'. assert (i = 0) as -> by lia. exists row0. split; [reflexivity|].
      rewrite vals_0; [exact T0|]. intro E. rewrite E in D0. simpl in D0. lia.
    + intros i cv Hi' [L R]. destruct (Z.leb_spec 1000 (Z.of_nat i)); [lia|].
      eapply rb_nth; [apply layer_rd; lia|].
      destruct (R (i - 1) ltac:(lia)) as (prev & En & Tp).
      eapply rb_nth; [exact En|].
      eapply returns_bind; [eapply trad_layer_values_ok; [apply Hg; lia|exact Tp|intros; apply Hw; lia]|].
      intros row Tr. cbv beta in Tr. apply returns_ok. split; [rewrite app_length; simpl; lia|].
      intros k Hk. destruct (Nat.eq_dec k i) as [->|Nk].
      * exists row. rewrite nth_error_app2 by lia. rewrite L, Nat.sub_diag. split; [reflexivity|].
        replace i with (S (i - 1)) at 3 by lia. rewrite vals_S by lia.
        replace (S (i - 1)) with i by lia. exact Tr.
      * rewrite nth_error_app1 by lia. apply R. lia.
  - replace (1 + (total_depth C - 1)) with (total_depth C) by lia. intros cv HR. pose proof HR as [L R].
    destruct (R (total_depth C - 1) ltac:(lia)) as (row & En & Tr).
    eapply rb_nth; [exact En|]. apply returns_ok. exists cv. cbn [fst snd].
    split; [reflexivity|]. split; [exact HR|exact En].
Qed.
Lemma init_tinv : forall C m cv, rows_ok C (total_depth C) cv -> tinv C m (t_set_values (init_tprover C m) cv).
Proof.
  intros C m cv H. constructor; cbn [t_set_values init_tprover t_C t_values t_V t_add t_mult t_gsum t_g0f t_g0s t_g1f t_g1s];
    rewrite ?repeat_length, ?shr1_div2; try reflexivity. exact H.
Qed.
Lemma trad_ready : forall C m row p, trad_circuit C -> trad_evaluate (init_tprover C m) = Ok (row, p) -> tinv C m p.
Proof.
  intros C m row p CC E. destruct (trad_evaluate_ok (init_tprover C m) CC) as ([row' p'] & E' & cv & Es & Rows & _).
  rewrite E in E'. injection E' as <- <-. cbn [snd fst] in *. rewrite Es. apply init_tinv. exact Rows.
Qed.

(** The two phases as the verifier drives them. *)
Definition trad_phase1_run (p : tprover) (rs : list fe) : outcome (list quadratic_poly * fe * tprover) :=
  p <- trad_phase1_init p ;; trad_collect trad_phase1_update 0 (fe_of_int 0) rs p.
Definition trad_phase2_run (p : tprover) (prev : fe) (r_u o_u rs : list fe) : outcome (list quadratic_poly * fe * tprover) :=
  p <- trad_phase2_init p prev r_u o_u ;; trad_collect trad_phase2_update 0 (fe_of_int 0) rs p.

Section OneLayer.
Variables (C : layered_circuit) (m i : nat).
Hypothesis CC : trad_circuit C.
Hypothesis Hi : 0 < i < total_depth C.
Hypothesis Hm : forall k, k < total_depth C -> bit_length (layer_at C k) <= m.
Let L := layer_at C i.
Let Lm := layer_at C (i - 1).
Let lg := bit_length L.
Let b := bit_length Lm.
Let V := vals C (i - 1).
Let N := 2 ^ m.

Let D : total_depth C = length (circuit C) := tc_depth C CC.
Lemma t_Hb : b <= m. Proof. apply Hm; lia. Qed.
Lemma t_Hlg : lg <= m. Proof. apply Hm; lia. Qed.
Lemma t_Hb1 : 0 < b. Proof. apply (tc_bits C CC); lia. Qed.
Lemma t_HG : 2 ^ lg <= length (gates L). Proof. apply (tc_gates C CC); lia. Qed.
Lemma t_HN : 2 ^ b <= N. Proof. apply pow_mono, t_Hb. Qed.
Lemma t_HGN : 2 ^ lg <= N. Proof. apply pow_mono, t_Hlg. Qed.
Lemma t_TG : forall g, g < 2 ^ lg -> trad_gate (2 ^ b) (gate_at L g).
Proof. intros g Hg. apply (tc_wires C CC); [lia|exact Hg]. Qed.
Lemma t_PG : forall g, g < 2 ^ lg -> proto_gate (2 ^ b) (gate_at L g).
Proof. intros g Hg. apply trad_proto, t_TG, Hg. Qed.
Lemma t_range : forall g, g < 2 ^ lg -> in_range (2 ^ b) (gate_at L g).
Proof. intros g Hg. apply proto_range; [apply pow2_pos|apply t_PG, Hg]. Qed.
Lemma t_types : forall g, g < 2 ^ lg -> livegate L g \/ g_ty (gate_at L g) = 2%Z.
Proof. exact (live_types C i t_TG). Qed.
Lemma t_lay : nth_error (circuit C) i = Some L.
Proof. apply layer_rd. rewrite <- D. lia. Qed.
Lemma t_row : forall p, tinv C m p -> exists row, nth_error (t_values p) (i - 1) = Some row /\ tab (2 ^ b) row (2 ^ b) V.
Proof. intros p PI. destruct (ti_rows _ _ _ PI) as [_ RR]. apply RR. lia. Qed.
Lemma vals_layer : vals C i = fun g => gate_spec V (gate_at L g).
Proof.
  replace i with (S (i - 1)) at 1 by lia. rewrite vals_S by (rewrite <- D; lia).
  replace (S (i - 1)) with i by lia. reflexivity.
Qed.

Section Weights.
Variables (a be : F) (R0 R1 : list F).
Let W := gw a be R0 R1.
Let M1 := scat (2 ^ lg) (rM L W (wu L) (fun g => V (wv L g))).
Let A1 := scat (2 ^ lg) (rA L W (wu L) (fun g => V (wv L g))).
Let M2 ru := scat (2 ^ lg) (rM L (fun g => W g * eqw ru (wu L g))%F (wv L) (fun _ => mle ru V)).
Let A2 ru := scat (2 ^ lg) (rA L (fun g => W g * eqw ru (wu L g))%F (wv L) (fun _ => mle ru V)).
Lemma eval1 : forall X, (mle X V * mle X M1 + mle X A1 =
  mle X V * mle X (scat (2 ^ lg) (tM1 (gate_at L) W V)) + mle X (scat (2 ^ lg) (tA1 (gate_at L) W V)))%F.
Proof.
  intro X. f_equal; [f_equal|]; apply mle_ext; intros x _; [apply table_M1|apply table_A1]; exact t_types.
Qed.
Lemma eval2 : forall ru X, (mle X V * mle X (M2 ru) + mle X (A2 ru) =
  mle X V * mle X (scat (2 ^ lg) (tM2 (gate_at L) W (mle ru V) (eqw ru))) +
  mle X (scat (2 ^ lg) (tA2 (gate_at L) W (mle ru V) (eqw ru))))%F.
Proof.
  intros ru X. f_equal; [f_equal|]; apply mle_ext; intros x _; [apply (table_M2 (2 ^ lg) L W t_types)|apply (table_A2 (2 ^ lg) L W t_types)].
Qed.
Lemma start1 : length R0 = lg -> length R1 = lg ->
  psum b V M1 A1 = (a * mle R0 (vals C i) + be * mle R1 (vals C i))%F.
Proof.
  intros L0 L1. rewrite (weighted_claim C i a be R0 R1 L0 L1). fold L lg. fold W. rewrite vals_layer.
  transitivity (psum b V (scat (2 ^ lg) (tM1 (gate_at L) W V)) (scat (2 ^ lg) (tA1 (gate_at L) W V))).
  - unfold psum. apply sumn_ext. intros x _. f_equal; [f_equal|]; [apply table_M1|apply table_A1]; exact t_types.
  - rewrite (phase1_start (2 ^ lg) (gate_at L) W V b t_range).
    apply sumn_ext. intros g Hg. rewrite (proto_value (2 ^ b)) by (apply t_PG, Hg). reflexivity.
Qed.
Lemma link : forall ru, length ru = b -> (mle ru V * mle ru M1 + mle ru A1)%F = psum b V (M2 ru) (A2 ru).
Proof.
  intros ru Lu. rewrite eval1. rewrite (phase1_end (2 ^ lg) (gate_at L) W V b t_range ru Lu).
  unfold psum. apply sumn_ext. intros x _. symmetry.
  f_equal; [f_equal|]; [apply (table_M2 (2 ^ lg) L W t_types)|apply (table_A2 (2 ^ lg) L W t_types)].
Qed.
Lemma end2 : forall ru rv, length rv = b -> (mle rv V * mle rv (M2 ru) + mle rv (A2 ru))%F =
  (fval (form_of 0) (mle ru V) (mle rv V) * pred (2 ^ lg) (gate_at L) W 0 (eqw ru) (eqw rv) +
   fval (form_of 1) (mle ru V) (mle rv V) * pred (2 ^ lg) (gate_at L) W 1 (eqw ru) (eqw rv))%F.
Proof.
  intros ru rv Lv. rewrite eval2, (phase2_end (2 ^ lg) (gate_at L) W V b t_range (mle ru V) (eqw ru) rv Lv).
  rewrite (pred_split (2 ^ lg) (gate_at L) W [0;1]%Z (mle ru V) (mle rv V) (eqw ru) (eqw rv)).
  - rewrite !lsum_cons, lsum_nil. ring.
  - repeat constructor; cbn [In]; intuition discriminate.
  - intros g Hg. destruct (trad_type _ _ (t_TG g Hg)) as [E|[E|E]]; rewrite ?E; cbn [In]; auto.
    right. unfold wires. rewrite E. reflexivity.
Qed.

(** Phase 1. *)
Definition ready1 (p : tprover) : Prop := tinv C m p /\ t_layer p = i /\ tparams p lg a be R0 R1.
Lemma after_phase1 : forall p p1 p2 prev ru, ready1 p -> tinv C m p1 ->
  (exists lV gs g0f g0s g1f g1s, p1 = t_set_tables p (2 ^ b) lV gs g0f g0s g1f g1s) -> same N p1 p2 ->
  before N lg b L V W (wu L) p2 ru -> rep prev (last ru 0%F) -> tbetween C m i p2 prev a be R0 R1 ru.
Proof.
  intros p p1 p2 prev ru (_ & Pl & PP) PI1 (lV & gs & g0f & g0s & g1f & g1s & E1) HS HB Rp.
  pose proof (same_tinv C m i p1 p2 ru (wu L) W PI1 HS HB) as PI2.
  destruct HS as (A & M & lV' & gs' & E2 & _ & _).
  split; [exact PI2|]. split; [rewrite E2, E1; exact Pl|]. split; [|split; [rewrite E2, E1; reflexivity|split; [exact HB|exact Rp]]].
  rewrite E2, E1. destruct PP. constructor; assumption.
Qed.
Lemma phase1_rounds : forall p r_u ru sum, ready1 p -> reps r_u ru -> length ru = b -> length R0 = lg -> length R1 = lg ->
  rep sum (a * mle R0 (vals C i) + be * mle R1 (vals C i))%F ->
  returns (p <- trad_phase1_init p ;; trad_rounds trad_phase1_update b r_u sum p) (fun st => let '(prev, sum, p') := st in
    rep sum (mle ru V * mle ru M1 + mle ru A1)%F /\ tbetween C m i p' prev a be R0 R1 ru).
Proof.
  intros p r_u ru sum RD Hr Lr L0 L1 Rs. pose proof RD as (PI & Pl & PP).
  eapply returns_bind; [apply (trad_phase1_init_ok C m i Hi D t_Hlg t_Hb t_Hb1 t_HG p a be R0 R1 PI Pl PP)|].
  intros p1 (PI1 & HB & E1). pose proof E1 as (lV & gs & g0f & g0s & g1f & g1s & E1').
  destruct (t_row p1 PI1) as (row & Er & Tr).
  eapply returns_conseq.
  { eapply (trad_rounds_ok N lg b L V W g_u (wu L) (fun g => V (wv L g)) t_HG t_HN t_HGN t_types
             (live_u C m i Hi D t_Hlg t_Hb t_Hb1 t_HG t_TG) (fun gt => iv <- idx (g_v gt) ;; rd row iv)
             (fun g Hg Hl => other1_ok C m i Hi D t_Hlg t_Hb t_Hb1 t_HG t_TG _ row g Tr Hg Hl) p1).
    - rewrite (ti_C _ _ _ PI1), E1'. cbn [t_set_tables t_layer]. rewrite Pl. exact t_lay.
    - rewrite E1'. apply (tp_lg _ _ _ _ _ _ PP).
    - rewrite E1'. reflexivity.
    - intros q x j HS. apply (update1_same m i p1 row q x j); [rewrite E1'; exact Pl|exact Er|exact HS].
    - exact Lr.
    - exact Hr.
    - apply (ti_A _ _ _ PI1).
    - apply (ti_M _ _ _ PI1).
    - exact HB.
    - eapply rep_eq; [exact Rs|symmetry; apply start1; assumption]. }
  intros [[prev sm] p2] (Rp & Rs2 & HB2 & HS2). split; [exact Rs2|].
  eapply after_phase1; eassumption.
Qed.
Lemma phase1_collect : forall p rs ru, ready1 p -> reps rs ru -> length ru = b ->
  returns (trad_phase1_run p rs) (fun st => let '(qs, prev, p') := st in
    messages qs b (fun j t => hyper (b - S j) (fun xs => hyper b (fun Y =>
      layer_poly (2 ^ lg) (gate_at L) (out_weight a be R0 R1) V (firstn j ru ++ t :: xs) Y))) /\
    tbetween C m i p' prev a be R0 R1 ru).
Proof.
  intros p rs ru RD Hr Lr. pose proof RD as (PI & Pl & PP). unfold trad_phase1_run.
  eapply returns_bind; [apply (trad_phase1_init_ok C m i Hi D t_Hlg t_Hb t_Hb1 t_HG p a be R0 R1 PI Pl PP)|].
  intros p1 (PI1 & HB & E1). pose proof E1 as (lV & gs & g0f & g0s & g1f & g1s & E1').
  destruct (t_row p1 PI1) as (row & Er & Tr).
  eapply returns_conseq.
  { eapply (trad_collect_ok N lg b L V W g_u (wu L) (fun g => V (wv L g)) t_HG t_HN t_HGN t_types
             (live_u C m i Hi D t_Hlg t_Hb t_Hb1 t_HG t_TG) (fun gt => iv <- idx (g_v gt) ;; rd row iv)
             (fun g Hg Hl => other1_ok C m i Hi D t_Hlg t_Hb t_Hb1 t_HG t_TG _ row g Tr Hg Hl) p1) with (R := []).
    - rewrite (ti_C _ _ _ PI1), E1'. cbn [t_set_tables t_layer]. rewrite Pl. exact t_lay.
    - rewrite E1'. apply (tp_lg _ _ _ _ _ _ PP).
    - rewrite E1'. reflexivity.
    - intros q x j HS. apply (update1_same m i p1 row q x j); [rewrite E1'; exact Pl|exact Er|exact HS].
    - exact Hr.
    - exact Lr.
    - apply same_refl; [apply (ti_A _ _ _ PI1)|apply (ti_M _ _ _ PI1)].
    - exact HB.
    - exact rep_i0. }
  intros [[qs prev] p2]. cbn [app length Nat.add]. intros (Lq & Hq & Hl & HB2 & HS2).
  split; [|eapply after_phase1; eassumption].
  split; [lia|]. intros j Hj. destruct (Hq j ltac:(lia)) as (q & c & Eq & Qc & Hc). exists q. split; [exact Eq|].
  intros x t Rx. eapply rep_eq; [apply (quadratic_eval_ok _ _ _ _ Qc Rx)|]. rewrite Hc, round_hyper.
  apply hyper_ext. intros xs Lx. etransitivity; [apply eval1|].
  rewrite (phase1_layer_poly (2 ^ lg) (gate_at L) W V b t_PG) by (apply point_len; assumption). reflexivity.
Qed.

(** Phase 2. *)
Lemma phase2_rounds : forall p prev r_u o_u r_v ru rv sum, tbetween C m i p prev a be R0 R1 ru -> length ru = b ->
  reps r_v rv -> length rv = b -> rep sum (psum b V (M2 ru) (A2 ru)) ->
  returns (p <- trad_phase2_init p prev r_u o_u ;; trad_rounds trad_phase2_update b r_v sum p) (fun st => let '(prev, sum, p') := st in
    rep sum (mle rv V * mle rv (M2 ru) + mle rv (A2 ru))%F /\
    returns (trad_finalize p' prev) (fun res => rep (fst (fst res)) (mle ru V) /\ rep (snd (fst res)) (mle rv V) /\ tinv C m (snd res))).
Proof.
  intros p prev r_u o_u r_v ru rv sum BT Lu Hr Lr Rs. pose proof BT as (PI & Pl & PP & Puv & _).
  eapply returns_bind; [apply (trad_phase2_init_ok C m i Hi D t_Hlg t_Hb t_Hb1 t_HG t_TG p prev r_u o_u a be R0 R1 ru Lu BT)|].
  intros p1 (PI1 & Rvu & HB & vu & lV & gs & E1).
  eapply returns_conseq.
  { eapply (trad_rounds_ok N lg b L V _ g_v (wv L) (fun _ => mle ru V) t_HG t_HN t_HGN t_types
             (live_v C m i Hi D t_Hlg t_Hb t_Hb1 t_HG t_TG) (fun _ => Ok (t_v_u p1))
             (fun g Hg Hl => returns_ok _ (t_v_u p1) (fun x => rep x (mle ru V)) Rvu) p1).
    - rewrite (ti_C _ _ _ PI1), E1. cbn [t_set_round t_layer]. rewrite Pl. exact t_lay.
    - rewrite E1. apply (tp_lg _ _ _ _ _ _ PP).
    - rewrite E1. exact Puv.
    - intros q x j HS. apply (update2_same m p1 q x j HS).
    - exact Lr.
    - exact Hr.
    - apply (ti_A _ _ _ PI1).
    - apply (ti_M _ _ _ PI1).
    - exact HB.
    - exact Rs. }
  intros [[prev2 sm] p2] (Rp & Rs2 & HB2 & HS2). split; [exact Rs2|].
  pose proof (same_tinv C m i p1 p2 rv (wv L) _ PI1 HS2 HB2) as PI2.
  unfold trad_finalize.
  eapply returns_bind; [eapply last_value_ok; [exact Lr|exact t_Hb1|exact HB2|exact Rp]|].
  intros x Rx. apply returns_ok. cbn [fst snd]. split; [|split; [exact Rx|]].
  - destruct HS2 as (A & M & lV' & gs' & E2 & _ & _). rewrite E2. exact Rvu.
  - destruct PI2. constructor; assumption.
Qed.
Lemma phase2_collect : forall p prev r_u o_u ru rs rv, tbetween C m i p prev a be R0 R1 ru -> length ru = b ->
  reps rs rv -> length rv = b ->
  returns (trad_phase2_run p prev r_u o_u rs) (fun st => let '(qs, prev', p') := st in
    messages qs b (fun j t => hyper (b - S j) (fun ys =>
      layer_poly (2 ^ lg) (gate_at L) (out_weight a be R0 R1) V ru (firstn j rv ++ t :: ys))) /\
    returns (trad_finalize p' prev') (fun res => rep (fst (fst res)) (mle ru V) /\ rep (snd (fst res)) (mle rv V) /\
      tinv C m (snd res))).
Proof.
  intros p prev r_u o_u ru rs rv BT Lu Hr Lr. pose proof BT as (PI & Pl & PP & Puv & _). unfold trad_phase2_run.
  eapply returns_bind; [apply (trad_phase2_init_ok C m i Hi D t_Hlg t_Hb t_Hb1 t_HG t_TG p prev r_u o_u a be R0 R1 ru Lu BT)|].
  intros p1 (PI1 & Rvu & HB & vu & lV & gs & E1).
  eapply returns_conseq.
  { eapply (trad_collect_ok N lg b L V _ g_v (wv L) (fun _ => mle ru V) t_HG t_HN t_HGN t_types
             (live_v C m i Hi D t_Hlg t_Hb t_Hb1 t_HG t_TG) (fun _ => Ok (t_v_u p1))
             (fun g Hg Hl => returns_ok _ (t_v_u p1) (fun x => rep x (mle ru V)) Rvu) p1) with (R := []).
    - rewrite (ti_C _ _ _ PI1), E1. cbn [t_set_round t_layer]. rewrite Pl. exact t_lay.
    - rewrite E1. apply (tp_lg _ _ _ _ _ _ PP).
    - rewrite E1. exact Puv.
    - intros q x j HS. apply (update2_same m p1 q x j HS).
    - exact Hr.
    - exact Lr.
    - apply same_refl; [apply (ti_A _ _ _ PI1)|apply (ti_M _ _ _ PI1)].
    - exact HB.
    - exact rep_i0. }
  intros [[qs prev2] p2]. cbn [app length Nat.add]. intros (Lq & Hq & Hl & HB2 & HS2). split.
  - split; [lia|]. intros j Hj. destruct (Hq j ltac:(lia)) as (q & c & Eq & Qc & Hc). exists q. split; [exact Eq|].
    intros x t Rx. eapply rep_eq; [apply (quadratic_eval_ok _ _ _ _ Qc Rx)|]. rewrite Hc, round_hyper.
    apply hyper_ext. intros ys Ly. etransitivity; [apply (eval2 ru)|].
    rewrite (phase2_layer_poly (2 ^ lg) (gate_at L) W V b t_PG) by (apply point_len; assumption). reflexivity.
  - pose proof (same_tinv C m i p1 p2 rv (wv L) _ PI1 HS2 HB2) as PI2.
    unfold trad_finalize.
    eapply returns_bind; [eapply last_value_ok; [exact Lr|exact t_Hb1|exact HB2|exact Hl]|].
    intros x Rx. apply returns_ok. cbn [fst snd]. split; [|split; [exact Rx|]].
    + destruct HS2 as (A & M & lV' & gs' & E2 & _ & _). rewrite E2. exact Rvu.
    + destruct PI2. constructor; assumption.
Qed.
End Weights.
End OneLayer.

(** ** One layer of the verifier *)
Lemma returns_unbind : forall A B (m : outcome A) (k : A -> outcome B) Q, returns (bind m k) Q ->
  exists x, m = Ok x /\ returns (k x) Q.
Proof.
  intros A B m k Q (y & E & H). destruct m as [x| | | | | |]; try discriminate E.
  exists x. split; [reflexivity|]. exists y. split; [exact E|exact H].
Qed.
Record tclaim (C : layered_circuit) (m i : nat) (st : vstate tprover) (a be : F) (R0 R1 : list F) : Prop := {
  tk_p : tinv C m (s_p st);
  tk_a : rep (s_alpha st) a; tk_b : rep (s_beta st) be;
  tk_r0 : reps (s_r0 st) R0; tk_r1 : reps (s_r1 st) R1;
  tk_o0 : reps (s_o0 st) (comp R0); tk_o1 : reps (s_o1 st) (comp R1);
  tk_l0 : length R0 = bit_length (layer_at C i); tk_l1 : length R1 = bit_length (layer_at C i);
  tk_B : length (b_g0 (s_B st)) = 2 ^ m /\ length (b_g1 (s_B st)) = 2 ^ m /\
         length (b_u (s_B st)) = 2 ^ m /\ length (b_v (s_B st)) = 2 ^ m;
  tk_s : rep (s_sum st) (a * mle R0 (vals C i) + be * mle R1 (vals C i))%F }.

Lemma trad_combine_ok : forall av mv v_u v_v pa pm vu vv, rep av pa -> rep mv pm -> rep v_u vu -> rep v_v vv ->
  rep (trad_combine av mv v_u v_v) (fval (form_of 0) vu vv * pa + fval (form_of 1) vu vv * pm)%F.
Proof. intros. unfold trad_combine, fval. cbn [form_of c11 c10 c01 c00]. lzr. Qed.

Lemma trad_layer_ok : forall C m i rnd st a be R0 R1, trad_circuit C -> 0 < i < total_depth C ->
  (forall k, k < total_depth C -> bit_length (layer_at C k) <= m) -> (forall k, reduced (rnd k)) ->
  tclaim C m i st a be R0 R1 ->
  returns (trad_layer trad_honest C rnd i st) (fun st' => exists a' be' R0' R1', tclaim C m (i - 1) st' a' be' R0' R1').
Proof.
  intros C m i rnd st a be R0 R1 CC Hi Hm Hrnd [Kp Ka Kb Kr0 Kr1 Ko0 Ko1 Kl0 Kl1 (KB0 & KB1 & KB2 & KB3) Ks].
  pose proof (tc_depth C CC) as D. unfold trad_layer.
  eapply rb_nth; [apply layer_rd; lia|]. eapply rb_nth; [apply layer_rd; lia|].
  set (L := layer_at C i) in *. set (Lm := layer_at C (i - 1)). set (lg := bit_length L) in *. set (b := bit_length Lm).
  cbn [trad_honest if_sumcheck_init if_phase1_init if_phase1_update if_phase2_init if_phase2_update if_finalize bind].
  set (p0 := trad_sumcheck_init _ _ _ _ _ _ _ _ _ _ _).
  set (ru := rnd_point rnd (s_pos st) b). set (rv := rnd_point rnd (s_pos st + b) b).
  assert (Lru : length ru = b) by apply rnd_point_length.
  assert (Lrv : length rv = b) by apply rnd_point_length.
  assert (RD : ready1 C m i a be R0 R1 p0).
  { split; [destruct Kp; constructor; assumption|]. split; [reflexivity|]. constructor; try assumption; reflexivity. }
  destruct (generate_randomness rnd (s_pos st) b) as [r_u pos1] eqn:Eu.
  destruct (generate_randomness rnd pos1 b) as [r_v pos2] eqn:Ev.
  pose proof (generate_randomness_ok rnd (s_pos st) b Hrnd) as Hru. rewrite Eu in Hru. cbn [fst] in Hru.
  assert (Epos1 : pos1 = s_pos st + b) by (unfold generate_randomness in Eu; congruence).
  pose proof (generate_randomness_ok rnd pos1 b Hrnd) as Hrv. rewrite Ev in Hrv. cbn [fst] in Hrv.
  rewrite Epos1 in Hrv. fold (rnd_point rnd (s_pos st) b) in Hru. fold (rnd_point rnd (s_pos st + b) b) in Hrv. fold ru in Hru. fold rv in Hrv.
  clear Eu Ev.
  destruct (returns_unbind _ _ _ _ _ (phase1_rounds C m i CC Hi Hm a be R0 R1 p0 r_u ru (s_sum st) RD Hru Lru Kl0 Kl1 Ks))
    as (p1 & E1 & H1).
  rewrite E1. cbn [bind].
  eapply returns_bind; [apply (one_minus_ok r_u ru b Hru); symmetry; exact Lru|]. intros o_u Hou.
  eapply returns_bind; [apply (one_minus_ok r_v rv b Hrv); symmetry; exact Lrv|]. intros o_v Hov.
  cbv beta in Hou, Hov.
  eapply returns_bind; [exact H1|]. intros [[prev1 sum1] p2] [Rs1 BT].
  rewrite (link C m i CC Hi a be R0 R1 ru Lru) in Rs1.
  destruct (returns_unbind _ _ _ _ _ (phase2_rounds C m i CC Hi Hm a be R0 R1 p2 prev1 r_u o_u r_v ru rv sum1 BT Lru Hrv Lrv Rs1))
    as (p3 & E3 & H3).
  rewrite E3. cbn [bind].
  eapply returns_bind; [exact H3|]. intros [[prev2 sum2] p4] [Rs2 HF].
  rewrite (end2 C m i CC Hi a be R0 R1 ru rv Lrv) in Rs2.
  eapply returns_bind; [exact HF|]. intros [[v_u v_v] p5]. cbn [fst snd]. intros (Rvu & Rvv & PI5).
  assert (Hb : b <= m) by (apply Hm; lia). assert (Hlg : lg <= m) by (apply Hm; lia).
  assert (HG : 2 ^ lg <= length (gates L)) by (apply (tc_gates C CC); lia).
  eapply returns_bind.
  { apply (beta_init_btabs (2 ^ m) lg b) with (R0 := R0) (R1 := R1) (Ru := ru) (Rv := rv) (Ov := comp rv) (a := a) (be := be);
      try assumption.
    - rewrite comp_length. exact Lrv.
    - apply pow_mono, Hlg.
    - apply pow_mono, Hb. }
  intros B' (BT' & LB0 & LB1 & LB2 & LB3).
  assert (LO : forall k, k < 2 ^ lg -> layer_ok b (gate_at L k) k).
  { intros k Hk. left. apply trad_proto, (tc_wires C CC); [lia|exact Hk]. }
  eapply returns_bind; [apply (mult_pred_ok (2 ^ m) lg b L B' _ _ _ BT' eq_refl HG LO)|]. intros mult_v R_mult.
  eapply returns_bind; [apply (add_pred_ok (2 ^ m) lg b L B' _ _ _ BT' eq_refl HG LO)|]. intros add_v R_add.
  cbv beta in R_mult, R_add.
  assert (EP : prs rv (comp rv) 0 b = point rv) by (rewrite <- Lrv; apply prs_point).
  rewrite EP in R_mult, R_add.
  apply rb_reject.
  { eapply rep_fne_false; [exact Rs2|apply trad_combine_ok; [exact R_add|exact R_mult|exact Rvu|exact Rvv]|]. reflexivity. }
  apply returns_ok. exists (ofZ (val512 (rnd pos2))), (ofZ (val512 (rnd (pos2 + 1)))), ru, rv.
  pose proof (rnd_val rnd Hrnd) as RV.
  constructor; cbn [s_p s_alpha s_beta s_r0 s_r1 s_o0 s_o1 s_B s_sum]; try assumption.
  - apply RV.
  - apply RV.
  - split; [exact LB0|]. split; [exact LB1|]. split; [exact LB2|exact LB3].
  - apply rep_add; (apply rep_mul; [apply RV|assumption]).
Qed.

(** ** Completeness *)
Lemma trad_input_ok : forall C, trad_circuit C ->
  returns (input_vector (layer_at C 0)) (fun l => tab (2 ^ bit_length (layer_at C 0)) l
    (2 ^ bit_length (layer_at C 0)) (vals C 0)).
Proof.
  intros C CC. unfold input_vector. set (n := 2 ^ bit_length (layer_at C 0)).
  assert (V0 : vals C 0 = input_spec (layer_at C 0)).
  { apply vals_0. intro E. pose proof (tc_depth C CC). pose proof (tc_pos C CC). rewrite E in H. simpl in H. lia. }
  pose proof (tc_gates C CC 0 (tc_pos C CC)) as HG.
  apply (returns_for _ n 0 _ (fun i l => tab n l i (vals C 0))).
  - pose proof (tab_nil (repeat fe_zero n) (vals C 0)) as K. rewrite repeat_length in K. exact K.
  - intros i l Hi T. simpl in Hi. eapply rb_nth; [apply gate_rd; unfold n in *; lia|].
    assert (HL : length l = n) by apply T.
    destruct (tc_input C CC i ltac:(unfold n in *; lia)) as [E|[E E0]]; rewrite E.
    + cbn [Z.eqb Pos.eqb]. apply returns_wr; [lia|]. apply tab_push; [exact T|lia|].
      rewrite V0. apply rep_of_int.
    + cbn [Z.eqb Pos.eqb]. apply returns_wr; [lia|]. apply tab_push; [exact T|lia|].
      rewrite V0. unfold input_spec. rewrite E0. apply rep_of_int.
Qed.

Theorem trad_complete : forall C rnd, trad_circuit C -> (forall k, reduced (rnd k)) -> run_trad C rnd = Ok true.
Proof.
  intros C rnd CC Hrnd. set (m := max_bit_length C).
  pose proof (tc_depth C CC) as D. pose proof (tc_pos C CC) as Dp.
  assert (Hm : forall k, k < total_depth C -> bit_length (layer_at C k) <= m) by (intros; apply bit_length_max; lia).
  cut (returns (trad_verify_body trad_honest C rnd (init_betas m) (init_tprover C m)) (eq true)).
  { intros (x & E & <-). unfold run_trad, trad_verify. fold m. rewrite E. reflexivity. }
  unfold trad_verify_body. set (d := total_depth C) in *.
  eapply returns_bind; [cbn [if_evaluate trad_honest]; apply trad_evaluate_ok, CC|].
  intros [result p0]. cbn [fst snd]. intros (cv & E0 & Rows & Er). cbn [init_tprover t_C] in Rows, Er. fold d in Rows, Er.
  eapply rb_nth; [apply layer_rd; fold d; lia|]. set (lo := bit_length (layer_at C (d - 1))).
  destruct (generate_randomness rnd 0 lo) as [r_0 pos0] eqn:Eu.
  destruct (generate_randomness rnd pos0 lo) as [r_1 pos1] eqn:Ev.
  pose proof (generate_randomness_ok rnd 0 lo Hrnd) as Hr0. rewrite Eu in Hr0. cbn [fst] in Hr0.
  pose proof (generate_randomness_ok rnd pos0 lo Hrnd) as Hr1. rewrite Ev in Hr1. cbn [fst] in Hr1.
  set (R0 := map _ _) in Hr0. set (R1 := map _ _) in Hr1.
  assert (L0 : length R0 = lo) by (unfold R0; rewrite map_length, seq_length; reflexivity).
  assert (L1 : length R1 = lo) by (unfold R1; rewrite map_length, seq_length; reflexivity).
  clearbody R0 R1. clear Eu Ev.
  eapply returns_bind; [apply (one_minus_ok r_0 R0 lo Hr0); symmetry; exact L0|]. intros o_0 Ho0.
  eapply returns_bind; [apply (one_minus_ok r_1 R1 lo Hr1); symmetry; exact L1|]. intros o_1 Ho1. cbv beta in Ho0, Ho1.
  pose proof (init_tinv C m cv Rows) as PI. rewrite <- E0 in PI.
  destruct Rows as [Lcv Rows]. destruct (Rows (d - 1) ltac:(lia)) as (row & Erow & Trow).
  assert (result = row) as -> by congruence. fold lo in Trow.
  cbn [if_V_res trad_honest].
  eapply (returns_bind _ _ _ _ (fun x => rep (fst x) (mle R0 (vals C (d - 1))) /\ snd x = p0)).
  { eapply returns_bind; [rewrite <- L0 in *; eapply V_res_ok; [exact Hr0|exact Ho0|exact Trow]|].
    intros x Rx. apply returns_ok. split; [exact Rx|reflexivity]. }
  intros [a_0 p1]. cbn [fst snd]. intros [Ra0 ->].
  eapply returns_bind.
  { apply (returns_for _ (d - 1) 0 _ (fun k st => exists a be R0 R1, tclaim C m (d - 1 - k) st a be R0 R1)).
    - exists 1%F, 0%F, R0, R1. rewrite Nat.sub_0_r. constructor;
        cbn [s_p s_alpha s_beta s_r0 s_r1 s_o0 s_o1 s_B s_sum]; try assumption.
      + exact rep_i1.
      + exact rep_i0.
      + unfold init_betas. cbn [b_g0 b_g1 b_u b_v]. rewrite repeat_length. auto.
      + lzr.
    - intros k st Hk (a & be & R0' & R1' & CL). simpl in Hk.
      eapply returns_conseq; [apply (trad_layer_ok C m (d - 1 - k) rnd st a be R0' R1' CC ltac:(fold d; lia) Hm Hrnd CL)|].
      intros st' H. cbv beta in H. replace (d - 1 - S k) with (d - 1 - k - 1) by lia. exact H. }
  simpl (0 + (d - 1)). rewrite Nat.sub_diag. intros st (a & be & R0' & R1' & CL).
  eapply rb_nth; [apply layer_rd; fold d; lia|].
  eapply returns_bind; [apply trad_input_ok, CC|]. intros input Ti. cbv beta in Ti.
  destruct CL as [_ Ka Kb Kr0 Kr1 Ko0 Ko1 Kl0 Kl1 _ Ks].
  eapply returns_bind.
  { rewrite <- Kl0 in *. eapply V_in_ok; [exact Kr0|exact Ko0|exact Ti]. }
  intros x Rx. cbv beta in Rx.
  eapply returns_bind.
  { rewrite <- Kl1 in *. eapply V_in_ok; [exact Kr1|exact Ko1|exact Ti]. }
  intros y Ry. cbv beta in Ry.
  apply rb_reject; [eapply rep_fne_false; [exact Ks|apply rep_add; [apply rep_mul; [exact Rx|exact Ka]|apply rep_mul; [exact Ry|exact Kb]]|ring]|].
  apply returns_ok. reflexivity.
Qed.
