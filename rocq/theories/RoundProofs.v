(** * All rounds of a phase: the messages are the partial sums (C24) *)
From Coq Require Import ZArith List Bool Arith Lia Ring.
From Verif Require Import Limbs Field FieldProofs Fp Base MleSpec GkrMath Poly PolyProofs Circuit
  FastProver Lazy TablesProofs FastProverProofs PhaseProofs FastVerifier FastVerifierProofs SpecGkr.
Import ListNotations.
Open Scope nat_scope.

(** The rounds of one phase as the verifier drives them: the first call gets
    [prev], each later one the previous challenge. *)
Fixpoint collect (upd : prover -> fe -> nat -> outcome (quadratic_poly * prover)) (j : nat) (prev : fe)
    (rs : list fe) (p : prover) : outcome (list quadratic_poly * fe * prover) :=
  match rs with
  | [] => Ok ([], prev, p)
  | r :: rs' =>
      ' (q, p) <- upd p prev j ;;
      ' (qs, last, p) <- collect upd (S j) r rs' p ;;
      Ok (q :: qs, last, p)
  end.

Section Collect.
Variable next : fe -> list linear_poly -> nat -> outcome (list linear_poly).
Hypothesis next_ok : forall T m r a, rep r a ->
  binds (next r) m (fun i => T (2 * i + 1)%nat - T (2 * i)%nat)%F (fun i => T (2 * i)%nat)
    (fun i => fold1 a T (2 * i + 1)%nat - fold1 a T (2 * i)%nat)%F (fun i => fold1 a T (2 * i)%nat).

Lemma collect_ok : forall rs Rs N n p V M A R prev, reps rs Rs -> length R + length Rs = n ->
  tabs_bound N n p V M A R -> rep prev (last R 0%F) ->
  returns (collect (sumcheck_update next) (length R) prev rs p) (fun st => let '(qs, prev', p') := st in
    length qs = length Rs /\
    (forall k, k < length Rs -> exists q c, nth_error qs k = Some q /\ qrep q c /\ forall t,
       peval c t = round (n - S (length R + k)) (folds (R ++ firstn k Rs) V) (folds (R ++ firstn k Rs) M)
                         (folds (R ++ firstn k Rs) A) t) /\
    rep prev' (last (R ++ Rs) 0%F) /\ tabs_bound N n p' V M A (R ++ Rs) /\
    exists k lV lA lM, p' = set_arrays p k lV lA lM).
Proof.
  intros rs Rs N n p V M A R prev H. revert p R prev. induction H as [|r a rs Rs Rr H IH]; intros p R prev HL TB Hp; cbn [collect].
  - apply returns_ok. split; [reflexivity|]. split; [intros k Hk; simpl in Hk; lia|]. rewrite app_nil_r.
    split; [exact Hp|]. split; [exact TB|]. exists (p_total_uv p), (p_Vmult p), (p_addV p), (p_addmult p). destruct p; reflexivity.
  - cbn [length] in HL.
    eapply returns_bind; [apply (sumcheck_update_ok next next_ok N n p V M A R prev ltac:(lia) TB Hp)|].
    intros [q p1] (TB1 & (lV1 & lA1 & lM1 & E1) & c & Qc & Hc).
    assert (L1 : length (R ++ [a]) = S (length R)) by (rewrite app_length; simpl; lia).
    eapply returns_bind.
    { rewrite <- L1. apply (IH p1 (R ++ [a]) r); [rewrite L1; lia|apply TB1|rewrite last_last; exact Rr]. }
    intros [[qs lst] p2]. rewrite L1, <- app_assoc. cbn [app]. intros (Lq & Hq & Hl & TB2 & k & lV & lA & lM & E2). apply returns_ok.
    split; [cbn [length]; lia|]. split; [|split; [exact Hl|split; [exact TB2|]]].
    + intros [|j] Hj; cbn [nth_error firstn].
      * exists q, c. rewrite app_nil_r, Nat.add_0_r. split; [reflexivity|]. split; [exact Qc|exact Hc].
      * destruct (Hq j) as (q' & c' & Eq & Q' & Hc'); [cbn [length] in Hj; lia|]. exists q', c'.
        split; [exact Eq|]. split; [exact Q'|]. intro t. rewrite Hc'. rewrite <- app_assoc. cbn [app].
        replace (S (length R) + j) with (length R + S j) by lia. reflexivity.
    + exists k, lV, lA, lM. rewrite E2, E1. reflexivity.
Qed.
End Collect.

(** ** From tables to sums over the cube *)
Lemma folds_mle : forall Q n V i, i < 2 ^ n -> folds Q V i = mle (Q ++ bitvec n i) V.
Proof. intros Q n V i H. rewrite mle_folds, folds_app, <- mle_folds, mle_bitvec by exact H. reflexivity. Qed.
Lemma round_hyper : forall n R V M A t,
  round n (folds R V) (folds R M) (folds R A) t =
  hyper n (fun xs => mle (R ++ t :: xs) V * mle (R ++ t :: xs) M + mle (R ++ t :: xs) A)%F.
Proof.
  intros. unfold round, psum, hyper. rewrite <- !folds_snoc. apply sumn_ext. intros i Hi.
  rewrite !(folds_mle (R ++ [t]) n _ i Hi), <- !app_assoc. reflexivity.
Qed.
Lemma psum_hyper : forall n V M A, psum n V M A = hyper n (fun ys => mle ys V * mle ys M + mle ys A)%F.
Proof. intros. unfold psum, hyper. apply sumn_ext. intros i Hi. rewrite !mle_bitvec by exact Hi. reflexivity. Qed.
Lemma hyper_ext : forall n f g, (forall xs, length xs = n -> f xs = g xs) -> hyper n f = hyper n g.
Proof. intros n f g H. apply sumn_ext. intros. apply H, bitvec_length. Qed.

Lemma gate_poly_wires : forall n g X Y x y, proto_gate n g ->
  (fval (form_of (g_ty g)) x y * lsum (wires g) (fun w => w_c w * eqw X (w_l w) * eqw Y (w_r w)))%F = gate_poly g X Y x y.
Proof.
  intros n g X Y x y H. pose proof (proto_type n g H) as T. unfold gate_poly, wires. cbv zeta.
  gate_cases T; rewrite T in *; rewrite ?lsum_cons, ?lsum_nil; unfold fval, w_l, w_r, w_c;
    cbn [form_of c11 c10 c01 c00 fst snd]; try (unfold two; ring).
  rewrite lsum_map, lsum_seq. rewrite (sumn_ext _ _ (fun k => eqw Y 0 * eqw X (Z.to_nat (g_u g) + k))%F) by (intros; cbn [fst snd]; ring).
  rewrite sumn_scal. ring.
Qed.

Section LayerPoly.
Variables (G : nat) (gt : nat -> gate) (W V : nat -> F) (b : nat).
Hypothesis PG : forall g, g < G -> proto_gate (2 ^ b) (gt g).
Lemma range_all : forall g, g < G -> in_range (2 ^ b) (gt g).
Proof. intros g Hg. apply proto_range; [apply pow2_pos|apply PG, Hg]. Qed.
(** Phase 2 tables at [Y]. *)
Lemma phase2_layer_poly : forall X Y, length Y = b ->
  (mle Y V * mle Y (scat G (tM2 gt W (mle X V) (eqw X))) + mle Y (scat G (tA2 gt W (mle X V) (eqw X))))%F =
  layer_poly G gt W V X Y.
Proof.
  intros X Y L. rewrite (phase2_end G gt W V b range_all (mle X V) (eqw X) Y L).
  unfold layer_poly. apply sumn_ext. intros g Hg. rewrite <- (gate_poly_wires (2 ^ b)) by (apply PG, Hg).
  unfold fo. ring.
Qed.
(** Phase 1 tables at [X]. *)
Lemma phase1_layer_poly : forall X, length X = b ->
  (mle X V * mle X (scat G (tM1 gt W V)) + mle X (scat G (tA1 gt W V)))%F =
  hyper b (fun Y => layer_poly G gt W V X Y).
Proof.
  intros X L. rewrite (phase1_end G gt W V b range_all X L), psum_hyper. apply hyper_ext. intros Y LY.
  apply phase2_layer_poly, LY.
Qed.
End LayerPoly.

(** ** The two phases at a layer above the copy layer *)
Definition phase1_run (p : prover) (rs : list fe) : outcome (list quadratic_poly * fe * prover) :=
  p <- sumcheck_phase1_init p ;; collect sumcheck_phase1_update 0 (fe_of_int 0) rs p.
Definition phase2_run (p : prover) (prev : fe) (r_u o_u rs : list fe) : outcome (list quadratic_poly * fe * prover) :=
  p <- sumcheck_phase2_init p prev r_u o_u ;; collect sumcheck_phase2_update 0 (fe_of_int 0) rs p.

(** The messages of a phase, as polynomial functions. *)
Definition messages (qs : list quadratic_poly) (n : nat) (f : nat -> F -> F) : Prop :=
  length qs = n /\ forall j, j < n -> exists q, nth_error qs j = Some q /\
    forall x t, rep x t -> rep (quadratic_eval q x) (f j t).

Section Phases.
Variables (C : layered_circuit) (m i : nat).
Hypothesis CC : complete_circuit C.
Hypothesis Hi : 0 < i < total_depth C.
Hypothesis Hm : forall k, k < total_depth C -> bit_length (layer_at C k) <= m.
Let L := layer_at C i.
Let Lm := layer_at C (i - 1).
Let lg := bit_length L.
Let b := bit_length Lm.
Let V := vals C (i - 1).

(** State between the phases. *)
Definition between (p : prover) (prev : fe) (a be : F) (R0 R1 ru : list F) : Prop :=
  pinv C m p /\ p_layer p = i /\ pparams p lg a be R0 R1 /\ gtabs p (2 ^ (m / 2 + 1)) lg a be R0 R1 /\ p_length_u p = b /\
  (exists M1 A1, tabs_bound (2 ^ m) b p V M1 A1 ru) /\ rep prev (last ru 0%F).

Lemma phases_params : forall p k lV lA lM g0f g0s g1f g1s gs k' lV' lA' lM' a be R0 R1,
  pparams p lg a be R0 R1 ->
  pparams (set_arrays (set_g_tables (set_arrays p k lV lA lM) g0f g0s g1f g1s gs) k' lV' lA' lM') lg a be R0 R1.
Proof. intros p k lV lA lM g0f g0s g1f g1s gs k' lV' lA' lM' a be R0 R1 [H1 H2 H3 H4 H5 H6 H7 H8 H9]. constructor; assumption. Qed.
Lemma set_arrays_pinv : forall p k lV lA lM, pinv C m p -> 
  length lV = 2 ^ m -> length lA = 2 ^ m -> length lM = 2 ^ m -> pinv C m (set_arrays p k lV lA lM).
Proof. intros p k lV lA lM [] HV HA HM. constructor; assumption. Qed.
Lemma bound_length : forall N n l T R, bound N n l T R -> length l = N.
Proof. intros N n l T R B. unfold bound in B. destruct R; [destruct B as [fa (H & _)]|destruct B as (H & _)]; exact H. Qed.

Lemma phase1_any : forall p a be R0 R1 rs ru tA tM,
  pinv C m p -> p_layer p = i -> pparams p lg a be R0 R1 -> p_length_u p = b -> reps rs ru -> length ru = b ->
  (forall w Np prev, tab Np prev (2 ^ b) V -> (forall k, k < 2 ^ lg -> returns (w k) (fun x => rep x (gw a be R0 R1 k))) ->
     forall k, k < 2 ^ lg -> gate_step (2 ^ m) (2 ^ b) (phase1_gate w prev k (gate_at L k)) (tA k) (tM k)) ->
  returns (phase1_run p rs) (fun st => let '(qs, prev, p') := st in
    messages qs b (fun j t => hyper (b - S j) (fun xs => let X := firstn j ru ++ t :: xs in
      mle X V * mle X (scat (2 ^ lg) tM) + mle X (scat (2 ^ lg) tA))%F) /\
    between p' prev a be R0 R1 ru).
Proof.
  intros p a be R0 R1 rs ru tA tM PI Pl PP Pu Hr Lr HS.
  assert (Hb : b <= m) by (apply Hm; lia). assert (Hlg : lg <= m) by (apply Hm; lia).
  assert (HG : 2 ^ lg <= length (gates L)) by (apply (cc_gates C CC); lia).
  unfold phase1_run.
  eapply returns_bind.
  { apply (phase1_init_ok C m i Hi (cc_depth C CC) Hlg Hb HG p a be R0 R1 tA tM PI Pl PP HS). }
  intros p1 (PI1 & GT1 & TB1 & lV1 & lA1 & lM1 & g0f & g0s & g1f & g1s & gs & E1). fold b lg V L in TB1. fold lg in GT1.
  eapply returns_conseq.
  { apply (collect_ok bind_next1 next1_ok rs ru (2 ^ m) b p1 V _ _ [] (fe_of_int 0) Hr Lr TB1 rep_i0). }
  intros [[qs prev] p2]. cbn [app length Nat.add]. intros (Lq & Hq & Hl & TB2 & k & lV & lA & lM & E2).
  split; [split; [lia|]|].
  - intros j Hj. destruct (Hq j ltac:(lia)) as (q & c & Eq & Qc & Hc). exists q. split; [exact Eq|].
    intros x t Rx. eapply rep_eq; [apply (quadratic_eval_ok _ _ _ _ Qc Rx)|]. rewrite Hc. apply round_hyper.
  - destruct TB2 as (BV & BM & BA & Bt).
    assert (P2 : pinv C m p2).
    { rewrite E2. apply set_arrays_pinv; [exact PI1| | |].
      - replace lV with (p_Vmult p2) by (rewrite E2; reflexivity). apply (bound_length _ _ _ _ _ BV).
      - replace lA with (p_addV p2) by (rewrite E2; reflexivity). apply (bound_length _ _ _ _ _ BA).
      - replace lM with (p_addmult p2) by (rewrite E2; reflexivity). apply (bound_length _ _ _ _ _ BM). }
    split; [exact P2|]. split; [rewrite E2, E1; exact Pl|].
    split; [rewrite E2, E1; apply phases_params, PP|].
    split; [rewrite E2; exact GT1|]. split; [rewrite E2, E1; exact Pu|].
    split; [|exact Hl]. exists (scat (2 ^ lg) tM), (scat (2 ^ lg) tA). split; [exact BV|]. split; [exact BM|]. split; [exact BA|exact Bt].
Qed.

Lemma phase2_any : forall p prev r_u o_u a be R0 R1 ru rs Rv,
  between p prev a be R0 R1 ru -> length ru = b -> reps r_u ru -> reps o_u (comp ru) -> reps rs Rv -> length Rv = b ->
  returns (phase2_run p prev r_u o_u rs) (fun st => let '(qs, _, p') := st in
    messages qs b (fun j t => hyper (b - S j) (fun ys => let Y := firstn j Rv ++ t :: ys in
      mle Y V * mle Y (scat (2 ^ lg) (tM2 (gate_at L) (gw a be R0 R1) (mle ru V) (eqw ru))) +
      mle Y (scat (2 ^ lg) (tA2 (gate_at L) (gw a be R0 R1) (mle ru V) (eqw ru))))%F) /\
    rep (p_v_u p') (mle ru V) /\ pinv C m p').
Proof.
  intros p prev r_u o_u a be R0 R1 ru rs Rv (PI & Pl & PP & GT & PU & (M1 & A1 & TB) & Hp) Lru Hru Hou Hr Lr.
  assert (Hb : b <= m) by (apply Hm; lia). assert (Hlg : lg <= m) by (apply Hm; lia).
  assert (HG : 2 ^ lg <= length (gates L)) by (apply (cc_gates C CC); lia).
  unfold phase2_run. eapply returns_bind.
  { eapply (phase2_init_ok C m i Hi (cc_depth C CC) Hlg Hb HG p prev r_u o_u a be R0 R1 ru M1 A1 _ _ PI Pl PP GT PU Lru Hru Hou TB Hp).
    intros wu w v_u Hwu Hw Rv'. apply (phase2_step C m i CC Hi a be R0 R1 ru wu w v_u Hwu Hw Rv'). }
  intros p1 (PI1 & Rvu & TB1 & lV1 & lA1 & lM1 & uf & us & bu & vu & E1).
  fold L lg b V in TB1, Rvu.
  eapply returns_conseq.
  { apply (collect_ok bind_next2 next2_ok rs Rv (2 ^ m) b p1 V _ _ [] (fe_of_int 0) Hr Lr TB1 rep_i0). }
  intros [[qs prev'] p2]. cbn [app length Nat.add]. intros (Lq & Hq & Hl & TB2 & k & lV & lA & lM & E2).
  split; [split; [lia|]|split; [rewrite E2; exact Rvu|]].
  - intros j Hj. destruct (Hq j ltac:(lia)) as (q & c & Eq & Qc & Hc). exists q. split; [exact Eq|].
    intros x t Rx. eapply rep_eq; [apply (quadratic_eval_ok _ _ _ _ Qc Rx)|]. rewrite Hc. apply round_hyper.
  - destruct TB2 as (BV & BM & BA & Bt). rewrite E2. apply set_arrays_pinv; [exact PI1| | |].
    + replace lV with (p_Vmult p2) by (rewrite E2; reflexivity). apply (bound_length _ _ _ _ _ BV).
    + replace lA with (p_addV p2) by (rewrite E2; reflexivity). apply (bound_length _ _ _ _ _ BA).
    + replace lM with (p_addmult p2) by (rewrite E2; reflexivity). apply (bound_length _ _ _ _ _ BM).
Qed.
End Phases.

Lemma messages_ext : forall qs n f g, messages qs n f -> (forall j t, j < n -> f j t = g j t) -> messages qs n g.
Proof.
  intros qs n f g [Lq Hq] H. split; [exact Lq|]. intros j Hj. destruct (Hq j Hj) as (q & E & K). exists q. split; [exact E|].
  intros x t R. rewrite <- (H j t Hj). apply K, R.
Qed.
Lemma point_len : forall (ru : list F) b j t xs, length ru = b -> j < b -> length xs = b - S j ->
  length (firstn j ru ++ t :: xs) = b.
Proof. intros ru b j t xs Lr Hj Lx. rewrite app_length, firstn_length. cbn [length]. lia. Qed.

(** Layers above the copy layer. *)
Lemma phase1_messages : forall C m i p a be R0 R1 rs ru,
  complete_circuit C -> 1 < i < total_depth C -> (forall k, k < total_depth C -> bit_length (layer_at C k) <= m) ->
  let L := layer_at C i in let b := bit_length (layer_at C (i - 1)) in
  pinv C m p -> p_layer p = i -> pparams p (bit_length L) a be R0 R1 -> p_length_u p = b -> reps rs ru -> length ru = b ->
  returns (phase1_run p rs) (fun st => let '(qs, prev, p') := st in
    messages qs b (fun j t => hyper (b - S j) (fun xs => hyper b (fun Y =>
      layer_poly (2 ^ bit_length L) (gate_at L) (out_weight a be R0 R1) (vals C (i - 1)) (firstn j ru ++ t :: xs) Y))) /\
    between C m i p' prev a be R0 R1 ru).
Proof.
  intros C m i p a be R0 R1 rs ru CC Hi Hm L b PI Pl PP Pu Hr Lr.
  assert (PG : forall k, k < 2 ^ bit_length L -> proto_gate (2 ^ b) (gate_at L k)) by (intros; apply (cc_wires C CC); [lia|assumption]).
  eapply returns_conseq.
  { apply (phase1_any C m i CC ltac:(lia) Hm p a be R0 R1 rs ru (tA1 (gate_at L) (gw a be R0 R1) (vals C (i - 1)))
      (tM1 (gate_at L) (gw a be R0 R1) (vals C (i - 1))) PI Pl PP Pu Hr Lr).
    intros w Np prev T Hw k Hk. eapply phase1_gate_ok; [apply pow2_pos|exact T|exact Hw|exact Hk|apply PG, Hk]. }
  intros [[qs prev] p'] [HM HB]. split; [|exact HB]. eapply messages_ext; [exact HM|]. intros j t Hj.
  apply hyper_ext. intros xs Lx. cbv zeta. fold L b.
  rewrite (phase1_layer_poly (2 ^ bit_length L) (gate_at L) (gw a be R0 R1) (vals C (i - 1)) b PG) by (apply point_len; assumption).
  reflexivity.
Qed.
Lemma phase2_messages : forall C m i p prev r_u o_u a be R0 R1 ru rs Rv,
  complete_circuit C -> 1 < i < total_depth C -> (forall k, k < total_depth C -> bit_length (layer_at C k) <= m) ->
  let L := layer_at C i in let b := bit_length (layer_at C (i - 1)) in
  between C m i p prev a be R0 R1 ru -> length ru = b -> reps r_u ru -> reps o_u (comp ru) -> reps rs Rv -> length Rv = b ->
  returns (phase2_run p prev r_u o_u rs) (fun st => let '(qs, _, p') := st in
    messages qs b (fun j t => hyper (b - S j) (fun ys =>
      layer_poly (2 ^ bit_length L) (gate_at L) (out_weight a be R0 R1) (vals C (i - 1)) ru (firstn j Rv ++ t :: ys))) /\
    rep (p_v_u p') (mle ru (vals C (i - 1))) /\ pinv C m p').
Proof.
  intros C m i p prev r_u o_u a be R0 R1 ru rs Rv CC Hi Hm L b BT Lru Hru Hou Hr Lr.
  assert (PG : forall k, k < 2 ^ bit_length L -> proto_gate (2 ^ b) (gate_at L k)) by (intros; apply (cc_wires C CC); [lia|assumption]).
  eapply returns_conseq; [apply (phase2_any C m i CC ltac:(lia) Hm p prev r_u o_u a be R0 R1 ru rs Rv BT Lru Hru Hou Hr Lr)|].
  intros [[qs prev'] p'] [HM HB]. split; [|exact HB]. eapply messages_ext; [exact HM|]. intros j t Hj.
  apply hyper_ext. intros ys Ly. cbv zeta. fold L b.
  rewrite (phase2_layer_poly (2 ^ bit_length L) (gate_at L) (gw a be R0 R1) (vals C (i - 1)) b PG) by (apply point_len; assumption).
  reflexivity.
Qed.
(** The copy layer: phase 1 sums the weighted values, phase 2 sends zero. *)
Lemma copy_phase1_messages : forall C m p a be R0 R1 rs ru,
  complete_circuit C -> 1 < total_depth C -> (forall k, k < total_depth C -> bit_length (layer_at C k) <= m) ->
  let L := layer_at C 1 in let b := bit_length (layer_at C 0) in
  pinv C m p -> p_layer p = 1 -> pparams p (bit_length L) a be R0 R1 -> p_length_u p = b -> reps rs ru -> length ru = b ->
  returns (phase1_run p rs) (fun st => let '(qs, prev, p') := st in
    messages qs b (fun j t => hyper (b - S j) (fun xs => 
      layer_poly (2 ^ bit_length L) (gate_at L) (out_weight a be R0 R1) (vals C 0) (firstn j ru ++ t :: xs) (map (fun _ => 0%F) ru))) /\
    between C m 1 p' prev a be R0 R1 ru).
Proof.
  intros C m p a be R0 R1 rs ru CC Hd Hm L b PI Pl PP Pu Hr Lr.
  destruct (cc_copy C CC Hd) as [Kb Kg]. fold L b in Kb. fold L in Kg.
  eapply returns_conseq.
  { apply (phase1_any C m 1 CC ltac:(lia) Hm p a be R0 R1 rs ru (fun _ => []) (fun g => [(gw a be R0 R1 g, g)]) PI Pl PP Pu Hr Lr).
    intros w Np prev T Hw k Hk. eapply phase1_copy_ok; [apply pow2_pos|exact Hw|exact Hk|rewrite Nat.sub_diag; fold b; rewrite <- Kb; exact Hk|apply Kg, Hk]. }
  intros [[qs prev] p'] [HM HB]. split; [|exact HB]. eapply messages_ext; [exact HM|]. intros j t Hj. simpl (1 - 1) in *. fold L b in Hj |- *.
  apply hyper_ext. intros xs Lx. cbv zeta. set (X := firstn j ru ++ t :: xs).
  assert (LX : length X = b) by (apply point_len; assumption).
  rewrite Kb in *. rewrite (mle_copy b) by exact LX. rewrite (mle_ext X (scat _ _) (fun _ => 0%F)) by (intros; apply scat_nil). rewrite mle_zero.
  unfold layer_poly, mle at 2. rewrite LX.
  assert (E0 : eqw (map (fun _ => 0%F) ru) 0 = 1%F).
  { clear. induction ru as [|x ru IH]; [reflexivity|]. cbn [map]. pose proof (eqw_2 0%F (map (fun _ => 0%F) ru) 0) as E.
    simpl (2 * 0) in E. rewrite E, IH. ring. }
  transitivity (sumn (2 ^ b) (fun k => mle X (vals C 0) * (eqw X k * gw a be R0 R1 k))%F); [rewrite sumn_scal; ring|].
  apply sumn_ext. intros k Hk. rewrite (Kg k Hk). unfold gate_poly. cbn [g_ty g_u]. rewrite E0, Nat2Z.id. unfold gw, out_weight. ring.
Qed.
Lemma copy_phase2_messages : forall C m p prev r_u o_u a be R0 R1 ru rs Rv,
  complete_circuit C -> 1 < total_depth C -> (forall k, k < total_depth C -> bit_length (layer_at C k) <= m) ->
  let b := bit_length (layer_at C 0) in
  between C m 1 p prev a be R0 R1 ru -> length ru = b -> reps r_u ru -> reps o_u (comp ru) -> reps rs Rv -> length Rv = b ->
  returns (phase2_run p prev r_u o_u rs) (fun st => let '(qs, _, p') := st in
    messages qs b (fun _ _ => 0%F) /\ rep (p_v_u p') (mle ru (vals C 0)) /\ pinv C m p').
Proof.
  intros C m p prev r_u o_u a be R0 R1 ru rs Rv CC Hd Hm b BT Lru Hru Hou Hr Lr.
  destruct (cc_copy C CC Hd) as [Kb Kg]. 
  eapply returns_conseq; [apply (phase2_any C m 1 CC ltac:(lia) Hm p prev r_u o_u a be R0 R1 ru rs Rv BT Lru Hru Hou Hr Lr)|].
  intros [[qs prev'] p'] [HM HB]. split; [|exact HB]. eapply messages_ext; [exact HM|]. intros j t Hj. simpl (1 - 1).
  unfold hyper. apply sumn_zero'. intros x _. cbv zeta.
  assert (Z : forall f Y, (forall g, g < 2 ^ bit_length (layer_at C 1) -> f g = []) -> mle Y (scat (2 ^ bit_length (layer_at C 1)) f) = 0%F).
  { intros f Y H. rewrite <- (mle_zero Y). apply mle_ext. intros y _. unfold scat. apply sumn_zero'. intros g Hg. rewrite (H g Hg). reflexivity. }
  rewrite !Z; [ring| |]; intros g Hg; unfold tM2, tA2; rewrite (Kg g Hg), copy_wires; reflexivity.
Qed.

(** The state right after circuit evaluation and [sumcheck_init]. *)
Lemma init_ready : forall C m row p, complete_circuit C -> evaluate (init_prover C m) = Ok (row, p) -> pinv C m p.
Proof.
  intros C m row p CC E. destruct (evaluate_ok (init_prover C m) (complete_wf C CC)) as ([row' p'] & E' & cv & Es & Rows & _).
  rewrite E in E'. injection E' as <- <-. cbn [snd fst] in *. rewrite Es. apply init_pinv_sizes. exact Rows.
Qed.
Lemma sumcheck_init_ready : forall C m p i lg lu lv al be r0 r1 o0 o1 a b R0 R1, pinv C m p ->
  rep al a -> rep be b -> reps r0 R0 -> reps r1 R1 -> reps o0 (comp R0) -> reps o1 (comp R1) ->
  length R0 = lg -> length R1 = lg ->
  let p' := sumcheck_init p i lg lu lv al be r0 r1 o0 o1 in
  pinv C m p' /\ p_layer p' = i /\ pparams p' lg a b R0 R1 /\ p_length_u p' = lu.
Proof.
  intros C m p i lg lu lv al be r0 r1 o0 o1 a b R0 R1 PI Ra Rb H0 H1 G0 G1 L0 L1 p'.
  split; [destruct PI; constructor; assumption|]. split; [reflexivity|]. split; [|reflexivity].
  constructor; try assumption; reflexivity.
Qed.
