(** * Properties C54-C56: the traditional GKR track

    src/traditional_gkr/prover_clogc.cpp and verifier_traditional.cpp, the
    baseline prover Libra is compared with.  Statements; the proofs are in
    TradProofs, TradPhase, TradVerifierProofs and TradSound. *)
From Coq Require Import ZArith List Bool Arith Lia Ring.
From Verif Require Import Limbs Field FieldProofs Fp Base MleSpec SpecGkr GkrMath Poly PolyProofs Circuit
  FastProver FastVerifier Lazy TablesProofs FastProverProofs PhaseProofs FastVerifierProofs RoundProofs
  Count SoundProofs TradProver TradVerifier TradProofs TradPhase TradVerifierProofs TradSound.
Import ListNotations.
Open Scope nat_scope.

(** A circuit for the examples: inputs 5, 7, -1 and a zero gate; a product, a
    sum, a zero gate and a product with a repeated wire; then a sum and a
    product.  There is no copy layer. *)
Definition trad_ex : layered_circuit := Circuit [
  plain_layer [Gate 3 5 0; Gate 3 7 0; Gate 3 (-1) 0; Gate 2 0 0] 2;
  plain_layer [Gate 1 0 1; Gate 0 1 2; Gate 2 0 0; Gate 1 2 2] 2;
  plain_layer [Gate 0 0 1; Gate 1 3 0] 1 ] 3.
Lemma trad_ex_circuit : trad_circuit trad_ex.
Proof.
  constructor; try (cbn; lia).
  - cbn [trad_ex total_depth]. intros [|[|[|i]]] Hi; cbn; lia.
  - intros [|[|[|[|g]]]] Hg; cbn in Hg |- *; auto; lia.
  - cbn [trad_ex total_depth]. intros [|[|i]] Hi; cbn; lia.
  - cbn [trad_ex total_depth]. intros [|[|[|i]]] g Hi Hg; try lia.
    + destruct g as [|[|[|[|g]]]]; cbn in Hg; try lia; unfold trad_gate; cbn; lia.
    + destruct g as [|[|g]]; cbn in Hg; try lia; unfold trad_gate; cbn; lia.
Qed.
Lemma trad_ex_sizes : forall k, k < total_depth trad_ex -> bit_length (layer_at trad_ex k) <= 2.
Proof. cbn [trad_ex total_depth]. intros [|[|[|i]]] Hi; cbn; lia. Qed.

(** ** C54 *)
(** The prover is ready for a layer after [evaluate] and [sumcheck_init]. *)
Theorem C54_ready : forall C m row p i lu lv al be r0 r1 o0 o1 a b R0 R1,
  trad_circuit C -> trad_evaluate (init_tprover C m) = Ok (row, p) ->
  rep al a -> rep be b -> reps r0 R0 -> reps r1 R1 -> reps o0 (comp R0) -> reps o1 (comp R1) ->
  let lg := bit_length (layer_at C i) in length R0 = lg -> length R1 = lg ->
  ready1 C m i a b R0 R1 (trad_sumcheck_init p i lg lu lv al be r0 r1 o0 o1).
Proof.
  intros C m row p i lu lv al be r0 r1 o0 o1 a b R0 R1 CC E Ha Hb H0 H1 K0 K1 lg L0 L1.
  pose proof (trad_ready C m row p CC E) as [A B D E1 F G H I J K].
  split; [|split]; [constructor| |constructor]; try assumption; reflexivity.
Qed.
Print Assumptions C54_ready.
(** Phase 1: round [j]'s message evaluates at [t] to the sum of the layer
    polynomial over the remaining coordinates of [X] and all of [Y]. *)
Theorem C54_phase1 : forall C m i p a be R0 R1 rs ru,
  trad_circuit C -> 0 < i < total_depth C -> (forall k, k < total_depth C -> bit_length (layer_at C k) <= m) ->
  let L := layer_at C i in let b := bit_length (layer_at C (i - 1)) in
  ready1 C m i a be R0 R1 p -> reps rs ru -> length ru = b ->
  returns (trad_phase1_run p rs) (fun st => let '(qs, prev, p') := st in
    messages qs b (fun j t => hyper (b - S j) (fun xs => hyper b (fun Y =>
      layer_poly (2 ^ bit_length L) (gate_at L) (out_weight a be R0 R1) (vals C (i - 1)) (firstn j ru ++ t :: xs) Y))) /\
    tbetween C m i p' prev a be R0 R1 ru).
Proof. intros C m i p a be R0 R1 rs ru CC Hi Hm L b. exact (phase1_collect C m i CC Hi Hm a be R0 R1 p rs ru). Qed.
Print Assumptions C54_phase1.
(** Phase 2: [X] is fixed to the challenges [ru]; afterwards the prover returns
    the values of the previous layer's extension at [ru] and [rv] and is ready
    for the next layer. *)
Theorem C54_phase2 : forall C m i p prev r_u o_u a be R0 R1 ru rs rv,
  trad_circuit C -> 0 < i < total_depth C -> (forall k, k < total_depth C -> bit_length (layer_at C k) <= m) ->
  let L := layer_at C i in let b := bit_length (layer_at C (i - 1)) in
  tbetween C m i p prev a be R0 R1 ru -> length ru = b -> reps rs rv -> length rv = b ->
  returns (trad_phase2_run p prev r_u o_u rs) (fun st => let '(qs, prev', p') := st in
    messages qs b (fun j t => hyper (b - S j) (fun ys =>
      layer_poly (2 ^ bit_length L) (gate_at L) (out_weight a be R0 R1) (vals C (i - 1)) ru (firstn j rv ++ t :: ys))) /\
    returns (trad_finalize p' prev') (fun res =>
      rep (fst (fst res)) (mle ru (vals C (i - 1))) /\ rep (snd (fst res)) (mle rv (vals C (i - 1))) /\
      tinv C m (snd res))).
Proof.
  intros C m i p prev r_u o_u a be R0 R1 ru rs rv CC Hi Hm L b.
  exact (phase2_collect C m i CC Hi Hm a be R0 R1 p prev r_u o_u ru rs rv).
Qed.
Print Assumptions C54_phase2.
Example C54_example : exists row p, trad_evaluate (init_tprover trad_ex 2) = Ok (row, p) /\
  let p' := trad_sumcheck_init p 2 1 2 2 (fe_of_int 1) (fe_of_int 0) [fe_of_int 4] [fe_of_int 9]
     [fe_sub (fe_of_int 1) (fe_of_int 4)] [fe_sub (fe_of_int 1) (fe_of_int 9)] in
  ready1 trad_ex 2 2 1%F 0%F [ofZ 4] [ofZ 9] p' /\ reps [fe_of_int 6; fe_of_int 13] [ofZ 6; ofZ 13].
Proof.
  destruct (trad_evaluate_ok (init_tprover trad_ex 2) trad_ex_circuit) as ([row p] & E & _). exists row, p. split; [exact E|].
  split.
  - apply (C54_ready trad_ex 2 row p 2 2 2 _ _ _ _ _ _ 1%F 0%F [ofZ 4] [ofZ 9] trad_ex_circuit E); try reflexivity.
    + exact rep_i1.
    + exact rep_i0.
    + constructor; [apply rep_of_int|constructor].
    + constructor; [apply rep_of_int|constructor].
    + constructor; [apply rep_sub; [exact rep_i1|apply rep_of_int]|constructor].
    + constructor; [apply rep_sub; [exact rep_i1|apply rep_of_int]|constructor].
  - constructor; [apply rep_of_int|]. constructor; [apply rep_of_int|constructor].
Qed.

(** ** C55 *)
Theorem C55_completeness : forall C rnd, trad_circuit C -> (forall k, reduced (rnd k)) ->
  run_trad C rnd = Ok true.
Proof. exact trad_complete. Qed.
Print Assumptions C55_completeness.
Definition trad_rnd (k : nat) : fe := fe_of_int (Z.of_nat k * Z.of_nat k + 3).
Lemma trad_rnd_reduced : forall k, reduced (trad_rnd k).
Proof. intro k. eapply rep_reduced. apply rep_of_int. Qed.
Example C55_example : trad_circuit trad_ex /\ (forall k, reduced (trad_rnd k)) /\ trad_rnd 1 <> trad_rnd 2.
Proof.
  split; [exact trad_ex_circuit|]. split; [exact trad_rnd_reduced|]. intro K.
  assert (K' : val512 (trad_rnd 1) = val512 (trad_rnd 2)) by (rewrite K; reflexivity). vm_compute in K'. discriminate.
Qed.
(** An input gate of type 2 with a nonzero left operand: the prover's
    [evaluate] stores the operand (prover_clogc.cpp), the verifier's final check
    uses 0, so the honest prover is rejected. *)
Definition trad_zero_input : layered_circuit := Circuit [
  plain_layer [Gate 3 5 0; Gate 2 7 0] 1; plain_layer [Gate 0 0 1] 0 ] 2.
Theorem C55_zero_gate_with_operand_refuted : exists C,
  total_depth C = length (circuit C) /\
  (forall g, g < 2 ^ bit_length (layer_at C 0) ->
     g_ty (gate_at (layer_at C 0) g) = 3%Z \/ g_ty (gate_at (layer_at C 0) g) = 2%Z) /\
  (forall i g, 0 < i < total_depth C -> g < 2 ^ bit_length (layer_at C i) ->
     trad_gate (2 ^ bit_length (layer_at C (i - 1))) (gate_at (layer_at C i) g)) /\
  run_trad C trad_rnd = Ok false.
Proof.
  exists trad_zero_input. split; [reflexivity|]. split; [|split].
  - intros [|[|g]] Hg; cbn in Hg |- *; auto; lia.
  - cbn [trad_zero_input total_depth]. intros [|[|i]] g Hi Hg; try lia.
    destruct g as [|g]; cbn in Hg; try lia; unfold trad_gate; cbn; lia.
  - vm_compute. reflexivity.
Qed.
Print Assumptions C55_zero_gate_with_operand_refuted.

(** ** C56 *)
(** Whatever the prover does: if the claimed output is wrong and the verifier
    evaluates the extension of the claimed output itself, it accepts only for
    few challenges.  [few n k E]: at most [k / P] of the vectors in [F^n]
    satisfy [E]; [stream v] is the verifier's randomness. *)
Theorem C56_soundness : forall S (I : prover_if S) C m s0 row s1 out B0,
  typed I -> trusted_V_res I -> trad_circuit C ->
  (forall k, k < total_depth C -> bit_length (layer_at C k) <= m) ->
  length (b_g0 B0) = 2 ^ m /\ length (b_g1 B0) = 2 ^ m /\ length (b_u B0) = 2 ^ m /\ length (b_v B0) = 2 ^ m ->
  if_evaluate I s0 = Ok (row, s1) ->
  let d := total_depth C in
  let lo := bit_length (layer_at C (d - 1)) in
  tab (2 ^ lo) row (2 ^ lo) out ->
  (exists x, x < 2 ^ lo /\ out x <> vals C (d - 1) x) ->
  few (lo + (lo + trad_challenges C (d - 1))) (lo + trad_error C (d - 1)) (fun v =>
    trad_verify I C (stream v) B0 s0 = Ok true).
Proof. exact trad_sound. Qed.
Print Assumptions C56_soundness.
(** The error is a sum over the layers. *)
Theorem C56_error_sum : forall C n,
  trad_error C n = fold_right Nat.add 0 (map (fun k => 4 * bit_length (layer_at C k) + 1) (seq 0 n)) /\
  trad_challenges C n = fold_right Nat.add 0 (map (fun k => 2 * bit_length (layer_at C k) + 2) (seq 0 n)).
Proof.
  assert (Snoc : forall f n, fold_right Nat.add 0 (map f (seq 0 (S n))) = f n + fold_right Nat.add 0 (map f (seq 0 n))).
  { intros f n. rewrite seq_S, map_app, fold_right_app. cbn [map fold_right plus].
    generalize (map f (seq 0 n)). intro l. rewrite Nat.add_0_r. induction l as [|x l IH]; cbn [fold_right]; lia. }
  intros C n. induction n as [|n [IH1 IH2]]; [split; reflexivity|].
  rewrite !Snoc. cbn [trad_error trad_challenges]. rewrite IH1, IH2. split; reflexivity.
Qed.
Print Assumptions C56_error_sum.
(** In particular there are challenges for which a given lie is rejected. *)
Theorem C56_some_challenge_rejects : forall S (I : prover_if S) C m s0 row s1 out B0,
  typed I -> trusted_V_res I -> trad_circuit C ->
  (forall k, k < total_depth C -> bit_length (layer_at C k) <= m) ->
  length (b_g0 B0) = 2 ^ m /\ length (b_g1 B0) = 2 ^ m /\ length (b_u B0) = 2 ^ m /\ length (b_v B0) = 2 ^ m ->
  if_evaluate I s0 = Ok (row, s1) ->
  let d := total_depth C in
  let lo := bit_length (layer_at C (d - 1)) in
  tab (2 ^ lo) row (2 ^ lo) out ->
  (exists x, x < 2 ^ lo /\ out x <> vals C (d - 1) x) -> (Z.of_nat (lo + trad_error C (d - 1)) < P)%Z ->
  exists v, length v = lo + (lo + trad_challenges C (d - 1)) /\ trad_verify I C (stream v) B0 s0 <> Ok true.
Proof.
  intros S I C m s0 row s1 out B0 TI TV CC Hm HB Ee d lo Trow Wrong Hp.
  exact (few_proper _ _ _ (trad_sound S I C m s0 row s1 out B0 TI TV CC Hm HB Ee Trow Wrong) Hp).
Qed.
Print Assumptions C56_some_challenge_rejects.
(** A prover meeting the hypotheses: claims outputs 1, 1 and sends zeros. *)
Definition trad_zeros : prover_if unit := {|
  if_evaluate := fun s => Ok ([fe_of_int 1; fe_of_int 1], s);
  if_V_res := fun s o r row n k => x <- V_res o r row n k ;; Ok (x, s);
  if_sumcheck_init := fun s _ _ _ _ _ _ _ _ _ _ => Ok s;
  if_phase1_init := fun s => Ok s;
  if_phase1_update := fun s _ _ => Ok (zero_quad, s);
  if_phase2_init := fun s _ _ _ => Ok s;
  if_phase2_update := fun s _ _ => Ok (zero_quad, s);
  if_finalize := fun s _ => Ok ((fe_of_int 0, fe_of_int 0), s);
  if_v_u := fun _ => fe_of_int 0 |}.
Example C56_example : typed trad_zeros /\ trusted_V_res trad_zeros /\
  tab (2 ^ 1) [fe_of_int 1; fe_of_int 1] (2 ^ 1) (fun _ => 1%F) /\ 1%F <> vals trad_ex 2 0 /\
  trad_challenges trad_ex 2 = 12 /\ 1 + trad_error trad_ex 2 = 19.
Proof.
  assert (R0 : reduced (fe_of_int 0)) by exact (rep_reduced _ _ rep_i0).
  split; [|split; [|split; [|split; [|split; reflexivity]]]].
  - constructor; cbn [trad_zeros if_phase1_update if_phase2_update if_finalize if_v_u].
    + intros s r j q s' H. injection H as <- _. split; [exact R0|]. split; exact R0.
    + intros s r j q s' H. injection H as <- _. split; [exact R0|]. split; exact R0.
    + intros s r x y s' H. injection H as <- <- _. split; exact R0.
    + intros. exact R0.
  - intros s o r row n k x s' H. cbn [trad_zeros if_V_res] in H. apply bind_inv in H. destruct H as (y & E & H).
    injection H as <- _. exact E.
  - split; [reflexivity|]. split; [cbn; lia|]. intros [|[|i]] Hi; cbn in Hi; try lia;
      exists (fe_of_int 1); split; try reflexivity; exact rep_i1.
  - intro K. assert (K' : fz 1%F = fz (vals trad_ex 2 0)) by (rewrite <- K; reflexivity). vm_compute in K'. discriminate.
Qed.
(** But the verifier asks the prover for that value ([p -> V_res],
    verifier_traditional.cpp).  A prover that announces any output row it likes
    and answers with the value at the true outputs is always accepted. *)
Definition trad_liar (claim : list fe) : prover_if tprover := {|
  if_evaluate := fun p => ' (_, p') <- trad_evaluate p ;; Ok (claim, p');
  if_V_res := fun p o r _ n k =>
    row <- rd (t_values p) (total_depth (t_C p) - 1) ;; x <- V_res o r row n k ;; Ok (x, p);
  if_sumcheck_init := if_sumcheck_init trad_honest;
  if_phase1_init := trad_phase1_init;
  if_phase1_update := trad_phase1_update;
  if_phase2_init := trad_phase2_init;
  if_phase2_update := trad_phase2_update;
  if_finalize := trad_finalize;
  if_v_u := t_v_u |}.
Theorem C56_any_output_accepted : forall C rnd claim, trad_circuit C -> (forall k, reduced (rnd k)) ->
  let m := max_bit_length C in
  (exists p, if_evaluate (trad_liar claim) (init_tprover C m) = Ok (claim, p)) /\
  trad_verify (trad_liar claim) C rnd (init_betas m) (init_tprover C m) = Ok true.
Proof.
  intros C rnd claim CC Hr m.
  destruct (trad_evaluate_ok (init_tprover C m) CC) as ([row p] & E & cv & Es & _ & Er). cbn [fst snd init_tprover t_C] in Es, Er.
  split; [exists p; cbn [trad_liar if_evaluate]; rewrite E; reflexivity|].
  pose proof (trad_complete C rnd CC Hr) as H. unfold run_trad in H. fold m in H.
  assert (K : trad_verify_body (trad_liar claim) C rnd (init_betas m) (init_tprover C m) =
              trad_verify_body trad_honest C rnd (init_betas m) (init_tprover C m)).
  { unfold trad_verify_body. cbn [if_evaluate trad_liar trad_honest]. rewrite E, !bind_Ok.
    destruct (rd (circuit C) (total_depth C - 1)); try reflexivity. rewrite !bind_Ok. cbv zeta.
    destruct (generate_randomness rnd 0 (bit_length a)) as [r_0 pos]. destruct (generate_randomness rnd pos (bit_length a)) as [r_1 pos'].
    destruct (one_minus r_0 (bit_length a)) as [o_0| | | | | |]; try reflexivity. rewrite !bind_Ok.
    destruct (one_minus r_1 (bit_length a)) as [o_1| | | | | |]; try reflexivity. rewrite !bind_Ok.
    cbn [if_V_res trad_liar trad_honest].
    assert (Erow : rd (t_values p) (total_depth (t_C p) - 1) = Ok row).
    { rewrite Es. cbn [t_set_values t_values t_C init_tprover]. unfold rd. rewrite Er. reflexivity. }
    rewrite Erow, bind_Ok. reflexivity. }
  unfold trad_verify in *. rewrite K. exact H.
Qed.
Print Assumptions C56_any_output_accepted.
Theorem C56_soundness_without_trust_refuted : exists C S (I : prover_if S) s0 row s1 out,
  trad_circuit C /\ if_evaluate I s0 = Ok (row, s1) /\
  let n := 2 ^ bit_length (layer_at C (total_depth C - 1)) in
  tab n row n out /\ (exists x, x < n /\ out x <> vals C (total_depth C - 1) x) /\
  forall rnd, (forall k, reduced (rnd k)) -> trad_verify I C rnd (init_betas (max_bit_length C)) s0 = Ok true.
Proof.
  set (claim := [fe_of_int 1; fe_of_int 1]).
  destruct (C56_any_output_accepted trad_ex trad_rnd claim trad_ex_circuit trad_rnd_reduced) as ((p & E) & _).
  exists trad_ex, tprover, (trad_liar claim), (init_tprover trad_ex (max_bit_length trad_ex)), claim, p, (fun _ => 1%F).
  destruct C56_example as (_ & _ & T & N & _).
  split; [exact trad_ex_circuit|]. split; [exact E|]. split; [exact T|]. split.
  - exists 0. split; [cbn; lia|]. exact N.
  - intros rnd Hr. apply (C56_any_output_accepted trad_ex rnd claim trad_ex_circuit Hr).
Qed.
Print Assumptions C56_soundness_without_trust_refuted.
