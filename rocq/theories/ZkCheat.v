(** * A zk prover that passes off any output *)
(** The verifier adds the prover's [maskpoly_sumc] to the running sum
    (zk_verifier.cpp:919) without checking it against the commitment to the
    masking polynomial. A prover that claims a wrong output only has to announce,
    in the first layer, the mask sum minus the error it made. *)
From Coq Require Import ZArith List Bool Arith Lia Ring.
From Verif Require Import Limbs Field Fp Base ArithProofs MleSpec GkrMath Poly PolyProofs Circuit
  FastProver FastVerifier Lazy TablesProofs FastProverProofs PhaseProofs FastVerifierProofs
  SpecTranscript Transcript TranscriptProofs LoaderProofs VpdGroupProofs VpdInputProofs ZkEval ZkEvalProofs
  ZkProver ZkVerifier ZkRoundProofs ZkPredProofs ZkOpenProofs ZkLinkProofs ZkVerifierProofs ZkComplete.
Import ListNotations.
Open Scope nat_scope.

(** Evaluates the circuit, then claims [lie]. *)
Definition lying_evaluate (lie : list fe) (z : zprover) : outcome (list fe * zprover) :=
  ' (_, z') <- zk_evaluate z ;; Ok (lie, z').
(** Answers with the extension of the claimed output, as the honest prover does,
    and keeps the difference to the extension of the true one. *)
Definition lying_V_res (z : zprover) (o r out : list fe) (n m : nat) : outcome (fe * zprover) :=
  x <- zk_V_res o r out n m ;;
  true_out <- rd (p_circuit_value (z_p z)) (total_depth (p_C (z_p z)) - 1) ;;
  y <- zk_V_res o r true_out n m ;;
  Ok (x, set_p z (set_v (z_p z) (fe_sub x y) (p_v_v (z_p z)))).
(** The mask sum, minus that difference for the output layer. *)
Definition lying_sumc (d : nat) (z : zprover) : fe :=
  if p_layer (z_p z) =? d - 1 then fe_sub (m_sumc (z_m z)) (p_v_u (z_p z)) else m_sumc (z_m z).
(** All other answers are those of the honest prover; [d] is the depth of the
    circuit. *)
Definition liar (fr : nat -> u512) (zr : nat -> Z) (d : nat) (lie : list fe) : zprover_if zprover := {|
  zi_evaluate := lying_evaluate lie;
  zi_commit := keygen_and_commit fr zr;
  zi_V_res := lying_V_res;
  zi_sumcheck_init := zk_sumcheck_init fr zr;
  zi_pre_rho := generate_maskpoly_pre_rho fr zr;
  zi_set_rho := set_rho;
  zi_after_rho := generate_maskpoly_after_rho;
  zi_sumc := lying_sumc d;
  zi_phase1_init := zk_phase1_init;
  zi_phase1_update := zk_phase1_update;
  zi_phase1_lastbit := zk_phase1_lastbit;
  zi_phase2_init := zk_phase2_init;
  zi_phase2_update := zk_phase2_update;
  zi_phase2_lastbit := zk_phase2_lastbit;
  zi_finalize := zk_finalize;
  zi_finalround := zk_finalround;
  zi_prove_R := prove_R zr;
  zi_prove_mask := prove_mask zr;
  zi_prove_input := prove_input zr;
  zi_v_u := fun z => p_v_u (z_p z);
  zi_Iuv := fun z => r_Iuv (z_r z); zi_preZu := fun z => r_preZu (z_r z);
  zi_preZv := fun z => r_preZv (z_r z); zi_Zu := fun z => r_Zu (z_r z);
  zi_prepreu1 := fun z => r_prepreu1 (z_r z); zi_preprev1 := fun z => r_preprev1 (z_r z);
  zi_kR := z_kR; zi_kM := z_kM; zi_kI := z_kI |}.


Theorem liar_accepted : forall enc ec1 aes fr zr C lie out, (forall x, length (enc x) = ec1) -> 0 < ec1 -> is_cipher aes ->
  stream_ok fr zr -> zcomplete_circuit C -> 2 <= total_depth C ->
  reps lie out -> length out = 2 ^ bit_length (layer_at C (total_depth C - 1)) ->
  (Z.of_nat (zmessages C * msize ec1 + 512) < 2 ^ 31)%Z ->
  let m := max_bit_length C in let I := liar fr zr (total_depth C) lie in
  (exists z, zi_evaluate I (init_zprover C m) = Ok (lie, z)) /\
  zverify enc (transcript_random aes) I C (init_zbetas m, init_zbetas m) (init_zprover C m) = Ok true.
Proof.
  intros enc ec1 aes fr zr C lie out Henc Hec1 Ha Hst CC Hd Hlie Lout HK m I.
  destruct (zevaluate_ok C (zcomplete_wf C CC)) as ([row cv] & EV & Rw & Ro). cbn [fst snd] in Rw, Ro.
  assert (Hm : forall k, k < total_depth C -> bit_length (layer_at C k) <= m).
  { intros k Hk. apply bit_length_max. rewrite <- (zc_depth C CC). exact Hk. }
  set (z1 := set_p (init_zprover C m) (set_values (z_p (init_zprover C m)) cv)).
  assert (EE : lying_evaluate lie (init_zprover C m) = Ok (lie, z1)).
  { unfold lying_evaluate, zk_evaluate. change (p_C (z_p (init_zprover C m))) with C. rewrite EV. reflexivity. }
  split; [exists z1; exact EE|].
  assert (PI1 : pinv C m (z_p z1)) by (apply init_pinv_sizes, Rw).
  change I with (zlike fr zr (lying_evaluate lie) lying_V_res (lying_sumc (total_depth C))).
  assert (HL : forall z, p_layer (z_p z) <> total_depth C - 1 -> lying_sumc (total_depth C) z = m_sumc (z_m z)).
  { intros z Nz. unfold lying_sumc. destruct (Nat.eqb_spec (p_layer (z_p z)) (total_depth C - 1)); [contradiction|reflexivity]. }
  destruct (zbody_ok enc ec1 Henc Hec1 fr zr Hst (lying_evaluate lie) lying_V_res (lying_sumc (total_depth C)) (transcript_random aes) (zmessages C)
    (transcript_rng ec1 Hec1 aes _ Ha HK) C m CC Hm HL (init_zprover C m) lie z1 (init_zbetas m, init_zbetas m)) as (p & E & Ep).
  - exact EE.
  - exact PI1.
  - reflexivity.
  - apply init_bsizes.
  - intros s o r R P2 Hr Ho LR. pose proof Rw as [_ RW].
    destruct (RW (total_depth C - 1) ltac:(lia)) as (row' & Er & Tr). rewrite Ro in Er. injection Er as <-.
    unfold lying_V_res. rewrite P2. cbn [z1 set_p z_p set_values p_circuit_value p_C init_zprover init_prover].
    set (n := bit_length (layer_at C (total_depth C - 1))) in *.
    rewrite <- LR in Tr, Lout |- *.
    assert (Tl : tab (length lie) lie (2 ^ length R) (fun i => nth i out 0%F)) by (rewrite <- Lout; apply reps_tab; exact Hlie).
    eapply returns_bind; [apply (V_res_ok _ _ _ _ _ _ Hr Ho Tl)|]. intros x Rx. cbv beta in Rx.
    eapply rb_nth; [exact Ro|].
    eapply returns_bind; [apply (V_res_ok _ _ _ _ _ _ Hr Ho Tr)|]. intros y Ry. cbv beta in Ry.
    apply returns_ok. set (X := mle R (fun i => nth i out 0%F)) in *. set (Y := mle R (vals C (total_depth C - 1))) in *.
    exists (X - Y)%F. split; [eapply rep_eq; [exact Rx|ring]|].
    split; [cbn [set_p z_p]; apply pinv_set_v; exact PI1|].
    split; [reflexivity|]. split; [reflexivity|]. split; [reflexivity|]. split; [lia|].
    intros z q Hl Hv Rq. unfold lying_sumc. rewrite Hl, Nat.eqb_refl. apply rep_sub; [exact Rq|]. rewrite Hv.
    cbn [set_p z_p set_v p_v_u]. apply rep_sub; [exact Rx|exact Ry].
  - unfold zmessages, m. lia.
  - lia.
  - unfold zverify. rewrite E, bind_ok, Ep. reflexivity.
Qed.
