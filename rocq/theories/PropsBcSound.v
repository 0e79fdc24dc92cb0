(** * Properties C59-C60: soundness of the block verifier

    verifier_bc_clogc.cpp multiplies its final check of a layer by
    [p -> beta_blk_val], a member of the prover (line 377).  Statements; the
    proofs are in BcScale, BcSound0 and BcSound. *)
From Coq Require Import ZArith List Bool Arith Lia Ring.
From Verif Require Import Limbs Field FieldProofs Fp Base MleSpec SpecGkr GkrMath Poly PolyProofs Circuit
  FastProver FastVerifier Lazy TablesProofs FastProverProofs PhaseProofs FastVerifierProofs RoundProofs
  Count SoundProofs TradProver TradVerifier TradProofs TradPhase TradVerifierProofs TradSound PropsTrad
  BcProver BcVerifier BcPhase0 BcPhase BcVerifierProofs BcMessages BcScale BcSound0 BcSound PropsBc.
Import ListNotations.
Open Scope nat_scope.

(** ** C59 *)
(** A prover that announces [c] times the outputs and scales its messages and
    [beta_blk_val] in the output layer is accepted for all challenges, although
    the verifier's evaluation of the announced outputs is correct. *)
Theorem C59_scaled_outputs_accepted : forall C cf c, bc_circuit C -> 1 < total_depth (block C 0) -> rep cf c ->
  let m := max_bit_length (block C 0) in
  let d := total_depth (block C 0) in let lo := bit_length (layer_at (block C 0) (d - 1)) in
  let p := init_bprover C (block C 0) m in
  trusted_bc_V_res (bc_scaling cf) /\
  (exists row p', bi_evaluate (bc_scaling cf) p = Ok (row, p') /\
    vtab (total_blocks C * 2 ^ lo) row (total_blocks C) lo (fun B x => c * vals (block C B) (d - 1) x)%F) /\
  forall rnd, (forall n, reduced (rnd n)) -> bc_verify (bc_scaling cf) C rnd (init_betas m) p = Ok true.
Proof.
  intros C cf c CC Hd Rc m d lo p. split; [|split].
  - intros s o r ob rb row n nb sz x s' H. cbn [bc_scaling bc_honest bi_V_res] in H. apply bind_inv in H.
    destruct H as (y & E & H). injection H as <- _. exact E.
  - destruct (scaled_evaluate C cf c m CC Rc) as ([row p'] & E & _ & T). exists row, p'. split; [exact E|exact T].
  - intros rnd Hr. exact (scaled_accepted C rnd cf c CC Hd Rc Hr).
Qed.
Print Assumptions C59_scaled_outputs_accepted.
Lemma ex_wrong : (ofZ 2 * vals (block bc_ex 0) 2 0)%F <> vals (block bc_ex 0) 2 0.
Proof.
  set (v := vals (block bc_ex 0) 2 0). intro K.
  assert (Z : v = 0%F).
  { assert (H2 : ofZ 2 = (1 + 1)%F) by (apply F_eq; vm_compute; reflexivity).
    replace v with (ofZ 2 * v - v)%F by (rewrite H2; ring). rewrite K. ring. }
  apply (f_equal fz) in Z. vm_compute in Z. discriminate.
Qed.
Example C59_example : bc_circuit bc_ex /\ 1 < total_depth (block bc_ex 0) /\ rep (fe_of_int 2) (ofZ 2) /\
  (ofZ 2 * vals (block bc_ex 0) 2 0)%F <> vals (block bc_ex 0) 2 0.
Proof.
  split; [exact bc_ex_circuit|]. split; [cbn; lia|]. split; [apply rep_of_int|exact ex_wrong].
Qed.
(** So the verifier as written is not sound: one false statement is accepted
    for all challenges, with an honest evaluation of the announced outputs. *)
Theorem C59_soundness_as_written_refuted : exists C S (I : bprover_if S) s0 row s1 out,
  bc_circuit C /\ trusted_bc_V_res I /\ bi_evaluate I s0 = Ok (row, s1) /\
  let k := total_blocks_binary_length C in let d := total_depth (block C 0) in
  let lo := bit_length (layer_at (block C 0) (d - 1)) in
  vtab (2 ^ k * 2 ^ lo) row (2 ^ k) lo out /\
  (exists B x, B < 2 ^ k /\ x < 2 ^ lo /\ out B x <> vals (block C B) (d - 1) x) /\
  forall rnd, (forall n, reduced (rnd n)) -> bc_verify I C rnd (init_betas (max_bit_length (block C 0))) s0 = Ok true.
Proof.
  destruct C59_example as (CC & Hd & Rc & _).
  destruct (C59_scaled_outputs_accepted bc_ex _ _ CC Hd Rc) as (TV & (row & p' & E & T) & A).
  exists bc_ex, bprover, (bc_scaling (fe_of_int 2)), (init_bprover bc_ex (block bc_ex 0) (max_bit_length (block bc_ex 0))), row, p',
    (fun B x => ofZ 2 * vals (block bc_ex B) 2 x)%F.
  split; [exact CC|]. split; [exact TV|]. split; [exact E|]. split; [exact T|]. split; [|exact A].
  exists 0, 0. split; [cbn; lia|]. split; [cbn; lia|]. exact ex_wrong.
Qed.
Print Assumptions C59_soundness_as_written_refuted.

(** ** C60 *)
(** Whatever the prover does: with the right factor on line 377 and an honest
    evaluation of the announced outputs, a wrong output in any block is accepted
    only for few challenges. *)
Theorem C60_soundness : forall S (I : bprover_if S) factor C m M s0 row s1 out B0,
  let C0 := block C 0 in
  let k := total_blocks_binary_length C in
  btyped I -> trusted_bc_V_res I -> right_factor k factor -> bc_circuit C ->
  (forall j, j < total_depth C0 -> bit_length (layer_at C0 j) <= m) ->
  length (b_g0 B0) = 2 ^ m /\ length (b_g1 B0) = 2 ^ m /\ length (b_u B0) = 2 ^ m /\ length (b_v B0) = 2 ^ m ->
  bi_evaluate I s0 = Ok (row, s1) ->
  let d := total_depth C0 in
  let lo := bit_length (layer_at C0 (d - 1)) in
  vtab M row (2 ^ k) lo out ->
  (exists B x, B < 2 ^ k /\ x < 2 ^ lo /\ out B x <> vals (block C B) (d - 1) x) ->
  few (lo + k + (lo + bc_challenges k C0 (d - 1))) (lo + k + bc_error k C0 (d - 1)) (fun v =>
    bc_verify_with I factor C (stream v) B0 s0 = Ok true).
Proof. exact bc_sound. Qed.
Print Assumptions C60_soundness.
(** The error is a sum over the layers. *)
Theorem C60_error_sum : forall k C n,
  bc_error k C n = fold_right Nat.add 0 (map (fun j => 4 * bit_length (layer_at C j) + 3 * k + 1) (seq 0 n)) /\
  bc_challenges k C n = fold_right Nat.add 0 (map (fun j => 2 * bit_length (layer_at C j) + k + 2) (seq 0 n)).
Proof.
  assert (Snoc : forall f n, fold_right Nat.add 0 (map f (seq 0 (S n))) = f n + fold_right Nat.add 0 (map f (seq 0 n))).
  { intros f n. rewrite seq_S, map_app, fold_right_app. cbn [map fold_right plus].
    generalize (map f (seq 0 n)). intro l. rewrite Nat.add_0_r. induction l as [|x l IH]; cbn [fold_right]; lia. }
  intros k C n. induction n as [|n [IH1 IH2]]; [split; reflexivity|].
  rewrite !Snoc. cbn [bc_error bc_challenges]. rewrite IH1, IH2. split; reflexivity.
Qed.
Print Assumptions C60_error_sum.
(** A factor the verifier can compute from its own challenges, and a repaired
    line 377 that uses it. *)
Definition block_factor (r0 r1 : list fe) : fe :=
  fold_right (fun p acc => fe_mul (fe_add (fe_mul (fst p) (snd p))
      (fe_mul (fe_sub (fe_of_int 1) (fst p)) (fe_sub (fe_of_int 1) (snd p)))) acc) (fe_of_int 1) (combine r0 r1).
Lemma block_factor_ok : forall r0 r1 R0 R1, reps r0 R0 -> reps r1 R1 -> length R0 = length R1 ->
  rep (block_factor r0 r1) (eqpt R0 R1).
Proof.
  intros r0 r1 R0 R1 H. revert r1 R1. induction H as [|x a r R Hx H IH]; intros r1 R1 H1 Ln.
  - destruct R1; [|discriminate]. inversion H1. exact rep_i1.
  - destruct R1 as [|b R1]; [discriminate|]. inversion H1 as [|y ? r1' ? Hy H1']. subst.
    cbn [block_factor combine fold_right fst snd]. unfold eqpt. cbn [combine map fold_right fst snd].
    apply rep_mul; [|apply IH; [exact H1'|injection Ln as Ln; exact Ln]].
    apply rep_add; apply rep_mul; try assumption; apply rep_sub; try assumption; exact rep_i1.
Qed.
Definition bc_verify_repaired {S} (I : bprover_if S) := bc_verify_with I (fun _ => block_factor).
Theorem C60_repaired_sound : forall S (I : bprover_if S) C m M s0 row s1 out B0,
  let C0 := block C 0 in
  let k := total_blocks_binary_length C in
  btyped I -> trusted_bc_V_res I -> bc_circuit C ->
  (forall j, j < total_depth C0 -> bit_length (layer_at C0 j) <= m) ->
  length (b_g0 B0) = 2 ^ m /\ length (b_g1 B0) = 2 ^ m /\ length (b_u B0) = 2 ^ m /\ length (b_v B0) = 2 ^ m ->
  bi_evaluate I s0 = Ok (row, s1) ->
  let d := total_depth C0 in
  let lo := bit_length (layer_at C0 (d - 1)) in
  vtab M row (2 ^ k) lo out ->
  (exists B x, B < 2 ^ k /\ x < 2 ^ lo /\ out B x <> vals (block C B) (d - 1) x) ->
  few (lo + k + (lo + bc_challenges k C0 (d - 1))) (lo + k + bc_error k C0 (d - 1)) (fun v =>
    bc_verify_repaired I C (stream v) B0 s0 = Ok true).
Proof.
  intros S I C m M s0 row s1 out B0 C0 k TI TV CC Hm HB Ee d lo T Wrong.
  apply (bc_sound S I (fun _ => block_factor) C m M s0 row s1 out B0 TI TV); try assumption.
  intros s Rb rb L1 L2. apply block_factor_ok; [apply reps_fes|apply reps_fes|]. rewrite L1, L2. reflexivity.
Qed.
Print Assumptions C60_repaired_sound.
(** The repair still accepts the honest prover. *)
Theorem C60_repaired_complete : forall C rnd, bc_circuit C -> (forall n, reduced (rnd n)) ->
  let m := max_bit_length (block C 0) in
  bc_verify_repaired bc_honest C rnd (init_betas m) (init_bprover C (block C 0) m) = Ok true.
Proof.
  intros C rnd CC Hr. apply bc_complete_with; [|exact CC|exact Hr].
  intros p rb0 rb1 Rb rb H0 H1 L0 L1 _. rewrite eqw_sym_mle by lia. apply block_factor_ok; [exact H0|exact H1|lia].
Qed.
Print Assumptions C60_repaired_complete.
(** In particular some challenges reject a given lie. *)
Theorem C60_some_challenge_rejects : forall S (I : bprover_if S) C m M s0 row s1 out B0,
  let C0 := block C 0 in
  let k := total_blocks_binary_length C in
  btyped I -> trusted_bc_V_res I -> bc_circuit C ->
  (forall j, j < total_depth C0 -> bit_length (layer_at C0 j) <= m) ->
  length (b_g0 B0) = 2 ^ m /\ length (b_g1 B0) = 2 ^ m /\ length (b_u B0) = 2 ^ m /\ length (b_v B0) = 2 ^ m ->
  bi_evaluate I s0 = Ok (row, s1) ->
  let d := total_depth C0 in
  let lo := bit_length (layer_at C0 (d - 1)) in
  vtab M row (2 ^ k) lo out ->
  (exists B x, B < 2 ^ k /\ x < 2 ^ lo /\ out B x <> vals (block C B) (d - 1) x) ->
  (Z.of_nat (lo + k + bc_error k C0 (d - 1)) < P)%Z ->
  exists v, length v = lo + k + (lo + bc_challenges k C0 (d - 1)) /\ bc_verify_repaired I C (stream v) B0 s0 <> Ok true.
Proof.
  intros S I C m M s0 row s1 out B0 C0 k TI TV CC Hm HB Ee d lo T Wrong Hp.
  exact (few_proper _ _ _ (C60_repaired_sound S I C m M s0 row s1 out B0 TI TV CC Hm HB Ee T Wrong) Hp).
Qed.
Print Assumptions C60_some_challenge_rejects.
(** A prover meeting the hypotheses: claims ones and sends zeros. *)
Definition bc_zeros : bprover_if unit := {|
  bi_evaluate := fun s => Ok (repeat (fe_of_int 1) 4, s);
  bi_V_res := fun s o r ob rb row n nb sz => x <- bc_V_res o r ob rb row n nb sz ;; Ok (x, s);
  bi_sumcheck_init := fun s _ _ _ _ _ _ _ _ _ _ _ _ _ => Ok s;
  bi_phase0_init := fun s => Ok s;
  bi_phase0_update := fun s _ _ => Ok (zero_cubic, s);
  bi_phase1_init := fun s _ => Ok s;
  bi_phase1_update := fun s _ _ => Ok (zero_quad, s);
  bi_phase2_init := fun s _ => Ok s;
  bi_phase2_update := fun s _ _ => Ok (zero_quad, s);
  bi_finalize := fun s _ => Ok ((fe_of_int 0, fe_of_int 0), s);
  bi_beta_blk_val := fun _ => fe_of_int 1 |}.
Example C60_example : btyped bc_zeros /\ trusted_bc_V_res bc_zeros /\ bc_circuit bc_ex /\
  vtab (2 ^ 1 * 2 ^ 1) (repeat (fe_of_int 1) 4) (2 ^ 1) 1 (fun _ _ => 1%F) /\ 1%F <> vals (block bc_ex 1) 2 0 /\
  bc_challenges 1 (block bc_ex 0) 2 = 14 /\ 1 + 1 + bc_error 1 (block bc_ex 0) 2 = 26.
Proof.
  assert (R0 : reduced (fe_of_int 0)) by exact (rep_reduced _ _ rep_i0).
  split; [|split; [|split; [exact bc_ex_circuit|split; [|split; [|split; reflexivity]]]]].
  - constructor; cbn [bc_zeros bi_phase0_update bi_phase1_update bi_phase2_update bi_finalize].
    + intros s r j q s' H. injection H as <- _. split; [exact R0|]. split; [exact R0|]. split; exact R0.
    + intros s r j q s' H. injection H as <- _. split; [exact R0|]. split; exact R0.
    + intros s r j q s' H. injection H as <- _. split; [exact R0|]. split; exact R0.
    + intros s r x y s' H. injection H as <- <- _. split; exact R0.
  - intros s o r ob rb row n nb sz x s' H. cbn [bc_zeros bi_V_res] in H. apply bind_inv in H. destruct H as (y & E & H).
    injection H as <- _. exact E.
  - split; [reflexivity|]. split; [cbn; lia|]. intros [|[|[|[|z]]]] Hz; cbn in Hz; try lia;
      exists (fe_of_int 1); split; try reflexivity; exact rep_i1.
  - intro K. assert (K' : fz 1%F = fz (vals (block bc_ex 1) 2 0)) by (rewrite <- K; reflexivity). vm_compute in K'. discriminate.
Qed.
