(** * Properties C57-C58: the block (data-parallel) track

    src/traditional_gkr/prover_bc_clogc.cpp and verifier_bc_clogc.cpp: [2^k]
    blocks with the same gates and separate inputs, proved together.
    Statements; the proofs are in BcPhase0, BcPhase, BcMessages and
    BcVerifierProofs. *)
From Coq Require Import ZArith List Bool Arith Lia Ring.
From Verif Require Import Limbs Field FieldProofs Fp Base MleSpec SpecGkr GkrMath Poly PolyProofs Circuit
  FastProver FastVerifier Lazy TablesProofs FastProverProofs PhaseProofs FastVerifierProofs RoundProofs
  Count SoundProofs TradProver TradVerifier TradProofs TradPhase TradVerifierProofs PropsTrad
  BcProver BcVerifier BcPhase0 BcPhase BcVerifierProofs BcMessages.
Import ListNotations.
Open Scope nat_scope.

(** Two blocks with the gates of [trad_ex]; the second has other inputs. *)
Definition bc_ex_second : layered_circuit := Circuit [
  plain_layer [Gate 3 11 0; Gate 3 (-4) 0; Gate 2 6 0; Gate 3 9 0] 2;
  plain_layer [Gate 1 0 1; Gate 0 1 2; Gate 2 0 0; Gate 1 2 2] 2;
  plain_layer [Gate 0 0 1; Gate 1 3 0] 1 ] 3.
Definition bc_ex : blocked_circuit := Blocked [trad_ex; bc_ex_second] 2 1.
Lemma bc_ex_circuit : bc_circuit bc_ex.
Proof.
  constructor.
  - reflexivity.
  - reflexivity.
  - cbn; lia.
  - cbn; lia.
  - intros [|[|B]] HB; cbn in HB; try lia; split; reflexivity.
  - intros [|[|B]] [|[|[|i]]] HB Hi; cbn in HB, Hi; try lia; reflexivity.
  - intros [|[|B]] HB; cbn in HB; try lia; reflexivity.
  - intros [|[|B]] [|[|[|i]]] HB Hi; cbn in HB, Hi; try lia; cbn; lia.
  - intros [|[|B]] [|[|[|[|g]]]] HB Hg; cbn in HB, Hg; try lia; cbn; auto.
  - intros [|[|i]] Hi; cbn in Hi |- *; lia.
  - intros [|[|[|i]]] g Hi Hg; cbn in Hi; try lia.
    + destruct g as [|[|[|[|g]]]]; cbn in Hg; try lia; unfold bc_gate; cbn; lia.
    + destruct g as [|[|g]]; cbn in Hg; try lia; unfold bc_gate; cbn; lia.
Qed.
(** Copies of one circuit, as the loader builds them. *)
Lemma copies_ex_circuit : bc_circuit (copies trad_ex 2 1).
Proof.
  constructor.
  - reflexivity.
  - reflexivity.
  - cbn; lia.
  - cbn; lia.
  - intros [|[|B]] HB; cbn in HB; try lia; split; reflexivity.
  - intros [|[|B]] [|[|[|i]]] HB Hi; cbn in HB, Hi; try lia; reflexivity.
  - intros [|[|B]] HB; cbn in HB; try lia; reflexivity.
  - intros [|[|B]] [|[|[|i]]] HB Hi; cbn in HB, Hi; try lia; cbn; lia.
  - intros [|[|B]] [|[|[|[|g]]]] HB Hg; cbn in HB, Hg; try lia; cbn; auto.
  - intros [|[|i]] Hi; cbn in Hi |- *; lia.
  - intros [|[|[|i]]] g Hi Hg; cbn in Hi; try lia.
    + destruct g as [|[|[|[|g]]]]; cbn in Hg; try lia; unfold bc_gate; cbn; lia.
    + destruct g as [|[|g]]; cbn in Hg; try lia; unfold bc_gate; cbn; lia.
Qed.

(** ** C57 *)
(** The prover is ready for a layer after [evaluate] and [sumcheck_init]. *)
Theorem C57_ready : forall C m row p i lv al be rb r0 r1 ob o0 o1 a b Rb R0 R1,
  bc_circuit C -> bc_evaluate (init_bprover C (block C 0) m) = Ok (row, p) ->
  rep al a -> rep be b -> reps rb Rb -> reps r0 R0 -> reps r1 R1 ->
  reps ob (comp Rb) -> reps o0 (comp R0) -> reps o1 (comp R1) ->
  let lg := bit_length (layer_at (block C 0) i) in
  let k := total_blocks_binary_length C in
  length Rb = k -> length R0 = lg -> length R1 = lg ->
  b_ready C m i a b Rb R0 R1
    (bc_sumcheck_init p i k lg (bit_length (layer_at (block C 0) (i - 1))) lv al be rb r0 r1 ob o0 o1).
Proof.
  intros C m row p i lv al be rb r0 r1 ob o0 o1 a b Rb R0 R1 CC E Ha Hb Hrb H0 H1 Kb K0 K1 lg k Lb L0 L1.
  destruct (bc_evaluate_ok C CC (init_bprover C (block C 0) m) eq_refl) as (x & E' & cv & E0 & Rows & _).
  rewrite E in E'. injection E' as <-. cbn [snd] in E0. subst p.
  destruct (init_binv C m cv Rows) as [? ? ? [] ? ? ?].
  split; constructor; try assumption; try reflexivity; constructor; try assumption; reflexivity.
Qed.
Print Assumptions C57_ready.
(** Phase 0: round [j]'s cubic evaluates at [t] to the sum of the block
    polynomial over the remaining block coordinates. *)
Theorem C57_phase0 : forall C m i a be Rb R0 R1 p rs rb,
  bc_circuit C -> 0 < i < total_depth (block C 0) ->
  (forall j, j < total_depth (block C 0) -> bit_length (layer_at (block C 0) j) <= m) ->
  let k := total_blocks_binary_length C in let L := layer_at (block C 0) i in
  b_ready C m i a be Rb R0 R1 p -> reps rs rb -> length rb = k ->
  returns (bc_phase0_run p rs) (fun st => let '(qs, prev, p') := st in
    says cubic_eval qs k (fun j t => hyper (k - S j) (fun bs =>
      block_poly (2 ^ bit_length L) (gate_at L) (out_weight a be R0 R1) Rb
        (fun B => vals (block C B) (i - 1)) (firstn j rb ++ t :: bs))) /\
    during0 C m i a be Rb R0 R1 p' rb /\ rep prev (last rb 0%F)).
Proof. intros C m i a be Rb R0 R1 p rs rb CC Hi Hm k L. exact (phase0_messages C m i CC Hi Hm a be Rb R0 R1 p rs rb). Qed.
Print Assumptions C57_phase0.
(** Phase 1: with the block coordinates fixed to [rb], [eqpt Rb rb] times the
    sums of the layer polynomial over the extension of the previous layer. *)
Theorem C57_phase1 : forall C m i a be Rb R0 R1 rb p prev rs ru,
  bc_circuit C -> 0 < i < total_depth (block C 0) ->
  (forall j, j < total_depth (block C 0) -> bit_length (layer_at (block C 0) j) <= m) ->
  let k := total_blocks_binary_length C in let L := layer_at (block C 0) i in
  let b := bit_length (layer_at (block C 0) (i - 1)) in
  let V := fun x => mle rb (fun B => vals (block C B) (i - 1) x) in
  length rb = k -> length Rb = k -> during0 C m i a be Rb R0 R1 p rb -> rep prev (last rb 0%F) ->
  reps rs ru -> length ru = b ->
  returns (bc_phase1_run p prev rs) (fun st => let '(qs, prev', p') := st in
    says quadratic_eval qs b (fun j t => eqpt Rb rb * hyper (b - S j) (fun xs => hyper b (fun Y =>
      layer_poly (2 ^ bit_length L) (gate_at L) (out_weight a be R0 R1) V (firstn j ru ++ t :: xs) Y)))%F /\
    b_between C m i a be Rb R0 R1 rb p' prev' ru).
Proof.
  intros C m i a be Rb R0 R1 rb p prev rs ru CC Hi Hm k L b V Lrb.
  exact (phase1_messages C m i CC Hi Hm a be Rb R0 R1 rb Lrb p prev rs ru).
Qed.
Print Assumptions C57_phase1.
(** Phase 2, and the values returned at the end. *)
Theorem C57_phase2 : forall C m i a be Rb R0 R1 rb p prev ru rs rv,
  bc_circuit C -> 0 < i < total_depth (block C 0) ->
  (forall j, j < total_depth (block C 0) -> bit_length (layer_at (block C 0) j) <= m) ->
  let k := total_blocks_binary_length C in let L := layer_at (block C 0) i in
  let b := bit_length (layer_at (block C 0) (i - 1)) in
  let V := fun x => mle rb (fun B => vals (block C B) (i - 1) x) in
  length rb = k -> length Rb = k -> b_between C m i a be Rb R0 R1 rb p prev ru -> length ru = b ->
  reps rs rv -> length rv = b ->
  returns (bc_phase2_run p prev rs) (fun st => let '(qs, prev', p') := st in
    says quadratic_eval qs b (fun j t => eqpt Rb rb * hyper (b - S j) (fun ys =>
      layer_poly (2 ^ bit_length L) (gate_at L) (out_weight a be R0 R1) V ru (firstn j rv ++ t :: ys)))%F /\
    returns (bc_finalize p' prev') (fun res =>
      rep (fst (fst res)) (mle ru V) /\ rep (snd (fst res)) (mle rv V) /\
      rep (b_blk (snd res)) (eqpt Rb rb) /\ binv C m (snd res))).
Proof.
  intros C m i a be Rb R0 R1 rb p prev ru rs rv CC Hi Hm k L b V Lrb.
  exact (phase2_messages C m i CC Hi Hm a be Rb R0 R1 rb Lrb p prev ru rs rv).
Qed.
Print Assumptions C57_phase2.
Example C57_example : exists row p, bc_evaluate (init_bprover bc_ex (block bc_ex 0) 2) = Ok (row, p) /\
  let p' := bc_sumcheck_init p 2 1 1 2 2 (fe_of_int 1) (fe_of_int 0) [fe_of_int 8] [fe_of_int 4] [fe_of_int 9]
     [fe_sub (fe_of_int 1) (fe_of_int 8)] [fe_sub (fe_of_int 1) (fe_of_int 4)] [fe_sub (fe_of_int 1) (fe_of_int 9)] in
  b_ready bc_ex 2 2 1%F 0%F [ofZ 8] [ofZ 4] [ofZ 9] p' /\ reps [fe_of_int 6] [ofZ 6] /\ reps [fe_of_int 5; fe_of_int 2] [ofZ 5; ofZ 2].
Proof.
  destruct (bc_evaluate_ok bc_ex bc_ex_circuit (init_bprover bc_ex (block bc_ex 0) 2) eq_refl) as ([row p] & E & _).
  exists row, p. split; [exact E|]. split.
  - apply (C57_ready bc_ex 2 row p 2 2 _ _ _ _ _ _ _ _ 1%F 0%F [ofZ 8] [ofZ 4] [ofZ 9] bc_ex_circuit E); try reflexivity.
    + exact rep_i1.
    + exact rep_i0.
    + constructor; [apply rep_of_int|constructor].
    + constructor; [apply rep_of_int|constructor].
    + constructor; [apply rep_of_int|constructor].
    + constructor; [apply rep_sub; [exact rep_i1|apply rep_of_int]|constructor].
    + constructor; [apply rep_sub; [exact rep_i1|apply rep_of_int]|constructor].
    + constructor; [apply rep_sub; [exact rep_i1|apply rep_of_int]|constructor].
  - split; [constructor; [apply rep_of_int|constructor]|].
    constructor; [apply rep_of_int|]. constructor; [apply rep_of_int|constructor].
Qed.

(** ** C58 *)
Theorem C58_completeness : forall C rnd, bc_circuit C -> (forall k, reduced (rnd k)) -> run_bc C rnd = Ok true.
Proof. exact bc_complete. Qed.
Print Assumptions C58_completeness.
Example C58_example : bc_circuit bc_ex /\ bc_circuit (copies trad_ex 2 1) /\ (forall k, reduced (trad_rnd k)).
Proof. split; [exact bc_ex_circuit|]. split; [exact copies_ex_circuit|exact trad_rnd_reduced]. Qed.
(** With one block ([k = 0]) phase 0 has no rounds, and the next phase reads
    outside its tables: the run is undefined although the circuit is one the
    traditional verifier accepts. *)
Theorem C58_one_block_refuted : exists C, trad_circuit C /\
  (forall i g, 0 < i < total_depth C -> g < 2 ^ bit_length (layer_at C i) ->
     bc_gate (2 ^ bit_length (layer_at C (i - 1))) (gate_at (layer_at C i) g)) /\
  run_trad C trad_rnd = Ok true /\ run_bc (copies C 1 0) trad_rnd = UB.
Proof.
  exists trad_ex. split; [exact trad_ex_circuit|]. split; [|split].
  - apply (bcc_wires _ copies_ex_circuit).
  - apply trad_complete; [exact trad_ex_circuit|exact trad_rnd_reduced].
  - vm_compute. reflexivity.
Qed.
Print Assumptions C58_one_block_refuted.
(** A zero gate (type 2) whose unused wires are out of range: the traditional
    prover ignores them, the block prover reads them. *)
Definition bc_wild : layered_circuit := Circuit [
  plain_layer [Gate 3 5 0; Gate 3 7 0] 1; plain_layer [Gate 2 9 0] 0 ] 2.
Theorem C58_unused_wire_refuted : exists C, trad_circuit C /\
  run_trad C trad_rnd = Ok true /\ run_bc (copies C 2 1) trad_rnd = UB.
Proof.
  assert (CC : trad_circuit bc_wild).
  { constructor; try (cbn; lia).
    - cbn [bc_wild total_depth]. intros [|[|i]] Hi; cbn; lia.
    - intros [|[|g]] Hg; cbn in Hg |- *; auto; lia.
    - cbn [bc_wild total_depth]. intros [|i] Hi; cbn; lia.
    - cbn [bc_wild total_depth]. intros [|[|i]] g Hi Hg; try lia.
      destruct g as [|g]; cbn in Hg; try lia; unfold trad_gate; cbn; lia. }
  exists bc_wild. split; [exact CC|]. split; [|vm_compute; reflexivity].
  apply trad_complete; [exact CC|exact trad_rnd_reduced].
Qed.
Print Assumptions C58_unused_wire_refuted.
