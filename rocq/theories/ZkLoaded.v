(** * Which loaded circuits the zk protocol proves *)
From Coq Require Import ZArith List Bool Arith Lia.
From Verif Require Import Limbs LimbsProofs Field FieldProofs Fp Base Circuit FastProver Lazy TablesProofs FastProverProofs FastVerifier FastVerifierProofs
  Loader SpecLoader LoaderProofs ZkEval ZkEvalProofs LoadedProofs SpecTranscript Transcript ZkProver ZkVerifier ZkPhaseProofs ZkPredProofs
  ZkVerifierProofs SpecZk ZkFacts.
Import ListNotations.
Open Scope nat_scope.

Lemma refers_proto : forall n g, (Z.of_nat n <= 2 ^ 30)%Z -> refers_in n g -> provable g ->
  ((g_ty g = 10 -> g_v g = 0)%Z) -> zproto_gate n g.
Proof.
  intros n [ty u v] H R S T. unfold refers_in, provable, zproto_gate in *. cbn [g_ty g_u g_v In] in *.
  destruct S as [S|[-> S]].
  - destruct S as [<-|[<-|[<-|[<-|[<-|[<-|[<-|[<-|[<-|[<-|[]]]]]]]]]]]; try exact I;
      (destruct R as [R|(A & B & C & D)]; [discriminate R|]);
      try (split; [exact A|apply B; discriminate]).
    + specialize (C eq_refl). lia.
    + split; [exact A|apply T; reflexivity].
    + split; [exact A|apply D; reflexivity].
  - destruct R as [R|(A & B & C & D)]; [discriminate R|]. specialize (B ltac:(discriminate)). lia.
Qed.
Lemma loaded_zcomplete : forall D, desc_ok D -> Forall pow2_size (d_layers D) -> (Z.of_nat (total_depth (denotes D)) < 1000000)%Z ->
  let C := denotes D in
  (forall i g, 2 <= i < total_depth C -> provable (gate_at (layer_at C i) g)) ->
  is_parallel (layer_at C 1) = false -> (forall i, 2 <= i < total_depth C -> zpar_ok (layer_at C i) (layer_at C (i - 1))) ->
  zcomplete_circuit C.
Proof.
  intros D H P Hd C S P1 PP. destruct (loaded_safe D H P) as [A1 A2 A3 A4]. destruct (denotes_depth D H) as [T LC].
  assert (PR : forall i, i <= length (d_layers D) -> pow2_size (file_row D i)).
  { intros i Hi. unfold file_row. rewrite Forall_forall in P. apply P. apply nth_In.
    destruct H as (A & _). destruct (d_layers D); [contradiction|]. cbn [length] in *. lia. }
  assert (LD : 1 <= length (d_layers D)). { destruct H as (A & _). destruct (d_layers D); [contradiction|]. cbn [length]. lia. }
  assert (BL : forall i, i <= length (d_layers D) -> 1 <= bit_length (layer_at C i) <= 30).
  { intros i Hi. destruct (denotes_layer D i H Hi) as [_ B]. unfold C. rewrite B. destruct (rows_sizes D i H Hi) as [S1 S2].
    split; [apply (least_bits_spec _ S1)|apply (least_bits_30 _ S1 S2)]. }
  constructor; try assumption.
  - intros g Hg. specialize (A3 0 ltac:(lia)). destruct (denotes_layer D 0 H ltac:(lia)) as [G B]. unfold gate_at, C. rewrite G in *.
    unfold row_gates in *. cbn [Nat.eqb] in *. change (file_row D 0) with (file_row D 1) in *.
    destruct (file_gate_at (file_row D 1) g) as [(f & E & ->)| ->]; [|right; split; reflexivity].
    pose proof (rows_input_ok D H) as F. rewrite Forall_forall in F. destruct (F f (nth_error_In _ _ E)) as (_ & _ & [K|(K & Ku & _)]).
    + left. unfold file_gate. cbn [g_ty]. exact K.
    + right. unfold file_gate. cbn [g_ty g_u]. split; [exact K|]. rewrite Ku. reflexivity.
  - intros Hd1. split; [|exact P1]. split.
    + destruct (denotes_layer D 0 H ltac:(lia)) as [_ B0]. destruct (denotes_layer D 1 H ltac:(lia)) as [_ B1]. unfold C. rewrite B0, B1. reflexivity.
    + intros g Hg. destruct (denotes_layer D 1 H ltac:(lia)) as [G1 B1]. unfold gate_at, C. rewrite G1. unfold row_gates. cbn [Nat.eqb].
      apply copy_gate_at. unfold C in Hg. rewrite B1 in Hg. rewrite <- full_layer by (apply PR; lia). exact Hg.
  - intros i g Hi Hg. unfold C in *. rewrite T in *. specialize (A3 i ltac:(lia)).
    apply refers_proto; [|apply loaded_refers; [exact H|lia|lia]|apply S; lia|].
    + specialize (BL (i - 1) ltac:(lia)). rewrite pow_Z. apply Z.pow_le_mono_r; lia.
    + destruct (denotes_layer D i H ltac:(lia)) as [G B]. unfold gate_at. rewrite G. unfold row_gates. destruct (Nat.eqb_spec i 1); [lia|].
      destruct (file_gate_at (file_row D i) g) as [(f & E & ->)| ->]; [|discriminate].
      unfold file_gate. cbn [g_ty g_v]. intros ->. reflexivity.
  - intros i Hi. unfold C in *. rewrite T in Hi. specialize (BL i ltac:(lia)). split; [lia|]. lia.
  - specialize (BL 0 ltac:(lia)). lia.
Qed.

(** An accepted run evaluated the circuit. *)
Lemma run_evaluates : forall enc aes fr zr C, run_zk enc aes fr zr C = Ok true -> exists x, zevaluate C = Ok x.
Proof.
  intros enc aes fr zr C H. unfold run_zk, zverify in H. cbv zeta in H.
  destruct (zverify_body _ _ _ _ _ _) as [p| | | | | |] eqn:E; try discriminate. clear H.
  unfold zverify_body, zverify_start in E. cbv zeta in E.
  apply bind_inv' in E. destruct E as (q & E & _).
  apply bind_inv' in E. destruct E as (r & E & _). cbn [zhonest zi_evaluate] in E. unfold zk_evaluate in E.
  change (p_C (z_p (init_zprover C (max_bit_length C)))) with C in E.
  apply bind_inv' in E. destruct E as (x & E & _). exists x. exact E.
Qed.
