(** * The loader and the verifier of the multi-threaded track: C69, C70 *)
From Coq Require Import ZArith List Bool Arith Lia Permutation.
From Verif Require Import Limbs Field FieldProofs Fp Base Circuit SpecGkr Conc ParaProver Loader SpecLoader FastLoader SpecFastLoader FastLoaderProofs FastLoadedProofs
  FastProver Lazy FastProverProofs FastVerifier TablesProofs PhaseProofs GkrMath Count SoundProofs TradProver TradVerifier TradPhase TradVerifierProofs TradSound
  TradLoader SpecTradLoader TradLoaderProofs TradLoadedProofs ParaVerifier SpecParaLoader ParaLoaderProofs ParaVerifierProofs PropsTrad PropsTradLoader.
Import ListNotations.
Open Scope nat_scope.

(** ** C69 *)
(** Exactly which files load, as which circuit and with which gate lists. *)
Theorem C69_loader_iff : forall t C ms mx, pread_circuit t = Ok (C, ms, mx) <->
  exists L r, t = fcircuit_tokens L ++ r /\ tfile_ok L /\ (Z.of_nat (length L) + 10 < 2 ^ 31)%Z /\ tdenotes L C /\
    ms = map (fun l => (by_left l, by_right l)) L /\ mx = Z.of_nat (fmax_bits L).
Proof. exact pread_circuit_iff. Qed.
Print Assumptions C69_loader_iff.
(** The circuit is that of the traditional loader. *)
Theorem C69_same_circuit : forall t C ms mx, pread_circuit t = Ok (C, ms, mx) -> tread_circuit t = Ok (C, mx).
Proof.
  intros t C ms mx H. apply pread_circuit_iff in H. destruct H as (L & r & E & F & _ & D & _ & M). apply tread_circuit_iff. exists L, r. auto.
Qed.
Print Assumptions C69_same_circuit.
(** [u_gates\[k\]] and [v_gates\[k\]] list the gates with left (right) wire [k], each once. *)
Theorem C69_gate_lists : forall t C ms mx i k us vs, pread_circuit t = Ok (C, ms, mx) -> nth_error ms i = Some (us, vs) ->
  Permutation (lookup us (Z.of_nat k)) (u_gates (gates (layer_at C i)) k) /\
  Permutation (lookup vs (Z.of_nat k)) (v_gates (gates (layer_at C i)) k).
Proof.
  intros t C ms mx i k us vs H E. apply pread_circuit_iff in H. destruct H as (L & r & _ & (_ & F & _) & _ & (ys & F2 & ->) & -> & _).
  rewrite nth_error_map in E. destruct (nth_error L i) as [l|] eqn:EL; [|discriminate]. injection E as <- <-.
  assert (G : exists gs, tplaced l gs /\ nth_error ys i = Some (plain_layer gs (last_bits l))).
  { clear F. revert i EL. induction F2 as [|x y L ys (gs & PL & ->) F2 IH]; intros [|i] EL; try discriminate.
    - injection EL as ->. exists gs. auto.
    - apply (IH i EL). }
  destruct G as (gs & PL & EY). unfold layer_at. cbn [circuit]. rewrite (nth_error_nth _ _ _ EY). cbn [plain_layer gates].
  rewrite Forall_forall in F. pose proof (F l (nth_error_In _ _ EL)) as Fl.
  split; [apply left_lists|apply right_lists]; assumption.
Qed.
Print Assumptions C69_gate_lists.
(** For a file in order the lists are those the model of the prover (C61-C64) works with. *)
Theorem C69_in_order : forall L r, L <> [] ->
  Forall (fun x => 1 <= length x /\ (Z.of_nat (length x) <= 2 ^ 30)%Z /\ Forall int_gate x) L -> (Z.of_nat (length L) + 10 < 2 ^ 31)%Z ->
  exists ms, pread_circuit (fcircuit_tokens (in_order L) ++ r) = Ok (trad_file_circuit L, ms, Z.of_nat (fast_bits L)) /\
    forall i us vs k, nth_error ms i = Some (us, vs) ->
      lookup us (Z.of_nat k) = u_gates (gates (layer_at (trad_file_circuit L) i)) k /\
      lookup vs (Z.of_nat k) = v_gates (gates (layer_at (trad_file_circuit L) i)) k.
Proof.
  intros L r NE F H. exists (map both (in_order L)). split.
  - apply pread_circuit_iff. exists (in_order L), r. split; [reflexivity|].
    assert (LN : length (in_order L) = length L) by (unfold in_order; apply map_length).
    rewrite Forall_forall in F. split; [|split; [rewrite LN; exact H|split; [|split; [reflexivity|]]]].
    + split; [destruct L; [contradiction|discriminate]|]. split; [|rewrite LN; lia].
      apply Forall_forall. intros y I. apply in_map_iff in I. destruct I as (x & <- & I). destruct (F x I) as (H1 & H2 & D).
      unfold tlayer_ok. rewrite numbered_length, numbered_fst, numbered_last by exact H1.
      split; [exact H1|]. split; [lia|]. split; [apply Permutation_refl|]. split; [lia|].
      apply Forall_forall. intros [k f] J. apply numbered_in in J. rewrite Forall_forall in D. exact (D f (nth_error_In _ _ J)).
    + exists (map trad_file_layer L). split; [|rewrite LN; reflexivity].
      clear NE H LN. induction L as [|x L IH]; cbn [map in_order]; constructor; [|apply IH; intros y I; apply F; right; exact I].
      exists (trad_gates x). split; [apply numbered_tplaced|]. rewrite numbered_bits by (apply (F x (or_introl eq_refl))). reflexivity.
    + f_equal. unfold fast_bits, fmax_bits, in_order. rewrite map_map. f_equal. apply map_ext_in. intros x I. symmetry. apply numbered_bits, (F x I).
  - intros i us vs k E. rewrite nth_error_map in E. unfold in_order in E. rewrite nth_error_map in E.
    destruct (nth_error L i) as [l|] eqn:EL; [|discriminate]. injection E as <- <-.
    rewrite trad_layer_at by (apply nth_error_Some; congruence). rewrite (nth_error_nth _ _ _ EL).
    cbn [trad_file_layer plain_layer gates]. split; [apply numbered_left|apply numbered_right].
Qed.
Print Assumptions C69_in_order.
Example C69_example : Forall (fun x => 1 <= length x /\ (Z.of_nat (length x) <= 2 ^ 30)%Z /\ Forall int_gate x) ex_trad_file /\
  exists C ms mx us vs, pread_circuit (fcircuit_tokens (in_order ex_trad_file)) = Ok (C, ms, mx) /\ nth_error ms 2 = Some (us, vs) /\
    lookup us 0 = [(1, 0%nat, 1); (2, 1%nat, 0)]%Z /\ lookup vs 1 = [(1, 0%nat, 0)]%Z.
Proof.
  split; [exact (tf_tokens true _ _ ex_trad_file_ok)|]. eexists _, _, _, _, _. split; [vm_compute; reflexivity|].
  split; [reflexivity|]. split; reflexivity.
Qed.
(** The order of the lines is the order of the lists: for a file out of order they differ from those of the circuit. *)
Theorem C69_order_refuted : exists t C ms mx us vs, pread_circuit t = Ok (C, ms, mx) /\ nth_error ms 1 = Some (us, vs) /\
  lookup us 0 <> u_gates (gates (layer_at C 1)) 0.
Proof.
  exists [2; 2; 3;0;3;0; 3;1;4;0; 2; 1;1;0;1; 0;0;0;1]%Z. eexists _, _, _, _, _. split; [vm_compute; reflexivity|].
  split; [reflexivity|]. vm_compute. discriminate.
Qed.
Print Assumptions C69_order_refuted.

(** ** C70 *)
Definition inputs_only (C : layered_circuit) : Prop := forall g, g < 2 ^ bit_length (layer_at C 0) -> g_ty (gate_at (layer_at C 0) g) = 3%Z.
Lemma inputs_spec : forall C, inputs_only C -> forall L0, nth_error (circuit C) 0 = Some L0 ->
  forall g gt, g < 2 ^ bit_length L0 -> nth_error (gates L0) g = Some gt -> g_ty gt = 3%Z.
Proof.
  intros C H L0 E g gt Hg Eg. assert (EL : layer_at C 0 = L0) by (unfold layer_at; apply (nth_error_nth _ _ _ E)).
  specialize (H g). rewrite EL in H. specialize (H Hg). unfold gate_at in H. rewrite (nth_error_nth _ _ _ Eg) in H. exact H.
Qed.
(** Where all gates of the input layer are inputs this is the traditional verifier, for every prover. *)
Theorem C70_same_verdict : forall S (I : prover_if S) C rnd B0 s0, inputs_only C ->
  para_verify I Ok C rnd B0 s0 = trad_verify I C rnd B0 s0.
Proof.
  intros S I C rnd B0 s0 H. rewrite (para_is_trad S I Ok C rnd B0 s0 (inputs_spec C H)). apply with_init_none.
Qed.
Print Assumptions C70_same_verdict.
(** So honest runs are accepted, ... *)
Theorem C70_completeness : forall C rnd, trad_circuit C -> inputs_only C -> (forall k, reduced (rnd k)) ->
  para_verify trad_honest Ok C rnd (init_betas (max_bit_length C)) (init_tprover C (max_bit_length C)) = Ok true.
Proof. intros C rnd CC H R. rewrite C70_same_verdict by exact H. exact (trad_complete C rnd CC R). Qed.
Print Assumptions C70_completeness.
(** ... and for every prover, with its threads as they may be, a wrong output passes for few challenges only, if [V_res] can be trusted. *)
Theorem C70_soundness : forall S (I : prover_if S) init C m s0 row s1 out B0,
  typed I -> trusted_V_res I -> trad_circuit C -> inputs_only C ->
  (forall k, k < total_depth C -> bit_length (layer_at C k) <= m) ->
  length (b_g0 B0) = 2 ^ m /\ length (b_g1 B0) = 2 ^ m /\ length (b_u B0) = 2 ^ m /\ length (b_v B0) = 2 ^ m ->
  if_evaluate I s0 = Ok (row, s1) ->
  let d := total_depth C in
  let lo := bit_length (layer_at C (d - 1)) in
  tab (2 ^ lo) row (2 ^ lo) out ->
  (exists x, x < 2 ^ lo /\ out x <> vals C (d - 1) x) ->
  few (lo + (lo + trad_challenges C (d - 1))) (lo + trad_error C (d - 1)) (fun v =>
    para_verify I init C (stream v) B0 s0 = Ok true).
Proof.
  intros S I init C m s0 row s1 out B0 TI TV CC IO Hm HB Ee d lo T W.
  pose proof (trad_sound S (with_init I init) C m s0 row s1 out B0 (with_init_typed S I init TI) (with_init_trusted S I init TV) CC Hm HB Ee T W) as K.
  eapply few_weaken; [exact K|apply le_n|]. intros v _ E. cbv beta in *. rewrite <- E. symmetry. apply para_is_trad, inputs_spec, IO.
Qed.
Print Assumptions C70_soundness.
(** As written [V_res] is the prover's: any claimed output is accepted. *)
Theorem C70_any_output_accepted : forall C rnd claim, trad_circuit C -> inputs_only C -> (forall k, reduced (rnd k)) ->
  let m := max_bit_length C in
  (exists p, if_evaluate (trad_liar claim) (init_tprover C m) = Ok (claim, p)) /\
  para_verify (trad_liar claim) Ok C rnd (init_betas m) (init_tprover C m) = Ok true.
Proof.
  intros C rnd claim CC H R m. rewrite C70_same_verdict by exact H. exact (C56_any_output_accepted C rnd claim CC R).
Qed.
Print Assumptions C70_any_output_accepted.
(** Any other gate in the input layer: nothing is ever accepted, whatever the prover does. *)
Theorem C70_other_inputs_never : forall S (I : prover_if S) init C rnd B0 s0, trad_circuit C -> ~ inputs_only C ->
  para_verify I init C rnd B0 s0 <> Ok true.
Proof.
  intros S I init C rnd B0 s0 CC N H. apply N. intros g Hg.
  assert (D0 : 0 < length (circuit C)) by (pose proof (tc_depth C CC); pose proof (tc_pos C CC); lia).
  destruct (nth_error (circuit C) 0) as [L0|] eqn:E0; [|apply nth_error_None in E0; lia].
  assert (EL : layer_at C 0 = L0) by (unfold layer_at; apply (nth_error_nth _ _ _ E0)).
  pose proof (tc_gates C CC 0 (tc_pos C CC)) as TG. rewrite EL in *.
  destruct (nth_error (gates L0) g) as [gt|] eqn:Eg; [|apply nth_error_None in Eg; lia].
  unfold gate_at. rewrite (nth_error_nth _ _ _ Eg). destruct (Z.eq_dec (g_ty gt) 3) as [E|E]; [exact E|].
  exfalso. exact (para_never S I init C rnd B0 s0 L0 g gt E0 Hg Eg E H).
Qed.
Print Assumptions C70_other_inputs_never.
(** In particular a file with one input, beside which the loader itself puts a gate of type 2. *)
Theorem C70_one_input_never : forall f L r, trad_file false ([f] :: L) -> length ([f] :: L) <= 1000 ->
  exists C ms mx, pread_circuit (fcircuit_tokens (in_order ([f] :: L)) ++ r) = Ok (C, ms, mx) /\
    (forall rnd, (forall k, reduced (rnd k)) -> run_trad C rnd = Ok true) /\
    forall S (I : prover_if S) init rnd B0 s0, para_verify I init C rnd B0 s0 <> Ok true.
Proof.
  intros f L r T H. destruct (C69_in_order ([f] :: L) r ltac:(discriminate) (tf_tokens false _ _ T) ltac:(lia)) as (ms & E & _).
  exists (trad_file_circuit ([f] :: L)), ms, (Z.of_nat (fast_bits ([f] :: L))). split; [exact E|].
  pose proof (tf_trad false _ _ T H) as CC. split; [intros rnd R; exact (trad_complete _ rnd CC R)|].
  intros S I init rnd B0 s0. apply C70_other_inputs_never; [exact CC|]. intro IO. specialize (IO 1).
  cbn in IO. assert (K : (2 = 3)%Z) by (apply IO; lia). discriminate.
Qed.
Print Assumptions C70_one_input_never.
Definition para_ex : layered_circuit := trad_file_circuit [[FGate 3 3 0; FGate 3 4 0]; [FGate 0 0 1; FGate 1 0 1]]%Z.
Example C70_example : trad_circuit para_ex /\ inputs_only para_ex /\ typed trad_zeros /\ trusted_V_res trad_zeros /\
  tab (2 ^ 1) [fe_of_int 1; fe_of_int 1] (2 ^ 1) (fun _ => 1%F) /\ 1%F <> vals para_ex 1 0 /\
  trad_circuit trad_ex /\ ~ inputs_only trad_ex /\ trad_file false [[FGate 3 7 0]; [FGate 0 0 1]]%Z.
Proof.
  split.
  { apply (tf_trad false [FGate 3 3 0; FGate 3 4 0]%Z [[FGate 0 0 1; FGate 1 0 1]]%Z); [|cbn; lia].
    cbn [trad_file trad_upper length positions Nat.eqb].
    split; [exists 1; reflexivity|]. split; [cbn; lia|]. split; [repeat constructor; unfold is_int; cbn [f_u f_v f_ty]; lia|].
    split; [exists 1; reflexivity|]. split; [cbn; lia|]. split; [|exact Logic.I].
    repeat constructor; unfold is_int; cbn [f_u f_v f_ty In]; try lia; cbn; lia. }
  split; [intros [|[|g]] Hg; [reflexivity|reflexivity|cbn in Hg; lia]|].
  destruct C56_example as (A & B & D & _). split; [exact A|]. split; [exact B|]. split; [exact D|]. split.
  { intro K. assert (K' : fz 1%F = fz (vals para_ex 1 0)) by (rewrite <- K; reflexivity). vm_compute in K'. discriminate. }
  split; [exact trad_ex_circuit|]. split; [intro K; specialize (K 3 ltac:(cbn; lia)); discriminate|].
  cbn [trad_file trad_upper length positions Nat.eqb].
  split; [exists 0; reflexivity|]. split; [cbn; lia|]. split; [repeat constructor; unfold is_int; cbn [f_u f_v f_ty]; lia|].
  split; [exists 0; reflexivity|]. split; [cbn; lia|]. split; [|exact Logic.I].
  repeat constructor; unfold is_int; cbn [f_u f_v f_ty In]; try lia; cbn; lia.
Qed.
