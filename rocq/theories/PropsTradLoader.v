(** * The circuit loaders and programs of src/traditional_gkr: C67, C68 *)
From Coq Require Import ZArith List Bool Arith Lia Permutation.
From Verif Require Import Limbs Field FieldProofs Fp Base Circuit Loader SpecLoader FastLoader SpecFastLoader FastLoaderProofs
  FastProver FastProverProofs FastVerifier TradProver TradVerifier TradVerifierProofs BcProver BcVerifier BcPhase BcVerifierProofs TradLoader SpecTradLoader TradLoaderProofs TradLoadedProofs
  TradPhase BcPhase0 TablesProofs GkrMath PropsTrad PropsBc BcSound PropsBcSound.
Import ListNotations.
Open Scope nat_scope.

(** ** C67 *)
(** Exactly which files load, and as what. *)
Theorem C67_loader_iff : forall t C mx, tread_circuit t = Ok (C, mx) <->
  exists L r, t = fcircuit_tokens L ++ r /\ tfile_ok L /\ tdenotes L C /\ mx = Z.of_nat (fmax_bits L).
Proof. exact tread_circuit_iff. Qed.
Print Assumptions C67_loader_iff.
(** A file in order loads as its gates, with the least sufficient bit lengths. *)
Theorem C67_in_order : forall L r, L <> [] ->
  Forall (fun x => 1 <= length x /\ (Z.of_nat (length x) <= 2 ^ 30)%Z /\ Forall int_gate x) L -> (Z.of_nat (length L) < 2 ^ 31)%Z ->
  tread_circuit (fcircuit_tokens (in_order L) ++ r) = Ok (trad_file_circuit L, Z.of_nat (fast_bits L)).
Proof. exact trad_in_order. Qed.
Print Assumptions C67_in_order.
(** The program passes exactly if every run loads the file and accepts. *)
Theorem C67_pass_iff : forall n t rnd, trad_main n t rnd = Ok true <->
  (0 <= n)%Z /\ forall i, (Z.of_nat i < n)%Z -> exists C mx, tread_circuit t = Ok (C, mx) /\ run_trad C (rnd i) = Ok true.
Proof. exact trad_main_iff. Qed.
Print Assumptions C67_pass_iff.
(** From the file to the verdict. *)
Theorem C67_end_to_end : forall n L r rnd, trad_file false L -> length L <= 1000 -> (0 <= n)%Z -> (forall i k, reduced (rnd i k)) ->
  trad_main n (fcircuit_tokens (in_order L) ++ r) rnd = Ok true.
Proof.
  intros n L r rnd H HL Hn R. apply trad_main_iff. split; [exact Hn|]. intros i _. exists (trad_file_circuit L), (Z.of_nat (fast_bits L)).
  split; [apply (trad_loads false); [exact H|lia]|]. apply trad_complete; [|exact (R i)].
  destruct L as [|l L]; [contradiction|]. exact (tf_trad false l L H HL).
Qed.
Print Assumptions C67_end_to_end.
(** The tables are allocated for the longest layer. *)
Theorem C67_tables : forall L r, trad_file false L -> length L <= 1000 -> exists C,
  tread_circuit (fcircuit_tokens (in_order L) ++ r) = Ok (C, Z.of_nat (max_bit_length C)) /\ trad_circuit C.
Proof.
  intros L r H HL. exists (trad_file_circuit L). destruct (trad_loads false L r H ltac:(lia)) as [E M]. rewrite M. split; [exact E|].
  destruct L as [|l L]; [contradiction|]. exact (tf_trad false l L H HL).
Qed.
Print Assumptions C67_tables.
Definition ex_trad_file : list (list fgate) :=
  [[FGate 3 3 0; FGate 3 4 0; FGate 2 0 9; FGate 3 5 0]; [FGate 0 0 3; FGate 1 1 2]; [FGate 1 0 1]]%Z.
Lemma ex_trad_file_ok : trad_file true ex_trad_file.
Proof.
  cbn [trad_file ex_trad_file trad_upper length positions Nat.eqb].
  split; [exists 2; reflexivity|]. split; [cbn; lia|]. split.
  { repeat constructor; unfold is_int; cbn [f_u f_v f_ty]; lia. }
  split; [exists 1; reflexivity|]. split; [cbn; lia|]. split.
  { repeat constructor; unfold is_int; cbn [f_u f_v f_ty In]; try lia; cbn; lia. }
  split; [exists 0; reflexivity|]. split; [cbn; lia|]. split; [|exact Logic.I].
  repeat constructor; unfold is_int; cbn [f_u f_v f_ty In]; try lia; cbn; lia.
Qed.
Example C67_example : trad_file false [[FGate 3 3 0; FGate 3 4 0]; [FGate 0 0 1; FGate 2 7 9]]%Z /\ trad_file true ex_trad_file /\
  fcircuit_tokens (in_order ex_trad_file) = [3; 4; 3;0;3;0; 3;1;4;0; 2;2;0;9; 3;3;5;0; 2; 0;0;0;3; 1;1;1;2; 1; 1;0;0;1]%Z.
Proof.
  split; [|split; [exact ex_trad_file_ok|reflexivity]].
  cbn [trad_file trad_upper length positions Nat.eqb].
  split; [exists 1; reflexivity|]. split; [cbn; lia|]. split.
  { repeat constructor; unfold is_int; cbn [f_u f_v f_ty]; lia. }
  split; [exists 1; reflexivity|]. split; [cbn; lia|]. split; [|exact Logic.I].
  apply Forall_cons; [|apply Forall_cons; [|apply Forall_nil]]; unfold trad_gate_ok, is_int; cbn [f_u f_v f_ty In positions length].
  - split; [lia|]. split; [lia|]. split; [left; reflexivity|]. intros _. cbn. lia.
  - split; [lia|]. split; [lia|]. split; [right; right; left; reflexivity|]. intros [K|K]; [exfalso; apply K; reflexivity|discriminate].
Qed.
(** "Verification Pass" does not mean that anything was verified: with no copies, also what a first argument that
    is no number means, the file is not even opened. *)
Theorem C67_no_copies_refuted : exists t, (forall C mx, tread_circuit t <> Ok (C, mx)) /\ forall rnd, trad_main 0 t rnd = Ok true.
Proof. exists []. split; [discriminate|reflexivity]. Qed.
Print Assumptions C67_no_copies_refuted.
(** The order of the lines matters: the bit length comes from the number written last. *)
Theorem C67_order_refuted : exists L L' C C' mx mx', Forall2 (fun l l' => Permutation l l') L L' /\
  tread_circuit (fcircuit_tokens L) = Ok (C, mx) /\ tread_circuit (fcircuit_tokens L') = Ok (C', mx') /\
  (forall i, gates (layer_at C i) = gates (layer_at C' i)) /\
  bit_length (layer_at C 1) = 1 /\ bit_length (layer_at C' 1) = 0.
Proof.
  set (ins := [(0, FGate 3 3 0); (1, FGate 3 4 0)] : list entry). set (a := (0, FGate 0 0 1) : entry). set (b := (1, FGate 1 0 1) : entry).
  exists [ins; [a; b]], [ins; [b; a]].
  exists (Circuit [plain_layer [Gate 3 3 0; Gate 3 4 0] 1; plain_layer [Gate 0 0 1; Gate 1 0 1] 1]%Z 2),
         (Circuit [plain_layer [Gate 3 3 0; Gate 3 4 0] 1; plain_layer [Gate 0 0 1; Gate 1 0 1] 0]%Z 2), 1%Z, 1%Z.
  split; [repeat constructor|]. split; [vm_compute; reflexivity|]. split; [vm_compute; reflexivity|].
  split; [intros [|[|i]]; reflexivity|]. split; reflexivity.
Qed.
Print Assumptions C67_order_refuted.
(** Nothing is checked on loading: a wire past the layer below loads, and running it reads out of bounds. *)
Theorem C67_wires_refuted : exists t C mx, tread_circuit t = Ok (C, mx) /\ forall rnd, trad_main 1 t rnd = UB.
Proof.
  set (t := [2; 2; 3;0;3;0; 3;1;4;0; 2; 0;0;0;5; 1;1;0;1]%Z).
  assert (E : exists C mx, tread_circuit t = Ok (C, mx)) by (eexists; eexists; vm_compute; reflexivity).
  destruct E as (C & mx & E). exists t, C, mx. split; [exact E|]. intro rnd. vm_compute. reflexivity.
Qed.
Print Assumptions C67_wires_refuted.

(** ** C68 *)
(** The block loader succeeds exactly if the traditional one does and the sizes fit, and copies its circuit. *)
Theorem C68_loader_iff : forall n k t B mx, bread_circuit n k t = Ok (B, mx) <->
  (1 <= n)%Z /\ (0 <= k)%Z /\ (k + mx < 31)%Z /\ exists C, tread_circuit t = Ok (C, mx) /\ B = BcVerifier.copies C (Z.to_nat n) (Z.to_nat k).
Proof. exact bread_circuit_iff. Qed.
Print Assumptions C68_loader_iff.
(** From the file to the verdict; there may be more blocks than [2 ^ log_n_copy]. *)
Theorem C68_end_to_end : forall n k L r rnd, trad_file true L -> length L <= 1000 -> 1 <= k -> 2 ^ k <= n -> k + fast_bits L <= 30 ->
  (forall i, reduced (rnd i)) -> bc_main (Z.of_nat n) (Z.of_nat k) (fcircuit_tokens (in_order L) ++ r) rnd = Ok true.
Proof.
  intros n k L r rnd H HL Hk Hn HF R. assert (1 <= n) by (pose proof (pow2_pos k); lia).
  assert (E : bread_circuit (Z.of_nat n) (Z.of_nat k) (fcircuit_tokens (in_order L) ++ r) =
    Ok (BcVerifier.copies (trad_file_circuit L) n k, Z.of_nat (fast_bits L))).
  { apply bread_circuit_iff. split; [lia|]. split; [lia|]. split; [lia|]. exists (trad_file_circuit L).
    rewrite !Nat2Z.id. split; [|reflexivity]. apply (trad_loads true); [exact H|lia]. }
  unfold bc_main. rewrite E. cbn [bind]. apply bc_complete; [|exact R].
  destruct L as [|l L]; [contradiction|]. apply (tf_blocks true l L H); [reflexivity|lia|exact Hn].
Qed.
Print Assumptions C68_end_to_end.
(** With fewer blocks than [2 ^ log_n_copy] no file passes. *)
Theorem C68_too_few : forall n k t rnd, (n < 2 ^ k)%Z -> bc_main n k t rnd <> Ok true.
Proof. exact bc_too_few. Qed.
Print Assumptions C68_too_few.
Example C68_example : trad_file true ex_trad_file /\ fast_bits ex_trad_file = 2 /\ 2 ^ 1 <= 3 /\ (3 < 2 ^ 2)%Z.
Proof. split; [exact ex_trad_file_ok|]. split; [reflexivity|]. cbn. lia. Qed.
(** The outputs of the blocks from [2 ^ log_n_copy] on are never looked at: the prover that announces anything for
    them, and is honest otherwise, is accepted, even after the repair of C60. *)
Theorem C68_extra_blocks_unchecked : forall C rnd tail, bc_circuit C -> (forall i, reduced (rnd i)) ->
  let C0 := block C 0 in let m := max_bit_length C0 in
  let size := 2 ^ total_blocks_binary_length C * 2 ^ bit_length (layer_at C0 (total_depth C0 - 1)) in
  let liar := bc_extra (fun row => firstn size row ++ tail) in
  bc_verify liar C rnd (init_betas m) (init_bprover C C0 m) = Ok true /\
  bc_verify_repaired liar C rnd (init_betas m) (init_bprover C C0 m) = Ok true.
Proof.
  intros C rnd tail CC R. cbv zeta.
  set (m := max_bit_length (block C 0)). set (p := init_bprover C (block C 0) m).
  assert (Ep : b_C p = C) by reflexivity.
  pose proof (fun factor => bc_extra_same factor C rnd (init_betas m) p tail CC Ep) as K. cbv zeta in K. split.
  - etransitivity; [exact (K (asked bc_honest))|].
    apply bc_complete_with; [|exact CC|exact R]. intros q rb0 rb1 Rb rb _ _ _ _ H. exact H.
  - etransitivity; [exact (K (fun _ => block_factor))|]. exact (C60_repaired_complete C rnd CC R).
Qed.
Print Assumptions C68_extra_blocks_unchecked.
Theorem C68_extra_blocks_refuted : exists n k t C mx size, bread_circuit n k t = Ok (C, mx) /\
  size = 2 ^ total_blocks_binary_length C * 2 ^ bit_length (layer_at (block C 0) (total_depth (block C 0) - 1)) /\
  size < total_blocks C * 2 ^ bit_length (layer_at (block C 0) (total_depth (block C 0) - 1)) /\
  forall rnd tail, (forall i, reduced (rnd i)) ->
    let I := bc_extra (fun row => firstn size row ++ tail) in let m := max_bit_length (block C 0) in
    bc_verify I C rnd (init_betas m) (init_bprover C (block C 0) m) = Ok true /\
    bc_verify_repaired I C rnd (init_betas m) (init_bprover C (block C 0) m) = Ok true.
Proof.
  assert (E : bread_circuit 3 1 (fcircuit_tokens (in_order ex_trad_file) ++ []) =
    Ok (BcVerifier.copies (trad_file_circuit ex_trad_file) 3 1, 2%Z)).
  { apply bread_circuit_iff. split; [lia|]. split; [lia|]. split; [lia|]. exists (trad_file_circuit ex_trad_file).
    split; [|reflexivity]. apply (trad_loads true); [exact ex_trad_file_ok|cbn; lia]. }
  eexists 3%Z, 1%Z, _, _, 2%Z, _. split; [exact E|]. split; [reflexivity|]. split; [cbn; lia|].
  intros rnd tail R. apply C68_extra_blocks_unchecked; [|exact R].
  apply (tf_blocks true _ _ ex_trad_file_ok); [reflexivity|lia|cbn; lia].
Qed.
Print Assumptions C68_extra_blocks_refuted.
(** A zero gate's unused wires are read by the block prover: a file the traditional program passes is undefined here. *)
Theorem C68_zero_gate_refuted : exists L, trad_file false L /\ length L <= 1000 /\
  forall rnd, bc_main 2 1 (fcircuit_tokens (in_order L)) rnd = UB.
Proof.
  exists [[FGate 3 3 0; FGate 3 4 0]; [FGate 0 0 1; FGate 2 7 9]]%Z. split; [apply C67_example|]. split; [cbn; lia|].
  intro rnd. vm_compute. reflexivity.
Qed.
Print Assumptions C68_zero_gate_refuted.
