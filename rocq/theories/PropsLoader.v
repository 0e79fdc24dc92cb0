(** * The circuit loader and circuit evaluation of the zk protocol: C15 to C18 *)
From Coq Require Import ZArith List Bool Arith Lia.
From Verif Require Import Limbs Field FieldProofs Fp Base Circuit FastProver Lazy TablesProofs FastProverProofs
  Loader SpecLoader LoaderProofs ZkEval ZkEvalProofs LoadedProofs LoadedUb PropsGkr.
Import ListNotations.
Open Scope nat_scope.

(** A file with three layers: two inputs 3 and 4, one with a sum, a product, a range sum and
    a zero gate, and an output layer of one gate. *)
Definition ex_desc : desc :=
  Desc [[FGate 3 3 0; FGate 3 4 0];
        [FGate 0 0 1; FGate 1 0 1; FGate 5 0 2; FGate 2 0 0];
        [FGate 12 0 2]]
       [FMeta 0 0 0 0 0; FMeta 1 2 2 1 1; FMeta 0 0 0 0 0].
Definition ex_file : list Z := [3; 2; 3;0;3;0; 3;1;4;0;  4; 0;0;0;1; 1;1;0;1; 5;2;0;2; 2;3;0;0;  1; 12;0;0;2]%Z.
Definition ex_meta : list Z := [0;0;0;0;0; 1;2;2;1;1; 0;0;0;0;0]%Z.

(** ** C15 *)
Theorem C15_loader_iff : forall ct mt C mx, read_circuit ct mt = Ok (C, mx) <->
  exists D r1 r2, ct = circuit_tokens (d_layers D) ++ r1 /\ mt = meta_tokens (d_meta D) ++ r2 /\
    desc_ok D /\ C = denotes D /\ mx = Z.of_nat (max_bits D).
Proof. exact read_circuit_iff. Qed.
Print Assumptions C15_loader_iff.
Theorem C15_least_bits : forall n, 1 <= n ->
  1 <= least_bits n /\ n <= 2 ^ least_bits n /\ forall b, 1 <= b -> n <= 2 ^ b -> least_bits n <= b.
Proof. exact least_bits_spec. Qed.
Print Assumptions C15_least_bits.
(** Read off the circuit itself. *)
Theorem C15_wires : forall ct mt C mx, read_circuit ct mt = Ok (C, mx) ->
  total_depth C = length (circuit C) /\ 2 <= total_depth C /\
  forall i g, 1 <= i < total_depth C -> g < length (gates (layer_at C i)) ->
    refers_in (2 ^ bit_length (layer_at C (i - 1))) (gate_at (layer_at C i) g).
Proof.
  intros ct mt C mx E. apply read_circuit_iff in E. destruct E as (D & r1 & r2 & _ & _ & H & -> & _).
  destruct (denotes_depth D H) as [T LC]. split; [lia|]. split.
  - destruct H as (A & _). destruct (d_layers D); [contradiction|]. cbn [length] in *. lia.
  - intros i g Hi Hg. apply loaded_refers; [exact H|lia|exact Hg].
Qed.
Print Assumptions C15_wires.
Theorem C15_sizes : forall ct mt C mx, read_circuit ct mt = Ok (C, mx) ->
  exists D r, ct = circuit_tokens (d_layers D) ++ r /\ total_depth C = S (length (d_layers D)) /\
  forall i, 1 <= i < total_depth C -> let n := length (nth (i - 1) (d_layers D) []) in
    1 <= n /\ bit_length (layer_at C i) = least_bits n /\
    length (gates (layer_at C i)) = (if Nat.eqb n 1 then 2 else n) /\
    (2 <= i -> n = 1 -> gate_at (layer_at C i) 1 = Gate 2 0 0).
Proof.
  intros ct mt C mx E. apply read_circuit_iff in E. destruct E as (D & r1 & r2 & -> & _ & H & -> & _).
  destruct (denotes_depth D H) as [T LC]. exists D, r1. split; [reflexivity|]. split; [exact T|].
  intros i Hi n. rewrite T in Hi. destruct (denotes_layer D i H ltac:(lia)) as [G B]. destruct (rows_sizes D i H ltac:(lia)) as [S1 _].
  split; [exact S1|]. split; [exact B|]. split.
  - rewrite G, row_gates_length. apply file_gates_length, S1.
  - intros H2 N1. unfold gate_at. rewrite G. unfold row_gates. destruct (Nat.eqb_spec i 1); [lia|].
    destruct (file_gate_at (file_row D i) 1) as [(f & Ef & _)|K]; [|exact K].
    assert (1 < length (file_row D i)) by (apply nth_error_Some; congruence). unfold n in N1. unfold file_row in *. lia.
Qed.
Print Assumptions C15_sizes.
(** The literal claim fails: the bound is the next power of two, not the number of gates. *)
Theorem C15_positions_refuted : exists ct mt C mx i g, read_circuit ct mt = Ok (C, mx) /\
  1 <= i < total_depth C /\ g < length (gates (layer_at C i)) /\ g_ty (gate_at (layer_at C i) g) = 0%Z /\
  (Z.of_nat (length (gates (layer_at C (i - 1)))) <= g_u (gate_at (layer_at C i) g))%Z.
Proof.
  exists [2; 3; 3;0;5;0; 3;1;6;0; 3;2;7;0;  1; 0;0;3;0]%Z, [0;0;0;0;0;0;0;0;0;0]%Z.
  eexists _, _, 2, 0. split; [vm_compute; reflexivity|]. vm_compute. repeat split; (discriminate || lia).
Qed.
Print Assumptions C15_positions_refuted.
Example C15_example : read_circuit ex_file ex_meta = Ok (denotes ex_desc, 2%Z) /\ desc_ok ex_desc /\
  ex_file = circuit_tokens (d_layers ex_desc) ++ [] /\ ex_meta = meta_tokens (d_meta ex_desc) ++ [].
Proof.
  assert (E : read_circuit ex_file ex_meta = Ok (denotes ex_desc, 2%Z)) by (vm_compute; reflexivity).
  split; [exact E|]. split; [|split; reflexivity].
  unfold desc_ok, ex_desc. cbn [d_layers d_meta upper_ok length].
  assert (LB2 : least_bits 2 = 1) by reflexivity. assert (LB4 : least_bits 4 = 2) by reflexivity. rewrite LB2, LB4.
  assert (IL : forall z, (-8 <= z <= 8)%Z -> is_ll z) by (unfold is_ll; lia).
  assert (II : forall z, (-8 <= z <= 12)%Z -> is_int z) by (unfold is_int; lia).
  assert (SZ : forall l : list fgate, 1 <= length l <= 4 -> layer_size_ok l) by (unfold layer_size_ok; intros; split; lia).
  split; [|split; [lia|split; [reflexivity|]]].
  - split; [apply SZ; cbn; lia|]. split; [repeat (constructor; [split; [apply IL; cbn; lia|split; [apply IL; cbn; lia|left; reflexivity]]|]); constructor|].
    split; [apply SZ; cbn; lia|]. split.
    + repeat (constructor; [split; [apply II; cbn; lia|split; [apply IL; cbn; lia|split; [apply IL; cbn; lia|cbn; repeat split; intros; (lia || congruence)]]]|]); constructor.
    + split; [apply SZ; cbn; lia|]. split; [|exact I].
      repeat (constructor; [split; [apply II; cbn; lia|split; [apply IL; cbn; lia|split; [apply IL; cbn; lia|cbn; repeat split; intros; (lia || congruence)]]]|]); constructor.
  - repeat (constructor; [repeat (split; [apply II; cbn; lia|]); cbn; intros; (lia || congruence)|]); constructor.
Qed.
Example C15_reject_example : (* out of range wire, wrong gate id, failed meta assertion *)
  read_circuit [2; 2; 3;0;3;0; 3;1;4;0;  2; 0;0;0;2; 0;1;0;1]%Z [0;0;0;0;0;0;0;0;0;0]%Z = AssertFail /\
  read_circuit [1; 2; 3;0;3;0; 3;2;4;0]%Z [0;0;0;0;0]%Z = ExitProg /\
  read_circuit [1; 2; 3;0;3;0; 3;1;4;0]%Z [1;1;3;0;1]%Z = AssertFail.
Proof. vm_compute. repeat split. Qed.

(** ** C16 *)
(** What an input gate with the literal [u] evaluates to. *)
Theorem C16_value : forall ct mt C mx, read_circuit ct mt = Ok (C, mx) ->
  exists D r, ct = circuit_tokens (d_layers D) ++ r /\
  forall x cv k f, zevaluate C = Ok (x, cv) -> nth_error (nth 0 (d_layers D) []) k = Some f ->
  exists row y, nth_error cv 0 = Some row /\ nth_error row k = Some y /\ rep y (ofZ (int32 (f_u f) mod 2 ^ 64)).
Proof.
  intros ct mt C mx E. apply read_circuit_iff in E. destruct E as (D & r1 & r2 & -> & _ & H & -> & _).
  exists D, r1. split; [reflexivity|]. intros x cv k f. apply loaded_input, H.
Qed.
Print Assumptions C16_value.
(** That is the literal itself exactly when it lies between 0 and 2^31 - 1. *)
Theorem C16_exact : forall u, is_ll u -> (ofZ (int32 u mod 2 ^ 64) = ofZ u <-> 0 <= u < 2 ^ 31)%Z.
Proof. exact int32_field. Qed.
Print Assumptions C16_exact.
Theorem C16_refuted : exists u C cv y ct mt mx out, is_ll u /\
  ct = [1; 2; 3;0;u;0; 2;1;0;0]%Z /\ read_circuit ct mt = Ok (C, mx) /\ zevaluate C = Ok (out, [y :: cv; out]) /\ ~ rep y (ofZ u).
Proof.
  exists (-1)%Z. assert (L : is_ll (-1)) by (unfold is_ll; lia).
  assert (N : ~ rep (fe_of_int (-1)) (ofZ (-1))).
  { intro K. pose proof (rep_of_int (-1)) as K'. pose proof (rep_fun _ _ _ K' K) as E.
    change (-1 mod W64)%Z with (int32 (-1) mod 2 ^ 64)%Z in E. apply C16_exact in E; [lia|exact L]. }
  exists (denotes (Desc [[FGate 3 (-1) 0; FGate 2 0 0]] [FMeta 0 0 0 0 0])), [fe_of_int 0], (fe_of_int (-1)).
  eexists _, [0;0;0;0;0]%Z, 1%Z, [fe_of_int (-1); fe_of_int 0]. split; [exact L|]. split; [reflexivity|].
  split; [vm_compute; reflexivity|]. split; [vm_compute; reflexivity|exact N].
Qed.
Print Assumptions C16_refuted.
Example C16_example : is_ll 4294967299 /\ int32 4294967299 = 3%Z /\ (int32 (-1) mod 2 ^ 64 = 2 ^ 64 - 1)%Z /\
  (exists out, zevaluate (denotes ex_desc) = Ok out) /\ nth_error (nth 0 (d_layers ex_desc) []) 1 = Some (FGate 3 4 0).
Proof.
  split; [unfold is_ll; lia|]. split; [reflexivity|]. split; [reflexivity|]. split; [|reflexivity].
  eexists. vm_compute. reflexivity.
Qed.

(** ** C17 *)
(** Sizes that are powers of two: loading returned, evaluation returns or stops at an assertion. *)
Theorem C17_power_of_two : forall ct mt C mx, read_circuit ct mt = Ok (C, mx) ->
  exists D r, ct = circuit_tokens (d_layers D) ++ r /\
    (Forall pow2_size (d_layers D) -> (exists x, zevaluate C = Ok x) \/ zevaluate C = AssertFail).
Proof.
  intros ct mt C mx E. apply read_circuit_iff in E. destruct E as (D & r1 & r2 & -> & _ & H & -> & _).
  exists D, r1. split; [reflexivity|]. intro P.
  destruct (zevaluate_safe _ (loaded_safe D H P)) as [(x & E & _)|E]; [left; exists x; exact E|right; exact E].
Qed.
Print Assumptions C17_power_of_two.
(** Other sizes never evaluate. *)
Theorem C17_other_sizes : forall D x, desc_ok D -> zevaluate (denotes D) = Ok x -> Forall pow2_size (d_layers D).
Proof. exact loaded_ok_pow2. Qed.
Print Assumptions C17_other_sizes.
(** If it is the input layer, evaluation reads past the end of its gates. *)
Theorem C17_input_size : forall D, desc_ok D -> ~ pow2_size (nth 0 (d_layers D) []) -> zevaluate (denotes D) = UB.
Proof. exact loaded_ub. Qed.
Print Assumptions C17_input_size.
(** With gates of known types only it is undefined whichever layer it is. *)
Theorem C17_other_sizes_undefined : forall D, desc_ok D -> (Z.of_nat (total_depth (denotes D)) < 1000000)%Z ->
  (forall i g, 1 <= i < total_depth (denotes D) -> In g (gates (layer_at (denotes D) i)) -> supported g) ->
  ~ Forall pow2_size (d_layers D) -> zevaluate (denotes D) = UB.
Proof. exact loaded_other_ub. Qed.
Print Assumptions C17_other_sizes_undefined.
Definition odd_desc : desc := Desc [[FGate 3 3 0; FGate 3 4 0]; [FGate 0 0 1; FGate 1 0 1; FGate 5 0 2]] [FMeta 0 0 0 0 0; FMeta 0 0 0 0 0].
Example C17_undefined_example : desc_ok odd_desc /\ (Z.of_nat (total_depth (denotes odd_desc)) < 1000000)%Z /\
  (forall i g, 1 <= i < total_depth (denotes odd_desc) -> In g (gates (layer_at (denotes odd_desc) i)) -> supported g) /\ ~ Forall pow2_size (d_layers odd_desc).
Proof.
  split; [|split; [|split]].
  - unfold desc_ok, odd_desc, layer_size_ok, input_ok, is_ll. cbn [d_layers d_meta length upper_ok]. 
    split; [split; [lia|split]|split; [lia|split; [reflexivity|]]].
    + repeat constructor; cbn [f_ty f_u f_v]; lia.
    + change (least_bits 2) with 1. unfold layer_size_ok, gate_ok, is_int, is_ll. cbn [length]. split; [lia|]. split; [|exact I].
      change (Z.of_nat 1) with 1%Z. change (2 ^ 1)%Z with 2%Z.
      apply Forall_cons; [|apply Forall_cons; [|apply Forall_cons; [|apply Forall_nil]]]; cbn [f_ty f_u f_v]; lia.
    + apply Forall_cons; [|apply Forall_cons; [|apply Forall_nil]]; unfold meta_ok, is_int; cbn [m_para m_block m_repeat m_log_block m_log_repeat]; lia.
  - reflexivity.
  - intros i g Hi Hg. change (total_depth (denotes odd_desc)) with 3 in Hi. unfold supported. left. assert (i = 1 \/ i = 2) as [-> | ->] by lia; cbn in Hg;
      repeat (destruct Hg as [<-|Hg]; [cbn; tauto|]); destruct Hg.
  - intro F. rewrite Forall_forall in F. destruct (F [FGate 0 0 1; FGate 1 0 1; FGate 5 0 2]) as [k K]; [cbn; tauto|]. cbn [length] in K.
    destruct k as [|[|k]]; [discriminate|discriminate|]. rewrite !Nat.pow_succ_r' in K. lia.
Qed.
(** A layer without gates: the loader does not return. *)
Theorem C17_empty_layer : forall L d t mt, prefix_ok L -> length L < d -> (Z.of_nat d + 1 < 2 ^ 31)%Z ->
  read_circuit (Z.of_nat d :: concat (map layer_tokens L) ++ 0%Z :: t) mt = Diverges.
Proof. exact empty_layer_diverges. Qed.
Print Assumptions C17_empty_layer.
Theorem C17_refuted : exists ct mt C mx, read_circuit ct mt = Ok (C, mx) /\ zevaluate C = UB.
Proof.
  exists [1; 3; 3;0;5;0; 3;1;6;0; 3;2;7;0]%Z, [0;0;0;0;0]%Z. eexists _, _. split; [vm_compute; reflexivity|]. vm_compute. reflexivity.
Qed.
Print Assumptions C17_refuted.
Example C17_example : Forall pow2_size (d_layers ex_desc) /\ prefix_ok [[FGate 3 3 0]] /\
  read_circuit (2%Z :: concat (map layer_tokens [[FGate 3 3 0]]) ++ 0%Z :: [1; 2]%Z) [] = Diverges /\
  ~ pow2_size [FGate 3 1 0; FGate 3 1 0; FGate 3 1 0].
Proof.
  split; [|split; [|split]].
  - constructor; [exists 1; reflexivity|]. constructor; [exists 2; reflexivity|]. constructor; [exists 0; reflexivity|constructor].
  - cbn [prefix_ok upper_ok]. split; [split; cbn; lia|]. split; [|exact I]. constructor; [|constructor].
    split; [unfold is_ll; cbn; lia|]. split; [unfold is_ll; cbn; lia|left; reflexivity].
  - vm_compute. reflexivity.
  - intros [k E]. cbn [length] in E. destruct k as [|[|k]]; try discriminate E. rewrite !pow2_S in E. lia.
Qed.

(** ** C18 (zk prover) *)
Theorem C18_evaluate_zk : forall C, zwf_circuit C ->
  exists row cv V, zevaluate C = Ok (row, cv) /\ circuit_values C V /\
    (forall i, i < total_depth C -> exists r, nth_error cv i = Some r /\
       let n := 2 ^ bit_length (layer_at C i) in tab n r n (V i)) /\
    nth_error cv (total_depth C - 1) = Some row.
Proof.
  intros C WF. destruct (zevaluate_ok C WF) as ([row cv] & E & (Lc & Rows) & Er). cbn [fst snd] in *.
  exists row, cv, (vals C). split; [exact E|].
  assert (Hd : total_depth C = length (circuit C)) by apply WF.
  split; [split|split].
  - intro g. rewrite vals_0; [reflexivity|]. intro K. pose proof (zwf_pos _ WF). rewrite K in Hd. simpl in Hd. lia.
  - intros i g Hi. rewrite vals_S by lia. reflexivity.
  - exact Rows.
  - exact Er.
Qed.
Print Assumptions C18_evaluate_zk.
(** What evaluation refuses: a weighted sum over more than 63 wires, a bit test
    reading two different wires, a gate of an unknown type. *)
Theorem C18_zk_refused : forall prev ty u v,
  (in_int (v - u) = true -> in_int (v - u + 1) = true -> (63 < v - u + 1)%Z -> ty = 12%Z -> zgate_value prev ty u v = AssertFail) /\
  (u <> v -> ty = 13%Z -> zgate_value prev ty u v = AssertFail) /\
  (~ In ty [0;1;2;3;4;5;6;7;8;9;10;12;13]%Z -> zgate_value prev ty u v = AssertFail).
Proof.
  intros prev ty u v. split; [|split].
  - intros H1 H2 H3 ->. unfold zgate_value, int_op. rewrite H1, bind_ok, H2, bind_ok.
    assert (E : (v - u + 1 <=? 63)%Z = false) by (apply Z.leb_gt; exact H3). rewrite E. reflexivity.
  - intros H ->. unfold zgate_value. apply Z.eqb_neq in H. rewrite H. reflexivity.
  - intro H. cbn [In] in H. unfold zgate_value, gate_value.
    destruct ty as [|q|q]; [exfalso; apply H; tauto| |reflexivity].
    do 4 (try (destruct q as [q|q|]; try reflexivity; try (exfalso; apply H; tauto))).
Qed.
Print Assumptions C18_zk_refused.
Example C18_zk_refused_example :
  zgate_value [] 12 0 63 = AssertFail /\ zgate_value (repeat fe_zero 63) 12 0 62 <> AssertFail /\
  zgate_value [] 13 0 1 = AssertFail /\ zgate_value [] 11 0 0 = AssertFail.
Proof.
  split; [|split; [|split]]; try (vm_compute; reflexivity).
  assert (H : zreads_in 63 (Gate 12 0 62)) by (cbn; lia).
  destruct (zgate_value_ok 63 (repeat fe_zero 63) 63 (fun _ => 0%F) (Gate 12 0 62)) as (x & E & _).
  - split; [apply repeat_length|]. split; [lia|]. intros i Hi. exists fe_zero. split; [|exact rep_0].
    apply nth_error_repeat; exact Hi.
  - exact H.
  - change (zgate_value (repeat fe_zero 63) 12 0 62 = Ok x) in E. rewrite E. discriminate.
Qed.
(** Loaded circuits satisfy the hypothesis. *)
Theorem C18_loaded : forall D, desc_ok D -> Forall pow2_size (d_layers D) -> (Z.of_nat (total_depth (denotes D)) < 1000000)%Z ->
  (forall i g, i < total_depth (denotes D) -> supported (gate_at (layer_at (denotes D) i) g)) -> zwf_circuit (denotes D).
Proof. exact loaded_wf. Qed.
Print Assumptions C18_loaded.
Example C18_zk_example : zwf_circuit (denotes ex_desc) /\
  forall V, circuit_values (denotes ex_desc) V -> V 3 0 = ofZ (7 + 2 * 12 + 4 * 7).
Proof.
  split.
  - apply C18_loaded; [apply C15_example|apply C17_example|cbn; lia|].
    intros i g Hi. change (total_depth (denotes ex_desc)) with 4 in Hi.
    destruct i as [|[|[|[|i]]]]; [..|lia]; unfold supported, layer_at, gate_at; cbn -[In];
      destruct g as [|[|[|[|g]]]]; cbn; try tauto; try (right; split; [reflexivity|cbv; discriminate]);
      destruct g; tauto.
  - intros V [H0 HS].
    pose proof (HS 0 0 ltac:(cbn; lia)) as A0. pose proof (HS 0 1 ltac:(cbn; lia)) as A1.
    pose proof (HS 1 0 ltac:(cbn; lia)) as B0. pose proof (HS 1 1 ltac:(cbn; lia)) as B1. pose proof (HS 1 2 ltac:(cbn; lia)) as B2.
    pose proof (HS 2 0 ltac:(cbn; lia)) as D0.
    change (gate_at (layer_at (denotes ex_desc) 1) 0) with (Gate 4 0 0) in A0. change (gate_at (layer_at (denotes ex_desc) 1) 1) with (Gate 4 1 0) in A1.
    change (gate_at (layer_at (denotes ex_desc) 2) 0) with (Gate 0 0 1) in B0. change (gate_at (layer_at (denotes ex_desc) 2) 1) with (Gate 1 0 1) in B1.
    change (gate_at (layer_at (denotes ex_desc) 2) 2) with (Gate 5 0 2) in B2. change (gate_at (layer_at (denotes ex_desc) 3) 0) with (Gate 12 0 2) in D0.
    unfold gate_spec in A0, A1, B0, B1, B2, D0.
    cbn [g_ty g_u g_v Z.to_nat Pos.to_nat Pos.iter_op Nat.add Nat.sub sumn Fpow] in *.
    change (Z.to_nat 0) with 0 in *. cbn [Nat.add] in *.
    assert (E0 : V 0 0 = ofZ 3) by (rewrite H0; apply F_eq; vm_compute; reflexivity).
    assert (E1 : V 0 1 = ofZ 4) by (rewrite H0; apply F_eq; vm_compute; reflexivity).
    change (Pos.to_nat 1) with 1 in *. change (Pos.to_nat 2) with 2 in *. cbn [Nat.add Nat.sub sumn Fpow] in *.
    rewrite A0, A1, E0, E1 in B0, B1, B2. rewrite D0, B0, B1, B2. apply F_eq. vm_compute. reflexivity.
Qed.
