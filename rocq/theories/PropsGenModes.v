(** * The remaining modes of the circuit generator (C72) *)
From Coq Require Import ZArith List Bool Arith Lia.
From Verif Require Import Limbs LimbsProofs Field FieldProofs Fp Base Circuit FastProver Lazy TablesProofs FastProverProofs FastVerifier FastVerifierProofs
  Loader SpecLoader LoaderProofs ZkEval ZkEvalProofs LoadedProofs SpecTranscript Transcript ZkProver ZkVerifier ZkPhaseProofs ZkPredProofs
  ZkLinkProofs ZkOpenProofs ZkVerifierProofs ZkComplete SpecZk ZkFacts ZkLoaded Gen SpecGen GenProofs GenModes SpecGenModes GenModesProofs.
Import ListNotations.
Open Scope nat_scope.

(** ** Mode 0 *)
(** With a meta file of zeros: the file is loaded, the middle layers combine every value with value 0, the last layer keeps the even
    positions, and the honest zk run is accepted. *)
Theorem C72_simple : forall c w rnd, c <= 400 -> 1 <= w <= 30 -> rand_seq rnd ->
  exists ct C mx out cv, gen_simple (Z.of_nat (c + 2)) (Z.of_nat w) rnd = Ok ct /\
    read_circuit ct (repeat 0%Z (5 * (c + 2))) = Ok (C, mx) /\ zevaluate C = Ok (out, cv) /\
    (forall j, j < 2 ^ (w - 1) -> exists x, nth_error out j = Some x /\ rep x (xor_first c (fun i => ofZ (rnd i)) (2 * j))) /\
    (forall enc ec1 aes fr zr, (forall x, length (enc x) = ec1) -> 0 < ec1 <= 1000 -> is_cipher aes -> stream_ok fr zr ->
       run_zk enc aes fr zr C = Ok true).
Proof.
  intros c w rnd Hc Hw Hr. assert (Hm : forall x, x < 2 ^ w -> gate_ok w (xor_gate x)) by (intros; apply xor_gate_ok; [lia|assumption]).
  assert (Hl : forall x, x < 2 ^ (w - 1) -> gate_ok w (relay_gate x)) by (intros; apply relay_gate_ok; assumption).
  destruct (mdesc_run w c rnd xor_gate relay_gate Hw Hr Hm Hl) as (mx & out & cv & E1 & E2 & V & R).
  - intro x. unfold easy. cbn. tauto.
  - intro x. unfold easy. cbn. tauto.
  - exact Hc.
  - eexists _, _, mx, out, cv. split; [apply gen_simple_ok; exact Hw|]. split; [exact E1|]. split; [exact E2|]. split; [|exact R].
    intros j Hj. destruct (V j Hj) as (x & Ex & Rx). exists x. split; [exact Ex|]. clear R V E1 E2.
    rewrite (mdesc_last w c rnd xor_gate relay_gate Hw Hr Hm Hl ltac:(lia) j Hj) in Rx.
    pose proof (half_double j w ltac:(lia) Hj) as Hj2. pose proof (pow_le30 w ltac:(lia)) as P30.
    assert (S30 : forall y, y < 2 ^ w -> (0 <= Z.of_nat y < 2 ^ 31)%Z) by (intros y Hy; apply small_pow in Hy; lia).
    unfold gate_spec, file_gate, relay_gate in Rx. cbn [f_ty f_u f_v g_ty g_u g_v] in Rx. rewrite int32_small, Nat2Z.id in Rx by (apply S30; lia).
    assert (VS : forall i y, i <= c -> y < 2 ^ w -> vals (denotes (mdesc w c (in_gate rnd) xor_gate relay_gate)) (1 + i) y = xor_first i (fun i => ofZ (rnd i)) y).
    { induction i as [|i IH]; intros y Hi Hy; [apply mdesc_input; try assumption; lia|].
      change (1 + S i) with (2 + i). rewrite mdesc_mid by (try assumption; lia). unfold gate_spec, file_gate, xor_gate. cbn [f_ty f_u f_v g_ty g_u g_v].
      change ((8 =? 6) || (8 =? 10))%Z with false. cbn iota. change (int32 0) with 0%Z. rewrite int32_small, Nat2Z.id by (apply S30; exact Hy).
      change (Z.to_nat 0) with 0. rewrite !IH by lia. reflexivity. }
    rewrite VS in Rx by lia. exact Rx.
Qed.
Print Assumptions C72_simple.
(** Width 0 shifts by -1. *)
Theorem C72_simple_width_refuted : forall d w rnd, (w <= 0 \/ 31 <= w)%Z -> gen_simple d w rnd = UB.
Proof.
  intros d w rnd H. unfold gen_simple. destruct (Z.eq_dec w 0) as [->|K]; [|rewrite one_shl_ub by lia; reflexivity].
  change (one_shl 0) with (Ok 1). rewrite bind_ok. cbv zeta. rewrite one_shl_ub by lia. reflexivity.
Qed.
Print Assumptions C72_simple_width_refuted.
Example C72_simple_example : gen_simple 3 2 (fun i => Z.of_nat (i + 4)) =
  Ok [3; 4; 3;0;4;0; 3;1;5;0; 3;2;6;0; 3;3;7;0; 4; 8;0;0;0; 8;1;1;0; 8;2;2;0; 8;3;3;0; 2; 10;0;0;0; 10;1;2;0]%Z /\
  rand_seq (fun i => Z.of_nat i mod 7)%Z /\ xor_first 1 (fun i => ofZ (Z.of_nat (i + 4))) 2 = ofZ (-38).
Proof.
  split; [vm_compute; reflexivity|]. split; [intro i; pose proof (Z.mod_pos_bound (Z.of_nat i) 7); lia|]. apply F_eq. vm_compute. reflexivity.
Qed.

(** ** Mode 1 *)
(** With a meta file of zeros: every value is doubled [d - 2] times and neighbours are multiplied. *)
Theorem C72_blocked : forall c w rnd, c <= 400 -> 6 <= w <= 26 -> rand_seq rnd ->
  exists ct mt C mx out cv, gen_blocked (Z.of_nat (c + 2)) (Z.of_nat w) rnd = Ok (ct, mt) /\
    read_circuit ct (repeat 0%Z (5 * (c + 2))) = Ok (C, mx) /\ zevaluate C = Ok (out, cv) /\
    (forall j, j < 2 ^ (w - 1) -> exists x, nth_error out j = Some x /\
       rep x (ofZ (2 ^ Z.of_nat c * rnd (2 * j)%nat * (2 ^ Z.of_nat c * rnd (2 * j + 1)%nat)))) /\
    (forall enc ec1 aes fr zr, (forall x, length (enc x) = ec1) -> 0 < ec1 <= 1000 -> is_cipher aes -> stream_ok fr zr ->
       run_zk enc aes fr zr C = Ok true).
Proof.
  intros c w rnd Hc Hw Hr. assert (Hm : forall x, x < 2 ^ w -> gate_ok w (double_gate x)) by (intros; apply double_gate_ok; [lia|assumption]).
  assert (Hl : forall x, x < 2 ^ (w - 1) -> gate_ok w (pair_gate 1 x)) by (intros; apply pair_gate_ok; [lia|assumption]).
  assert (Hw' : 1 <= w <= 30) by lia.
  destruct (mdesc_run w c rnd double_gate (pair_gate 1) Hw' Hr Hm Hl) as (mx & out & cv & E1 & E2 & V & R).
  - intro x. unfold easy. cbn. tauto.
  - intro x. unfold easy. cbn. tauto.
  - exact Hc.
  - destruct (gen_blocked_ok c w rnd Hw Hr) as (mt & s & _ & E0).
    eexists _, _, _, mx, out, cv. split; [exact E0|]. split; [exact E1|]. split; [exact E2|]. split; [|exact R].
    intros j Hj. destruct (V j Hj) as (x & Ex & Rx). exists x. split; [exact Ex|]. clear R V E1 E2 E0.
    rewrite (mdesc_last w c rnd double_gate (pair_gate 1) Hw' Hr Hm Hl ltac:(lia) j Hj) in Rx.
    pose proof (half_double j w ltac:(lia) Hj) as Hj2. pose proof (pow_le30 w ltac:(lia)) as P30.
    assert (S30 : forall y, y < 2 ^ w -> (0 <= Z.of_nat y < 2 ^ 31)%Z) by (intros y Hy; apply small_pow in Hy; lia).
    rewrite (pair_value _ 1 j (w - 1)) in Rx by (try exact Hj; try lia; auto). cbn [Z.eqb] in Rx.
    assert (VS : forall i y, i <= c -> y < 2 ^ w -> vals (denotes (mdesc w c (in_gate rnd) double_gate (pair_gate 1))) (1 + i) y = ofZ (2 ^ Z.of_nat i * rnd y)).
    { induction i as [|i IH]; intros y Hi Hy.
      - rewrite mdesc_input by (try assumption; lia). f_equal. change (2 ^ Z.of_nat 0)%Z with 1%Z. lia.
      - change (1 + S i) with (2 + i). rewrite mdesc_mid by (try assumption; lia). unfold gate_spec, file_gate, double_gate. cbn [f_ty f_u f_v g_ty g_u g_v].
        change ((0 =? 6) || (0 =? 10))%Z with false. cbn iota. rewrite int32_small, Nat2Z.id by (apply S30; exact Hy).
        rewrite !IH by lia. rewrite <- ofZ_add. f_equal. rewrite Nat2Z.inj_succ, Z.pow_succ_r by lia. lia. }
    rewrite !VS in Rx by lia. rewrite <- ofZ_mul in Rx. replace (j * 2) with (2 * j) in Rx by lia. exact Rx.
Qed.
Print Assumptions C72_blocked.
(** The loader refuses the meta file written beside it. *)
Theorem C72_blocked_meta_refuted : forall c w rnd, 6 <= w <= 26 -> rand_seq rnd ->
  exists ct mt, gen_blocked (Z.of_nat (c + 2)) (Z.of_nat w) rnd = Ok (ct, mt) /\ forall x, read_circuit ct mt <> Ok x.
Proof.
  intros c w rnd Hw Hr. destruct (gen_blocked_ok c w rnd Hw Hr) as (mt & s & L & E). eexists _, _. split; [exact E|].
  intros [C mx] H. apply read_circuit_iff in H. destruct H as (D & r1 & r2 & _ & EM & (A0 & _ & LM & FM) & _).
  destruct (d_meta D) as [|m ms] eqn:EMd.
  - destruct (d_layers D); [destruct A0|discriminate LM].
  - cbn [meta_tokens map concat app] in EM. injection EM as E1 _ _ _ E5 _. apply Forall_inv in FM. destruct FM as (_ & _ & _ & _ & _ & FM).
    rewrite <- E1, <- E5 in FM. assert (2 ^ 6 <= 2 ^ w) by (apply Nat.pow_le_mono_r; lia). change (2 ^ 6) with 64 in *. lia.
Qed.
Print Assumptions C72_blocked_meta_refuted.
(** From width 27 on a counter overflows, up to width 5 the program stops. *)
Theorem C72_blocked_width_refuted : forall d w rnd, rand_seq rnd ->
  ((27 <= w)%Z -> gen_blocked d w rnd = UB) /\ ((w <= 5)%Z -> gen_blocked d w rnd = AssertFail).
Proof.
  intros d w rnd Hr. split; [intro H; apply gen_blocked_ub; assumption|]. intro H. unfold gen_blocked. assert (G : (5 <? w)%Z = false) by (apply Z.ltb_ge; lia).
  unfold assert_ at 1. rewrite G. reflexivity.
Qed.
Print Assumptions C72_blocked_width_refuted.
Example C72_blocked_example : match gen_blocked 3 6 (fun i => Z.of_nat i) with
  | Ok (ct, mt) => firstn 10 ct = [3; 64; 3;0;0;0; 3;1;1;0]%Z /\ length ct = 644 /\ firstn 8 (skipn 515 ct) = [32; 1;0;0;1; 1;1;2]%Z /\
                   mt = [32;2;5;1;1146; 32;2;5;1;678; 16;2;4;1;336]%Z
  | _ => False end.
Proof. vm_compute. repeat split; reflexivity. Qed.

(** ** Mode 5 *)
(** Unless the depth is 1 the loader refuses the file, whatever the meta file. *)
Theorem C72_sum_refuted : forall d w, 0 <= w <= 30 -> d <> 1%Z -> exists ct, gen_sum d (Z.of_nat w) = Ok ct /\ forall mt x, read_circuit ct mt <> Ok x.
Proof.
  intros d w Hw Hd. eexists. split; [apply gen_sum_tokens; lia|]. intros mt [C mx] H. apply read_circuit_iff in H.
  destruct H as (D & r1 & r2 & ET & _ & (A & _) & _). unfold circuit_tokens in ET. destruct (d_layers D) as [|l1 L]; [destruct A|].
  cbn [length map concat] in ET. rewrite <- app_comm_cons in ET. apply cons_eq in ET. destruct ET as [E0 ET]. rewrite <- app_assoc in ET. apply layer_tokens_inj in ET. destruct ET as [<- ET].
  destruct L as [|l2 L]; [cbn [length] in E0; lia|]. cbn [map concat] in ET. rewrite <- app_assoc in ET.
  rewrite <- (app_nil_r (layer_tokens [FGate 5 0 0; FGate 5 0 0])) in ET. apply layer_tokens_inj in ET. destruct ET as [<- _].
  destruct A as (_ & _ & (_ & F & _)). apply Forall_inv in F. destruct F as (_ & _ & _ & _ & _ & F & _). cbn [f_ty f_u f_v] in F. lia.
Qed.
Print Assumptions C72_sum_refuted.
(** With depth 1 the summation layer is not read: the output is the input. *)
Theorem C72_sum_depth_one : forall w, 1 <= w <= 30 -> exists ct C mx out cv, gen_sum 1 (Z.of_nat w) = Ok ct /\ read_circuit ct (repeat 0%Z 5) = Ok (C, mx) /\
  zevaluate C = Ok (out, cv) /\ forall j, j < 2 ^ w -> exists x, nth_error out j = Some x /\ rep x 1%F.
Proof.
  intros w Hw. set (D := Desc [row (2 ^ w) (in_gate (fun _ => 1%Z))] [zmeta]).
  assert (OK : desc_ok D).
  { unfold desc_ok, D. cbn [d_layers d_meta]. split; [split; [|split]|split; [|split]].
    - apply size_pow with w; [apply row_length|lia].
    - apply row_forall. intros y _. unfold input_ok, in_gate, is_ll. cbn [f_ty f_u f_v]. lia.
    - exact I.
    - cbn [length]. lia.
    - reflexivity.
    - constructor; [|constructor]. unfold meta_ok, zmeta, is_int. cbn [m_para m_block m_repeat m_log_block m_log_repeat]. lia. }
  destruct (denotes_depth D OK) as [T LC]. change (length (d_layers D)) with 1 in *.
  assert (CC : zcomplete_circuit (denotes D)).
  { apply loaded_zcomplete; [exact OK|constructor; [exists w; apply row_length|constructor]|lia| | |].
    - intros i g Hi. lia.
    - reflexivity.
    - intros i Hi. lia. }
  destruct (evaluated _ CC) as (out & cv & EV & V). eexists _, _, _, out, cv. split; [apply gen_sum_tokens; lia|]. split; [|split; [exact EV|]].
  - apply read_circuit_iff. exists D, (layer_tokens [FGate 5 0 0; FGate 5 0 0]), []. split; [|split; [reflexivity|split; [exact OK|split; reflexivity]]].
    unfold circuit_tokens, D. cbn [d_layers length map concat]. rewrite app_nil_r. reflexivity.
  - intros j Hj. rewrite T in V. cbn [Nat.sub] in V. destruct (V j) as (x & Ex & Rx).
    + destruct (denotes_layer D 1 OK ltac:(cbn; lia)) as [_ ->]. change (file_row D 1) with (row (2 ^ w) (in_gate (fun _ => 1%Z))).
      rewrite row_length, least_bits_pow by lia. exact Hj.
    + exists x. split; [exact Ex|]. rewrite loaded_copy_value in Rx; [|exact OK| |cbn; lia].
      * rewrite (loaded_input_value D j (in_gate (fun _ => 1%Z) j) OK) in Rx; [|apply row_nth; exact Hj|unfold in_gate; cbn [f_u]; lia].
        change (f_u (in_gate (fun _ => 1%Z) j)) with 1%Z in Rx. replace 1%F with (ofZ 1) by (apply F_eq; vm_compute; reflexivity). exact Rx.
      * change (file_row D 1) with (row (2 ^ w) (in_gate (fun _ => 1%Z))). unfold file_gates. rewrite app_length, map_length, row_length. lia.
Qed.
Print Assumptions C72_sum_depth_one.
Example C72_sum_example : gen_sum 2 1 = Ok [2; 2; 3;0;1;0; 3;1;1;0; 2; 5;0;0;0; 5;1;0;0]%Z.
Proof. vm_compute. reflexivity. Qed.
