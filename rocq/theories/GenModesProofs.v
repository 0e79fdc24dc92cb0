(** * Proofs about the remaining modes of the circuit generator *)
From Coq Require Import ZArith List Bool Arith Lia.
From Verif Require Import Limbs LimbsProofs Field FieldProofs Fp Base Circuit FastProver Lazy TablesProofs FastProverProofs FastVerifier FastVerifierProofs
  Loader SpecLoader LoaderProofs ZkEval ZkEvalProofs LoadedProofs SpecTranscript Transcript ZkProver ZkVerifier ZkPhaseProofs ZkPredProofs
  ZkLinkProofs ZkOpenProofs ZkVerifierProofs ZkComplete SpecZk ZkFacts ZkLoaded Gen SpecGen GenProofs GenModes.
Import ListNotations.
Open Scope nat_scope.

(** ** Circuits of [c] equal layers and a half-sized last one *)
Definition mdesc (w c : nat) (hi hm hl : nat -> fgate) : desc :=
  Desc (row (2 ^ w) hi :: repeat (row (2 ^ w) hm) c ++ [row (2 ^ (w - 1)) hl]) (repeat zmeta (c + 2)).
Definition in_gate (rnd : nat -> Z) (y : nat) : fgate := FGate 3 (rnd y) 0.

Section Modes.
Variables (w c : nat) (rnd : nat -> Z) (hm hl : nat -> fgate).
Hypothesis Hw : 1 <= w <= 30.
Hypothesis Hr : rand_seq rnd.
Hypothesis Hm : forall x, x < 2 ^ w -> gate_ok w (hm x).
Hypothesis Hl : forall x, x < 2 ^ (w - 1) -> gate_ok w (hl x).
Let D := mdesc w c (in_gate rnd) hm hl.
Let C := denotes D.

Lemma mdesc_length : length (d_layers D) = c + 2.
Proof. clear Hw Hr Hm Hl. unfold D, mdesc. cbn [d_layers length]. rewrite app_length, repeat_length. cbn. lia. Qed.
Lemma mdesc_row_1 : file_row D 1 = row (2 ^ w) (in_gate rnd).
Proof. reflexivity. Qed.
Lemma mdesc_row_mid : forall i, 2 <= i <= c + 1 -> file_row D i = row (2 ^ w) hm.
Proof.
  clear Hw Hr Hm Hl. intros i H. unfold file_row, D, mdesc. cbn [d_layers]. replace (i - 1) with (S (i - 2)) by lia. cbn [nth].
  rewrite app_nth1 by (rewrite repeat_length; lia). apply (repeat_spec c). apply nth_In. rewrite repeat_length. lia.
Qed.
Lemma mdesc_row_last : file_row D (c + 2) = row (2 ^ (w - 1)) hl.
Proof.
  clear Hw Hr Hm Hl. unfold file_row, D, mdesc. cbn [d_layers]. replace (c + 2 - 1) with (S c) by lia. cbn [nth].
  rewrite app_nth2 by (rewrite repeat_length; lia). rewrite repeat_length, Nat.sub_diag. reflexivity.
Qed.
Lemma mdesc_ok : (Z.of_nat c + 3 < 2 ^ 31)%Z -> desc_ok D.
Proof.
  intro Hc. unfold desc_ok. rewrite mdesc_length. unfold D, mdesc. cbn [d_layers d_meta]. split; [split; [|split]|split; [|split]].
  - apply size_pow with w; [apply row_length|lia].
  - apply row_forall. intros y _. specialize (Hr y). unfold input_ok, in_gate, is_ll. cbn [f_ty f_u f_v]. lia.
  - rewrite row_length, least_bits_pow by lia. clear Hc. induction c as [|k IH]; cbn [repeat app upper_ok].
    + split; [apply size_pow with (w - 1); [apply row_length|lia]|]. split; [apply row_forall; exact Hl|exact I].
    + split; [apply size_pow with w; [apply row_length|lia]|]. split; [apply row_forall; exact Hm|].
      rewrite row_length, least_bits_pow by lia. exact IH.
  - lia.
  - apply repeat_length.
  - apply Forall_forall. intros m Hin. apply repeat_spec in Hin. subst m. unfold meta_ok, zmeta, is_int. cbn [m_para m_block m_repeat m_log_block m_log_repeat]. lia.
Qed.
Lemma mdesc_tokens : circuit_tokens (d_layers D) =
  Z.of_nat (c + 2) :: layer_tokens (row (2 ^ w) (in_gate rnd)) ++ concat (repeat (layer_tokens (row (2 ^ w) hm)) c) ++ layer_tokens (row (2 ^ (w - 1)) hl).
Proof.
  unfold circuit_tokens. rewrite mdesc_length. unfold D, mdesc. cbn [d_layers map concat]. f_equal. f_equal. rewrite map_app, concat_app. f_equal.
  - f_equal. induction c as [|k IH]; [reflexivity|]. cbn [repeat map]. rewrite IH. reflexivity.
  - cbn [map concat]. apply app_nil_r.
Qed.
Lemma mdesc_pow2 : Forall pow2_size (d_layers D).
Proof.
  unfold D, mdesc. cbn [d_layers]. constructor; [exists w; apply row_length|]. apply Forall_app. split.
  - apply Forall_forall. intros l Hin. apply repeat_spec in Hin. subst l. exists w. apply row_length.
  - constructor; [exists (w - 1); apply row_length|constructor].
Qed.
Definition easy (f : fgate) : Prop := In (f_ty f) [0;1;5;8;10]%Z.
Hypothesis Em : forall x, easy (hm x).
Hypothesis El : forall x, easy (hl x).
Lemma mdesc_complete : c <= 400 -> zcomplete_circuit C /\ forall ec1, ec1 <= 1000 -> (Z.of_nat (zmessages C * msize ec1 + 512) < 2 ^ 31)%Z.
Proof.
  intro Hc. pose proof (mdesc_ok ltac:(lia)) as OK. destruct (denotes_depth _ OK) as [T LC]. rewrite mdesc_length in *. fold C in T, LC. split.
  - apply loaded_zcomplete; [exact OK|apply mdesc_pow2|fold C; lia| | |].
    + fold C. intros i g Hi. unfold gate_at. destruct (denotes_layer D i OK ltac:(rewrite mdesc_length; lia)) as [G _]. fold C in G. rewrite G. unfold row_gates.
      destruct (Nat.eqb_spec i 1); [lia|]. left. destruct (file_gate_at (file_row D i) g) as [(f & E & ->)| ->]; [|cbn; tauto].
      apply nth_error_In in E. assert (EF : easy f).
      { destruct (Nat.eq_dec i (c + 2)) as [->|K].
        - rewrite mdesc_row_last in E. unfold row in E. apply in_map_iff in E. destruct E as (x & <- & _). apply El.
        - rewrite mdesc_row_mid in E by lia. unfold row in E. apply in_map_iff in E. destruct E as (x & <- & _). apply Em. }
      unfold easy in EF. unfold file_gate. cbn [g_ty In] in *. tauto.
    + apply denotes_par.
    + intros i Hi Q. exfalso. unfold D, mdesc in Q. rewrite denotes_par in Q. discriminate.
  - intros ec1 He. assert (M : max_bit_length C <= 30).
    { apply circuit_max; [exact OK|lia|]. apply Forall_forall. intros l Hin.
      assert (Q : forall m, m <= 30 -> 2 ^ m <= 2 ^ 30) by (intros; apply Nat.pow_le_mono_r; lia).
      unfold D, mdesc in Hin. cbn [d_layers In] in Hin. destruct Hin as [<-|Hin]; [rewrite row_length; apply Q; lia|].
      apply in_app_or in Hin. destruct Hin as [Hin|[<-|[]]]; [apply repeat_spec in Hin; subst l|]; rewrite row_length; apply Q; lia. }
    assert (BM : forall i, i < total_depth C -> bit_length (layer_at C i) <= 30).
    { intros i Hi. etransitivity; [|exact M]. apply bit_length_max. lia. }
    unfold zmessages, msize. pose proof (BM 0 ltac:(lia)). pose proof (BM (total_depth C - 1) ltac:(lia)). rewrite T in *.
    set (b0 := bit_length (layer_at C 0)) in *. set (bd := bit_length (layer_at C (S (c + 2) - 1))) in *.
    set (mm := max_bit_length C) in *.
    assert (X : (S (c + 2) - 1) * (18 * mm + 24) <= 402 * 564) by (apply Nat.mul_le_mono; lia).
    set (q := (S (c + 2) - 1) * (18 * mm + 24)) in *.
    assert (Y : (Z.of_nat (Nat.max 256 (8 * ec1)) <= 8000)%Z) by lia.
    assert (Z : (Z.of_nat (4 + 2 * bd + q + 2 * (b0 + 1)) <= 250000)%Z) by lia.
    rewrite Nat2Z.inj_add, Nat2Z.inj_mul.
    assert (W : (Z.of_nat (4 + 2 * bd + q + 2 * (b0 + 1)) * Z.of_nat (Nat.max 256 (8 * ec1)) <= 250000 * 8000)%Z) by (apply Z.mul_le_mono_nonneg; lia).
    lia.
Qed.
Lemma mdesc_input : (Z.of_nat c + 3 < 2 ^ 31)%Z -> forall y, y < 2 ^ w -> vals C 1 y = ofZ (rnd y).
Proof.
  intros Hc y Hy. pose proof (mdesc_ok Hc) as OK. unfold C. rewrite loaded_copy_value; [|exact OK| |rewrite mdesc_length; lia].
  - rewrite (loaded_input_value D y (in_gate rnd y) OK); [reflexivity|rewrite mdesc_row_1; apply row_nth; exact Hy|]. unfold in_gate. cbn [f_u]. apply Hr.
  - rewrite mdesc_row_1. unfold file_gates. rewrite app_length, map_length, row_length. lia.
Qed.
Lemma mdesc_mid : (Z.of_nat c + 3 < 2 ^ 31)%Z -> forall i y, i < c -> y < 2 ^ w -> vals C (2 + i) y = gate_spec (vals C (1 + i)) (file_gate (hm y)).
Proof.
  intros Hc i y Hi Hy. pose proof (mdesc_ok Hc) as OK. unfold C. rewrite (loaded_gate_value D (2 + i) y (hm y) OK).
  - reflexivity.
  - rewrite mdesc_length. lia.
  - rewrite mdesc_row_mid by lia. apply row_nth. exact Hy.
Qed.
Lemma mdesc_last : (Z.of_nat c + 3 < 2 ^ 31)%Z -> forall y, y < 2 ^ (w - 1) -> vals C (c + 2) y = gate_spec (vals C (1 + c)) (file_gate (hl y)).
Proof.
  intros Hc y Hy. pose proof (mdesc_ok Hc) as OK. unfold C. rewrite (loaded_gate_value D (c + 2) y (hl y) OK).
  - replace (c + 2 - 1) with (1 + c) by lia. reflexivity.
  - rewrite mdesc_length. lia.
  - rewrite mdesc_row_last. apply row_nth. exact Hy.
Qed.
(** Loading with a meta file of zeros, evaluation and the honest run *)
Lemma mdesc_run : c <= 400 -> exists mx out cv,
  read_circuit (circuit_tokens (d_layers D)) (repeat 0%Z (5 * (c + 2))) = Ok (C, mx) /\ zevaluate C = Ok (out, cv) /\
  (forall j, j < 2 ^ (w - 1) -> exists x, nth_error out j = Some x /\ rep x (vals C (c + 2) j)) /\
  (forall enc ec1 aes fr zr, (forall x, length (enc x) = ec1) -> 0 < ec1 <= 1000 -> is_cipher aes -> stream_ok fr zr ->
     run_zk enc aes fr zr C = Ok true).
Proof.
  intro Hc. pose proof (mdesc_ok ltac:(lia)) as OK. destruct (mdesc_complete Hc) as [CC MB]. destruct (evaluated _ CC) as (out & cv & EV & V).
  destruct (denotes_depth _ OK) as [T _]. rewrite mdesc_length in *. fold C in T. eexists _, out, cv. split; [|split; [exact EV|split]].
  - apply read_circuit_iff. exists D, [], []. split; [symmetry; apply app_nil_r|]. split; [|split; [exact OK|split; reflexivity]].
    rewrite app_nil_r. symmetry. apply meta_zero.
  - intros j Hj. rewrite T in V. replace (S (c + 2) - 1) with (c + 2) in V by lia. apply V.
    destruct (denotes_layer D (c + 2) OK ltac:(rewrite mdesc_length; lia)) as [_ EB]. fold C in EB. rewrite EB, mdesc_row_last, row_length. unfold least_bits. rewrite log2_up_pow2.
    apply Nat.lt_le_trans with (2 ^ (w - 1)); [exact Hj|]. apply Nat.pow_le_mono_r; lia.
  - intros enc ec1 aes fr zr Henc Hec Ha Hst. apply (zk_complete enc ec1); try assumption; try lia. apply MB. lia.
Qed.
End Modes.

(** ** Printed lines *)
Lemma line_tokens : forall n h f, (forall x, x < n -> tokens (f x) = [f_ty (h x); Z.of_nat x; f_u (h x); f_v (h x)]) ->
  tokens (line n f) = layer_tokens (row n h).
Proof.
  intros n h f H. unfold line. rewrite <- (row_tokens n h f H). cbn [tokens flat_map item_val app]. change (flat_map item_val) with tokens.
  rewrite tokens_app. cbn [tokens flat_map item_val]. rewrite app_nil_r. reflexivity.
Qed.
Lemma tokens_repeat : forall o n, tokens (concat (repeat o n)) = concat (repeat (tokens o) n).
Proof. intros o n. induction n as [|n IH]; [reflexivity|]. cbn [repeat concat]. rewrite tokens_app, IH. reflexivity. Qed.
Lemma one_shl_ok : forall w, w <= 30 -> one_shl (Z.of_nat w) = Ok (2 ^ w).
Proof.
  intros w H. unfold one_shl. assert (E : ((0 <=? Z.of_nat w) && (Z.of_nat w <? 31))%Z = true) by (apply andb_true_iff; split; [apply Z.leb_le|apply Z.ltb_lt]; lia).
  rewrite E, Nat2Z.id. reflexivity.
Qed.
Lemma one_shl_ub : forall w, (w < 0 \/ 31 <= w)%Z -> one_shl w = UB.
Proof.
  intros w H. unfold one_shl. assert (E : ((0 <=? w) && (w <? 31))%Z = false) by (apply andb_false_iff; destruct H; [left; apply Z.leb_gt|right; apply Z.ltb_ge]; lia).
  rewrite E. reflexivity.
Qed.

(** ** Mode 0 *)
Definition xor_gate (j : nat) : fgate := FGate 8 (Z.of_nat j) 0.
Definition relay_gate (j : nat) : fgate := FGate 10 (Z.of_nat (2 * j)) 0.
Lemma small_pow : forall x w, x < 2 ^ w -> (Z.of_nat x < 2 ^ Z.of_nat w)%Z.
Proof. intros x w H. rewrite <- LoadedProofs.pow_Z. lia. Qed.
Lemma pow_le30 : forall w, w <= 30 -> (2 ^ Z.of_nat w <= 2 ^ 30)%Z.
Proof. intros. apply Z.pow_le_mono_r; lia. Qed.
Lemma half_double : forall x w, 1 <= w -> x < 2 ^ (w - 1) -> 2 * x + 1 < 2 ^ w.
Proof. intros x w Hw H. replace w with (S (w - 1)) by lia. rewrite Nat.pow_succ_r'. lia. Qed.
Lemma xor_gate_ok : forall w x, w <= 30 -> x < 2 ^ w -> gate_ok w (xor_gate x).
Proof.
  intros w x Hw Hx. apply small_pow in Hx. pose proof (pow_le30 w Hw). unfold gate_ok, xor_gate, is_int, is_ll. cbn [f_ty f_u f_v]. lia.
Qed.
Lemma relay_gate_ok : forall w x, 1 <= w <= 30 -> x < 2 ^ (w - 1) -> gate_ok w (relay_gate x).
Proof.
  intros w x Hw Hx. apply half_double in Hx; [|lia]. assert (Hx' : 2 * x < 2 ^ w) by lia. apply small_pow in Hx'. pose proof (pow_le30 w ltac:(lia)).
  unfold gate_ok, relay_gate, is_int, is_ll. cbn [f_ty f_u f_v]. lia.
Qed.
Lemma gen_simple_ok : forall c w rnd, 1 <= w <= 30 ->
  gen_simple (Z.of_nat (c + 2)) (Z.of_nat w) rnd = Ok (circuit_tokens (d_layers (mdesc w c (in_gate rnd) xor_gate relay_gate))).
Proof.
  intros c w rnd Hw. unfold gen_simple. rewrite one_shl_ok, bind_ok by lia. cbv zeta. replace (Z.of_nat w - 1)%Z with (Z.of_nat (w - 1)) by lia.
  rewrite one_shl_ok, bind_ok by lia. f_equal. rewrite mdesc_tokens. cbn [tokens flat_map item_val app]. change (flat_map item_val) with tokens. f_equal.
  replace (Z.to_nat (Z.of_nat (c + 2) - 2)) with c by lia. rewrite !tokens_app, tokens_repeat. f_equal; [|f_equal].
  - apply line_tokens. reflexivity.
  - f_equal. f_equal. apply line_tokens. reflexivity.
  - apply line_tokens. reflexivity.
Qed.

(** ** Mode 1 *)
Definition double_gate (j : nat) : fgate := FGate 0 (Z.of_nat j) (Z.of_nat j).
Lemma double_gate_ok : forall w x, w <= 30 -> x < 2 ^ w -> gate_ok w (double_gate x).
Proof.
  intros w x Hw Hx. apply small_pow in Hx. pose proof (pow_le30 w Hw). unfold gate_ok, double_gate, is_int, is_ll. cbn [f_ty f_u f_v]. lia.
Qed.
Lemma pair_gate_ok : forall w x, 1 <= w <= 30 -> x < 2 ^ (w - 1) -> gate_ok w (pair_gate 1 x).
Proof.
  intros w x Hw Hx. apply half_double in Hx; [|lia]. apply small_pow in Hx. pose proof (pow_le30 w ltac:(lia)).
  unfold gate_ok, pair_gate, is_int, is_ll. cbn [f_ty f_u f_v]. lia.
Qed.
Lemma digits_lt : forall k f z, (z < 10 ^ Z.of_nat (S k))%Z -> (digits f z <= Z.of_nat (S k))%Z.
Proof.
  induction k as [|k IH]; intros f z H.
  - change (10 ^ Z.of_nat 1)%Z with 10%Z in H. destruct f as [|f]; cbn [digits]; [lia|]. destruct (Z.ltb_spec z 10); lia.
  - destruct f as [|f]; cbn [digits]; [lia|]. destruct (Z.ltb_spec z 10); [lia|].
    assert (digits f (z / 10) <= Z.of_nat (S k))%Z; [|lia]. apply IH. apply Z.div_lt_upper_bound; [lia|].
    rewrite Nat2Z.inj_succ, Z.pow_succ_r in H by lia. exact H.
Qed.
Lemma digits_one : forall f z, (z < 10)%Z -> digits f z = 1%Z.
Proof. intros f z H. destruct f as [|f]; cbn [digits]; [reflexivity|]. destruct (Z.ltb_spec z 10); [reflexivity|lia]. Qed.
Lemma dec_bound : forall x, (Z.of_nat x < 10 ^ 8)%Z -> (1 <= item_len (Dec (Z.of_nat x)) <= 9)%Z.
Proof. intros x H. pose proof (digits_lt 7 10 (Z.of_nat x) H). pose proof (digits_bound 10 (Z.of_nat x)). cbn [item_len]. lia. Qed.
Lemma olen_flat_in : forall A (f : A -> list item) lo hi l, (forall x, In x l -> lo <= olen (f x) <= hi)%Z ->
  (lo * Z.of_nat (length l) <= olen (flat_map f l) <= hi * Z.of_nat (length l))%Z.
Proof.
  intros A f lo hi l. induction l as [|x l IH]; intro H; [cbn; lia|]. cbn [flat_map length]. rewrite olen_app.
  pose proof (H x (or_introl eq_refl)). specialize (IH (fun y Hy => H y (or_intror Hy))). lia.
Qed.
Lemma line_len : forall n f lo hi, (forall x, (x < n)%nat -> lo <= olen (f x) <= hi)%Z ->
  (lo * Z.of_nat n <= olen (line n f) <= hi * Z.of_nat n + 13)%Z.
Proof.
  intros n f lo hi H. unfold line. pose proof (olen_flat_in _ f lo hi (seq 0 n) ltac:(intros x Hx; apply in_seq in Hx; apply H; lia)) as B. rewrite seq_length in B.
  change (olen (Dec (Z.of_nat n) :: flat_map f (seq 0 n) ++ [Newline])) with (item_len (Dec (Z.of_nat n)) + olen (flat_map f (seq 0 n) ++ [Newline]))%Z.
  rewrite olen_app. change (olen [Newline]) with 1%Z. pose proof (item_bound (Dec (Z.of_nat n))). lia.
Qed.
Lemma gate_items_small : forall ty g u v, (ty < 10)%Z -> (Z.of_nat g < 10 ^ 8 -> Z.of_nat u < 10 ^ 8 -> Z.of_nat v < 10 ^ 8 ->
  8 <= olen (gate_items ty g u v) <= 29)%Z.
Proof.
  intros ty g u v T Hg Hu Hv. unfold gate_items, olen. cbn [fold_right].
  assert (ET : item_len (Dec ty) = 2%Z) by (cbn [item_len]; rewrite digits_one by exact T; reflexivity).
  assert (L : forall x, (2 <= item_len (Dec (Z.of_nat x)))%Z) by (intro x; cbn [item_len]; pose proof (digits_bound 10 (Z.of_nat x)); lia).
  pose proof (dec_bound g Hg). pose proof (dec_bound u Hu). pose proof (dec_bound v Hv). pose proof (L g). pose proof (L u). pose proof (L v). lia.
Qed.
Lemma input_items_small : forall g x, (Z.of_nat g < 10 ^ 8)%Z -> (0 <= x < 2 ^ 31)%Z -> (17 <= olen (input_items g x) <= 24)%Z.
Proof.
  intros g x Hg Hx. pose proof (input_items_bound g x) as B. split; [apply B|]. unfold input_items, olen. cbn [fold_right].
  pose proof (dec_bound g Hg). assert (D : (digits 10 x <= 10)%Z) by (apply (digits_lt 9); change (10 ^ Z.of_nat 10)%Z with 10000000000%Z; lia).
  change (item_len (Dec 3)) with 2%Z. change (item_len (Dec 0)) with 2%Z. cbn [item_len] in *. lia.
Qed.
Lemma block_div : forall w, 5 <= w -> 2 ^ w / 2 ^ (w - 5) = 32.
Proof.
  intros w H. replace w with (5 + (w - 5)) at 1 by lia. rewrite Nat.pow_add_r. rewrite Nat.div_mul by (apply Nat.pow_nonzero; lia). reflexivity.
Qed.
Lemma block_div' : forall w, 6 <= w -> 2 ^ (w - 1) / 2 ^ (w - 5) = 16 /\ 2 ^ (w - 5) * 16 = 2 ^ (w - 1).
Proof.
  intros w H. assert (E : 2 ^ (w - 1) = 16 * 2 ^ (w - 5)) by (replace (w - 1) with (4 + (w - 5)) by lia; rewrite Nat.pow_add_r; reflexivity).
  rewrite E. split; [|lia]. apply Nat.div_mul. apply Nat.pow_nonzero. lia.
Qed.
Lemma pow26 : forall w, w <= 26 -> (Z.of_nat (2 ^ w) <= 67108864)%Z.
Proof. intros w H. rewrite LoadedProofs.pow_Z. change 67108864%Z with (2 ^ 26)%Z. apply Z.pow_le_mono_r; lia. Qed.
Lemma double_layers_ok : forall w c, 6 <= w <= 26 -> exists o m,
  double_layers (2 ^ w) (2 ^ (w - 5)) (Z.of_nat w) c = Ok (o, m) /\ tokens o = concat (repeat (layer_tokens (row (2 ^ w) double_gate)) c).
Proof.
  intros w c Hw. induction c as [|c (o & m & E & T)]; [exists [], []; split; reflexivity|]. cbn [double_layers].
  pose proof (pow26 w ltac:(lia)) as B.
  pose proof (line_len (2 ^ w) (fun j => gate_items 0 j j j) 8 29) as L. specialize (L ltac:(intros x Hx; apply gate_items_small; lia)).
  rewrite str_length_ok, bind_ok by lia. rewrite block_div by lia.
  assert (G : (32 <=? 2 ^ w) = true). { apply Nat.leb_le. change 32 with (2 ^ 5). apply Nat.pow_le_mono_r; lia. }
  unfold assert_. rewrite G, bind_ok, E, bind_ok. eexists _, _. split; [reflexivity|]. rewrite tokens_app, T. cbn [repeat concat]. f_equal. apply line_tokens. reflexivity.
Qed.
Lemma last_flat : forall w, 6 <= w -> loop2 (2 ^ (w - 5)) 16 (fun i j => gate_items 1 (i * 16 + j) (i * 16 * 2 + j * 2) (i * 16 * 2 + j * 2 + 1)) =
  flat_map (fun x => gate_items 1 x (x * 2) (x * 2 + 1)) (seq 0 (2 ^ (w - 1))).
Proof.
  intros w Hw. destruct (block_div' w Hw) as [_ <-]. apply loop2_flat. intros i j _ _.
  replace (i * 16 * 2 + j * 2) with ((i * 16 + j) * 2) by lia. reflexivity.
Qed.
Lemma gen_blocked_ok : forall c w rnd, 6 <= w <= 26 -> rand_seq rnd -> exists mt s, (17 * Z.of_nat (2 ^ w) <= s)%Z /\
  gen_blocked (Z.of_nat (c + 2)) (Z.of_nat w) rnd =
    Ok (circuit_tokens (d_layers (mdesc w c (in_gate rnd) double_gate (pair_gate 1))),
        [32; Z.of_nat (2 ^ (w - 5)); 5; Z.of_nat w - 5; s]%Z ++ mt).
Proof.
  intros c w rnd Hw Hr. unfold gen_blocked. pose proof (pow26 w ltac:(lia)) as B. destruct (block_div' w ltac:(lia)) as [B1 B2].
  assert (G0 : (5 <? Z.of_nat w)%Z = true) by (apply Z.ltb_lt; lia).
  assert (G1 : (2 ^ (w - 5) <=? 2 ^ w) = true) by (apply Nat.leb_le; apply Nat.pow_le_mono_r; lia).
  assert (G2 : (16 <=? 2 ^ (w - 1)) = true) by (apply Nat.leb_le; change 16 with (2 ^ 4); apply Nat.pow_le_mono_r; lia).
  unfold assert_ at 1. rewrite G0, bind_ok. rewrite one_shl_ok, bind_ok by lia. replace (Z.of_nat w - 5)%Z with (Z.of_nat (w - 5)) by lia.
  rewrite one_shl_ok, bind_ok by lia. unfold assert_ at 1. rewrite G1, bind_ok. cbv zeta.
  pose proof (line_len (2 ^ w) (fun j => input_items j (rnd j)) 17 24) as L1. specialize (L1 ltac:(intros x Hx; apply input_items_small; [lia|apply Hr])).
  rewrite str_length_ok, bind_ok by lia. replace (Z.to_nat (Z.of_nat (c + 2) - 2)) with c by lia.
  destruct (double_layers_ok w c Hw) as (o2 & m2 & E2 & T2). rewrite E2, bind_ok. replace (Z.of_nat w - 1)%Z with (Z.of_nat (w - 1)) by lia.
  rewrite one_shl_ok, bind_ok by lia. rewrite B1, block_div by lia. rewrite last_flat by lia.
  change (Dec (Z.of_nat (2 ^ (w - 1))) :: flat_map (fun x => gate_items 1 x (x * 2) (x * 2 + 1)) (seq 0 (2 ^ (w - 1))) ++ [Newline])
    with (line (2 ^ (w - 1)) (fun x => gate_items 1 x (x * 2) (x * 2 + 1))).
  pose proof (line_len (2 ^ (w - 1)) (fun x => gate_items 1 x (x * 2) (x * 2 + 1)) 8 29) as L3.
  specialize (L3 ltac:(intros x Hx; apply half_double in Hx; [|lia]; apply gate_items_small; lia)).
  assert (2 ^ (w - 1) <= 2 ^ w) by (apply Nat.pow_le_mono_r; lia).
  rewrite str_length_ok, bind_ok by lia. unfold assert_. rewrite G2, bind_ok. eexists _, _. split; [|f_equal; f_equal].
  - apply L1.
  - rewrite mdesc_tokens. cbn [tokens flat_map item_val app]. change (flat_map item_val) with tokens. f_equal. rewrite !tokens_app, T2. f_equal; [|f_equal].
    + apply line_tokens. reflexivity.
    + apply line_tokens. reflexivity.
Qed.
Lemma gen_blocked_ub : forall d w rnd, (27 <= w)%Z -> rand_seq rnd -> gen_blocked d w rnd = UB.
Proof.
  intros d w rnd Hw Hr. unfold gen_blocked. assert (G0 : (5 <? w)%Z = true) by (apply Z.ltb_lt; lia). unfold assert_ at 1. rewrite G0, bind_ok.
  destruct (Z_le_gt_dec 31 w) as [K|K]; [rewrite one_shl_ub by lia; reflexivity|].
  replace w with (Z.of_nat (Z.to_nat w)) by lia. set (k := Z.to_nat w). assert (Hk : 27 <= k <= 30) by lia. clearbody k.
  rewrite one_shl_ok, bind_ok by lia. replace (Z.of_nat k - 5)%Z with (Z.of_nat (k - 5)) by lia. rewrite one_shl_ok, bind_ok by lia.
  assert (G1 : (2 ^ (k - 5) <=? 2 ^ k) = true) by (apply Nat.leb_le; apply Nat.pow_le_mono_r; lia). unfold assert_ at 1. rewrite G1, bind_ok. cbv zeta.
  pose proof (line_len (2 ^ k) (fun j => input_items j (rnd j)) 17 48) as L1. specialize (L1 ltac:(intros; apply input_items_bound)).
  assert (B : (134217728 <= Z.of_nat (2 ^ k))%Z) by (rewrite LoadedProofs.pow_Z; change 134217728%Z with (2 ^ 27)%Z; apply Z.pow_le_mono_r; lia).
  rewrite str_length_ub by lia. reflexivity.
Qed.

(** ** Mode 5 *)
Lemma gate_tokens_inj : forall l l' s r r', length l = length l' -> gate_tokens s l ++ r = gate_tokens s l' ++ r' -> l = l' /\ r = r'.
Proof.
  induction l as [|f l IH]; intros [|f' l'] s r r' L E; cbn [length] in L; try discriminate; [split; [reflexivity|exact E]|].
  cbn [gate_tokens app] in E. injection E as E1 E2 E3 E4. destruct (IH l' (S s) r r') as [-> ->]; [congruence|exact E4|].
  split; [|reflexivity]. f_equal. destruct f as [a b e], f' as [a' b' e']. cbn [f_ty f_u f_v] in *. congruence.
Qed.
Lemma layer_tokens_inj : forall l l' r r', layer_tokens l ++ r = layer_tokens l' ++ r' -> l = l' /\ r = r'.
Proof. intros l l' r r' E. unfold layer_tokens in E. cbn [app] in E. injection E as E1 E2. apply (gate_tokens_inj l l' 0); [lia|exact E2]. Qed.
Lemma gen_sum_tokens : forall d w, w <= 30 -> gen_sum d (Z.of_nat w) =
  Ok (d :: layer_tokens (row (2 ^ w) (in_gate (fun _ => 1%Z))) ++ layer_tokens [FGate 5 0 0; FGate 5 0 0]).
Proof.
  intros d w Hw. unfold gen_sum. rewrite one_shl_ok, bind_ok by lia. cbv zeta. f_equal. cbn [tokens flat_map item_val app]. change (flat_map item_val) with tokens.
  f_equal. f_equal. apply line_tokens. reflexivity.
Qed.
Lemma cons_eq : forall A (x y : A) l r, x :: l = y :: r -> x = y /\ l = r.
Proof. intros A x y l r H. injection H as -> ->. split; reflexivity. Qed.
