(** Proofs about the direct Lanczos circuit generator (LanczosPrint.v). *)
From Coq Require Import ZArith List Bool Arith Lia.
From Verif Require Import Limbs LimbsProofs Field FieldProofs Fp Base Circuit FastProver Lazy TablesProofs FastProverProofs FastVerifier FastVerifierProofs
  Loader SpecLoader LoaderProofs ZkEval ZkEvalProofs LoadedProofs LoadedUb SpecTranscript Transcript ZkProver ZkVerifier ZkPhaseProofs ZkPredProofs
  ZkLinkProofs ZkOpenProofs ZkVerifierProofs ZkComplete SpecZk ZkFacts ZkLoaded Gen SpecGen GenProofs GenModes GenModesProofs SpecCompiler CompilerCircuit LanczosPrint.
Import ListNotations.
Open Scope nat_scope.

Lemma bit_len_gt : forall n, n < 2 ^ bit_len n.
Proof. intros [|n]; [cbn; lia|]. unfold bit_len. apply Nat.log2_spec. lia. Qed.
Lemma bit_len_le : forall n m, n < 2 ^ m -> bit_len n <= m.
Proof. intros [|n] m H; [cbn; lia|]. unfold bit_len. apply Nat.log2_lt_pow2 in H; lia. Qed.
Lemma bit_len_pos : forall n, 1 <= n -> 1 <= bit_len n.
Proof. intros [|n] H; [lia|]. cbn. lia. Qed.
Lemma padded : forall n, n + padding n = 2 ^ bit_len n.
Proof. intro n. unfold padding. pose proof (bit_len_gt n). lia. Qed.
Lemma odd_pow2 : forall b m q, Nat.Odd m -> m * q = 2 ^ b -> m = 1.
Proof.
  induction b as [|b IH]; intros m q O E.
  - cbn in E. apply Nat.eq_mul_1 in E. tauto.
  - rewrite Nat.pow_succ_r' in E. destruct (Nat.Even_or_Odd q) as [[t ->]|[t Ht]].
    + apply (IH m t O). nia.
    + exfalso. destruct O as [s ->]. subst q. assert (Nat.Even (2 * 2 ^ b)) by (exists (2 ^ b); reflexivity).
      rewrite <- E in H. assert (Nat.Odd ((2 * s + 1) * (2 * t + 1))) by (exists (2 * s * t + s + t); ring).
      apply (Nat.Even_Odd_False ((2 * s + 1) * (2 * t + 1))); assumption.
Qed.
Lemma factor_pow2 : forall b m q, m * q = 2 ^ b -> exists k, m = 2 ^ k.
Proof.
  induction b as [|b IH]; intros m q E; [cbn in E; apply Nat.eq_mul_1 in E; exists 0; tauto|].
  destruct (Nat.Even_or_Odd m) as [[t ->]|O].
  - rewrite Nat.pow_succ_r' in E. destruct (IH t q) as [k ->]; [nia|]. exists (S k). rewrite Nat.pow_succ_r'. reflexivity.
  - exists 0. exact (odd_pow2 (S b) m q O E).
Qed.
Lemma sub_padded : forall r, 1 <= r -> (0 <? 2 ^ bit_len (16 * r * r + 2 * r - 1) - (16 * r * r + 2 * r)) = true.
Proof.
  intros r Hr. apply Nat.ltb_lt. pose proof (bit_len_gt (16 * r * r + 2 * r - 1)) as H. set (b := bit_len _) in *.
  assert (2 ^ b <> 16 * r * r + 2 * r); [|lia]. intro E.
  assert (8 * r + 1 = 1); [|lia]. apply (odd_pow2 b _ (2 * r)); [exists (4 * r); lia|]. rewrite E. ring.
Qed.

(** ** Tokens *)
Definition gtok (h : nat -> fgate) (x : nat) : list Z := [f_ty (h x); Z.of_nat x; f_u (h x); f_v (h x)].
Lemma row_tok : forall n h, layer_tokens (row n h) = Z.of_nat n :: flat_map (gtok h) (seq 0 n).
Proof. intros n h. unfold layer_tokens. rewrite row_length. f_equal. unfold row. apply gate_tokens_flat. Qed.
Definition padh (n : nat) (h : nat -> fgate) (x : nat) : fgate := if x <? n then h x else FGate 2 0 0.
Lemma pad_tok : forall n h l, l = flat_map (gtok h) (seq 0 n) ->
  Z.of_nat (n + padding n) :: l ++ padding_gates n = layer_tokens (row (2 ^ bit_len n) (padh n h)).
Proof.
  intros n h l ->. rewrite row_tok, <- padded. f_equal. rewrite seq_app, flat_map_app. f_equal.
  - apply flat_map_ext_in. intros x Hx. apply in_seq in Hx. unfold gtok, padh. replace (x <? n) with true by (symmetry; apply Nat.ltb_lt; lia). reflexivity.
  - rewrite flat_map_shift. unfold padding_gates. apply flat_map_ext_in. intros x _. rewrite Nat.add_0_l. unfold gtok, padh.
    replace (n + x <? n) with false by (symmetry; apply Nat.ltb_ge; lia). reflexivity.
Qed.
(** The coefficient used for position [c] of a row. *)
Definition cid (r c : nat) : Z := if c <? 2 * r then Z.of_nat c else (4 * Z.of_nat r - 2 - Z.of_nat c)%Z.
Lemma conv_tok : forall (cnt c0 pix gate r : nat) (T : Z), c0 + cnt <= 4 * r ->
  conv cnt (pix + c0) (gate + c0) (cid r c0) (if c0 <? 2 * r then 1%Z else (-1)%Z) (Z.of_nat r) T =
  flat_map (fun c => four 1 (Z.of_nat (gate + c)) (Z.of_nat (pix + c)) (cid r c + T)) (seq c0 cnt).
Proof.
  induction cnt as [|cnt IH]; intros c0 pix gate r T H; [reflexivity|]. cbn [conv seq flat_map]. cbv zeta. f_equal.
  rewrite <- (IH (S c0)) by lia. rewrite !Nat.add_succ_r.
  assert (E : (if (cid r c0 + 1 =? 2 * Z.of_nat r)%Z then (-1)%Z else if c0 <? 2 * r then 1%Z else (-1)%Z) = (if S c0 <? 2 * r then 1%Z else (-1)%Z)).
  { unfold cid. destruct (Nat.ltb_spec c0 (2 * r)), (Nat.ltb_spec (S c0) (2 * r)); match goal with |- context [(?a =? ?b)%Z] => destruct (Z.eqb_spec a b) end; lia. }
  rewrite E. f_equal. unfold cid. destruct (Nat.ltb_spec c0 (2 * r)), (Nat.ltb_spec (S c0) (2 * r)); lia.
Qed.

Section Gen.
Variables (r n : nat) (rnd : nat -> Z) (cs : list Z).
Let np := (n + 3) * r.
Let T := np * np.
Let n1 := T + 2 * r.
Let n2 := n * n * (4 * r * (4 * r)).
Let n3 := n * n * 4 * r.
Hypothesis Hr : 1 <= r.
Hypothesis Hn0 : 1 <= n.
Hypothesis Hlen : length cs = 2 * r.
Hypothesis Hll : forall c, In c cs -> is_ll c.
Hypothesis Hrnd : forall i, (0 <= rnd i <= 256)%Z.
Hypothesis B1 : n1 < 2 ^ 30.
Hypothesis B2 : n2 < 2 ^ 30.

Definition h_in (x : nat) : fgate := FGate 3 (if x <? T then rnd x else nth (x - T) cs 0%Z) 0.
Definition h_prod (x : nat) : fgate :=
  let w := x / (4 * r) / (4 * r) in
  FGate 1 (Z.of_nat (np * (r * (w mod n) + x / (4 * r) mod (4 * r)) + r * (w / n) + x mod (4 * r))) (cid r (x mod (4 * r)) + Z.of_nat T).
Definition h_sum (x : nat) : fgate := FGate 5 (Z.of_nat (x * (4 * r))) (Z.of_nat (x * (4 * r) + 4 * r)).
Definition pdesc : desc := Desc [row (2 ^ bit_len n1) (padh n1 h_in); row (2 ^ bit_len n2) (padh n2 h_prod);
  row (2 ^ bit_len n3) (padh n3 h_sum); row (n * n) h_sum] (repeat zmeta 4).

Lemma n_pos : 1 <= n.
Proof. exact Hn0. Qed.
Lemma div_at : forall a b m, b < m -> (a * m + b) / m = a /\ (a * m + b) mod m = b.
Proof.
  clear. intros a b m H. rewrite (Nat.add_comm (a * m)), Nat.div_add, Nat.mod_add by lia.
  rewrite Nat.div_small, Nat.mod_small by exact H. lia.
Qed.
Lemma loop_flat : forall A (f g : nat -> list A) (F : nat -> nat -> list A) a b,
  (forall i j, i < a -> j < b -> F i j = g (i * b + j)) ->
  flat_map (fun i => flat_map (fun j => F i j) (seq 0 b)) (seq 0 a) = flat_map g (seq 0 (a * b)).
Proof. intros A f g F a b H. apply (loop2_flat A a b F g H). Qed.

Lemma product_tok : product_gates r np n = flat_map (gtok h_prod) (seq 0 n2).
Proof.
  clear B1 B2 Hll Hrnd Hlen. pose proof n_pos as Hn. unfold product_gates, n2.
  set (G := fun w => flat_map (fun y => flat_map (fun c => gtok h_prod ((w * (4 * r) + y) * (4 * r) + c)) (seq 0 (4 * r))) (seq 0 (4 * r))).
  transitivity (flat_map G (seq 0 (n * n))).
  - apply loop_flat; [exact (fun _ => [])|]. intros xr yr Hx Hy. unfold G. apply flat_map_ext_in. intros y Iy. apply in_seq in Iy.
    set (pix := np * (r * yr + y) + r * xr). set (gate := (xr * n + yr) * (16 * r * r) + y * (4 * r)).
    rewrite <- (Nat.add_0_r pix), <- (Nat.add_0_r gate). change 0%Z with (Z.of_nat 0) at 1.
    replace (Z.of_nat 0) with (cid r 0) by (unfold cid; destruct (Nat.ltb_spec 0 (2 * r)); [reflexivity|lia]).
    replace 1%Z with (if 0 <? 2 * r then 1%Z else (-1)%Z) by (destruct (Nat.ltb_spec 0 (2 * r)); [reflexivity|lia]).
    rewrite conv_tok by lia. apply flat_map_ext_in. intros c Ic. apply in_seq in Ic.
    unfold gtok, h_prod, four. cbv zeta. cbn [f_ty f_u f_v].
    destruct (div_at ((xr * n + yr) * (4 * r) + y) c (4 * r)) as [-> ->]; [lia|].
    destruct (div_at (xr * n + yr) y (4 * r)) as [-> ->]; [lia|].
    destruct (div_at xr yr n) as [-> ->]; [exact Hy|].
    unfold pix, gate, T. f_equal. f_equal. f_equal. ring.
  - unfold G. transitivity (flat_map (fun w => flat_map (fun y => flat_map (gtok h_prod) (seq ((w * (4 * r) + y) * (4 * r)) (4 * r))) (seq 0 (4 * r))) (seq 0 (n * n))).
    + apply flat_map_ext_in. intros w _. apply flat_map_ext_in. intros y _. symmetry. apply flat_map_shift.
    + rewrite (loop_flat _ (fun _ => []) (fun t => flat_map (gtok h_prod) (seq (t * (4 * r)) (4 * r)))) by reflexivity.
      transitivity (flat_map (fun t => flat_map (fun c => gtok h_prod (t * (4 * r) + c)) (seq 0 (4 * r))) (seq 0 (n * n * (4 * r)))).
      * apply flat_map_ext_in. intros t _. apply flat_map_shift.
      * rewrite loop_mul. f_equal. f_equal. ring.
Qed.
Lemma sum_tok : sum_gates r n = flat_map (gtok h_sum) (seq 0 n3).
Proof.
  clear. unfold sum_gates, n3.
  transitivity (flat_map (fun w => flat_map (fun y => gtok h_sum (w * (4 * r) + y)) (seq 0 (4 * r))) (seq 0 (n * n))).
  - apply loop_flat; [exact (fun _ => [])|]. intros xr yr Hx Hy. apply flat_map_ext_in. intros y _.
    unfold gtok, h_sum, four. cbn [f_ty f_u f_v].
    replace ((xr * n + yr) * 4 * r + y) with ((xr * n + yr) * (4 * r) + y) by ring.
    replace ((xr * n + yr) * (16 * r * r) + y * (4 * r)) with (((xr * n + yr) * (4 * r) + y) * (4 * r)) by ring. reflexivity.
  - rewrite loop_mul. f_equal. f_equal. ring.
Qed.
Lemma window_tok : window_gates r n = flat_map (gtok h_sum) (seq 0 (n * n)).
Proof.
  clear. unfold window_gates. apply loop_flat; [exact (fun _ => [])|]. intros xr yr _ _. unfold gtok, h_sum, four. cbn [f_ty f_u f_v].
  replace ((xr * n + yr) * 4 * r) with ((xr * n + yr) * (4 * r)) by ring.
  replace ((xr * n + yr + 1) * 4 * r) with ((xr * n + yr) * (4 * r) + 4 * r) by ring. reflexivity.
Qed.
Lemma input_tok : flat_map (fun i => four 3 (Z.of_nat i) (rnd i) 0) (seq 0 T) ++
  flat_map (fun c => four 3 (Z.of_nat (c + T)) (nth c cs 0%Z) 0) (seq 0 (2 * r)) = flat_map (gtok h_in) (seq 0 n1).
Proof.
  clear. unfold n1. rewrite seq_app, flat_map_app. f_equal.
  - apply flat_map_ext_in. intros x Hx. apply in_seq in Hx. unfold gtok, h_in, four. cbn [f_ty f_u f_v].
    replace (x <? T) with true by (symmetry; apply Nat.ltb_lt; lia). reflexivity.
  - rewrite (flat_map_shift _ (gtok h_in)). apply flat_map_ext_in. intros c _. unfold gtok, h_in, four. cbn [f_ty f_u f_v].
    rewrite Nat.add_0_l. replace (T + c <? T) with false by (symmetry; apply Nat.ltb_ge; lia).
    replace (T + c - T) with c by lia. rewrite (Nat.add_comm c T). reflexivity.
Qed.
Lemma gen_ok : gen_lanczos r np cs rnd = Ok (circuit_tokens (d_layers pdesc)).
Proof.
  pose proof n_pos as Hn. unfold gen_lanczos. 
  replace (np <? 4 * r) with false by (symmetry; apply Nat.ltb_ge; unfold np; nia).
  replace (r =? 0) with false by (symmetry; apply Nat.eqb_neq; lia).
  replace (np mod r) with 0 by (symmetry; unfold np; apply Nat.mod_mul; lia). cbn [Nat.eqb negb orb].
  unfold print_circuit. cbv zeta.
  replace (1 + (np - 4 * r) / r) with n.
  2:{ replace (np - 4 * r) with ((n - 1) * r) by (unfold np; nia). rewrite Nat.div_mul by lia. lia. }
  rewrite sub_padded by exact Hr. cbn [assert_ bind]. rewrite Hlen, Nat.eqb_refl. cbn [assert_ bind]. f_equal.
  unfold circuit_tokens, pdesc. cbn [d_layers length map concat]. f_equal. rewrite app_nil_r. f_equal; [|f_equal; [|f_equal]].
  - rewrite app_assoc. apply pad_tok. exact input_tok.
  - apply pad_tok. exact product_tok.
  - apply pad_tok. exact sum_tok.
  - rewrite row_tok. f_equal. exact window_tok.
Qed.

Lemma b1_ok : 1 <= bit_len n1 <= 30.
Proof. split; [apply bit_len_pos; unfold n1; lia|apply bit_len_le; exact B1]. Qed.
Lemma b2_ok : 1 <= bit_len n2 <= 30.
Proof. split; [apply bit_len_pos; pose proof n_pos; unfold n2; nia|apply bit_len_le; exact B2]. Qed.
Lemma n3_n2 : n3 * (4 * r) = n2. Proof. clear. unfold n3, n2. ring. Qed.
Lemma n3_lt : n3 < 2 ^ 30.
Proof. pose proof n3_n2. assert (n3 * 1 <= n3 * (4 * r)) by (apply Nat.mul_le_mono_l; lia). lia. Qed.
Lemma b3_ok : 1 <= bit_len n3 <= 30.
Proof. split; [apply bit_len_pos; pose proof n_pos; unfold n3; nia|apply bit_len_le; exact n3_lt]. Qed.
Lemma nn_lt : n * n < 2 ^ 30.
Proof. pose proof n3_lt. unfold n3 in *. nia. Qed.
Lemma pix_lt : forall x, x < n2 -> np * (r * (x / (4 * r) / (4 * r) mod n) + x / (4 * r) mod (4 * r)) + r * (x / (4 * r) / (4 * r) / n) + x mod (4 * r) < T.
Proof.
  clear B1 B2 Hll Hrnd Hlen. intros x Hx. pose proof n_pos as Hn. set (w := x / (4 * r) / (4 * r)).
  assert (w < n * n).
  { unfold w. apply Nat.div_lt_upper_bound; [lia|]. apply Nat.div_lt_upper_bound; [lia|]. unfold n2 in Hx. rewrite Nat.mul_assoc, Nat.mul_comm. lia. }
  assert (w / n < n) by (apply Nat.div_lt_upper_bound; lia).
  assert (w mod n < n) by (apply Nat.mod_upper_bound; lia).
  assert (x / (4 * r) mod (4 * r) < 4 * r) by (apply Nat.mod_upper_bound; lia).
  assert (x mod (4 * r) < 4 * r) by (apply Nat.mod_upper_bound; lia).
  set (a := w / n) in *. set (b := w mod n) in *. set (y := x / (4 * r) mod (4 * r)) in *. set (c := x mod (4 * r)) in *. clearbody a b y c.
  assert (r * b + y < np) by (unfold np; nia). assert (r * a + c < np) by (unfold np; nia).
  unfold T. set (p := r * b + y) in *. set (q := r * a + c) in *. replace (np * p + r * a + c) with (np * p + q) by (unfold q; lia).
  clearbody p q. nia.
Qed.
Lemma cid_range : forall c, c < 4 * r -> (-1 <= cid r c < 2 * Z.of_nat r)%Z.
Proof. clear. intros c H. unfold cid. destruct (Nat.ltb_spec c (2 * r)); lia. Qed.
Lemma T_pos : 1 <= T.
Proof. clear B1 B2 Hll Hrnd Hlen. pose proof n_pos. unfold T, np. nia. Qed.
Lemma pdesc_ok : desc_ok pdesc.
Proof.
  pose proof b1_ok as K1. pose proof b2_ok as K2. pose proof b3_ok as K3. pose proof nn_lt as K4.
  assert (P30 : forall w, w <= 30 -> (2 ^ Z.of_nat w <= 2 ^ 30)%Z) by (intros; apply Z.pow_le_mono_r; lia).
  assert (Z2 : forall b, b <= 30 -> gate_ok b (FGate 2 0 0)).
  { intros b Hb. pose proof (P30 b Hb). pose proof (Z.pow_pos_nonneg 2 (Z.of_nat b)). unfold gate_ok, is_int, is_ll. cbn [f_ty f_u f_v]. lia. }
  unfold desc_ok, pdesc. cbn [d_layers d_meta upper_ok length]. split; [split; [|split; [|split; [|split; [|split; [|split; [|split; [|split]]]]]]]|split; [|split]].
  - apply size_pow with (bit_len n1); [apply row_length|lia].
  - apply GenProofs.row_forall. intros x Hx. unfold padh. destruct (Nat.ltb_spec x n1) as [L|L].
    + unfold input_ok, h_in. cbn [f_ty f_u f_v]. split; [|split; [unfold is_ll; lia|left; reflexivity]].
      destruct (Nat.ltb_spec x T); [specialize (Hrnd x); unfold is_ll; lia|]. apply Hll. apply nth_In. rewrite Hlen. unfold n1 in L. lia.
    + unfold input_ok, is_ll. cbn [f_ty f_u f_v]. lia.
  - apply size_pow with (bit_len n2); [apply row_length|lia].
  - rewrite row_length, least_bits_pow by lia. apply GenProofs.row_forall. intros x Hx. unfold padh. destruct (Nat.ltb_spec x n2) as [L|L]; [|apply Z2; lia].
    pose proof (pix_lt x L) as HP. pose proof (cid_range (x mod (4 * r)) ltac:(apply Nat.mod_upper_bound; lia)) as HC.
    pose proof T_pos as HT. pose proof (bit_len_gt n1) as G. apply small_pow in G. pose proof (P30 (bit_len n1) ltac:(lia)).
    unfold h_prod. cbv zeta. set (u := np * _ + _ + _) in *. set (v := cid r _) in *. clearbody u v.
    unfold n1 in G at 1. unfold gate_ok, is_int, is_ll. cbn [f_ty f_u f_v]. lia.
  - apply size_pow with (bit_len n3); [apply row_length|lia].
  - rewrite row_length, least_bits_pow by lia. apply GenProofs.row_forall. intros x Hx. unfold padh. destruct (Nat.ltb_spec x n3) as [L|L]; [|apply Z2; lia].
    assert (Q : x * (4 * r) + 4 * r <= n2) by (rewrite <- n3_n2; nia).
    pose proof (bit_len_gt n2) as G. apply small_pow in G. pose proof (P30 (bit_len n2) ltac:(lia)).
    unfold h_sum. set (u := x * (4 * r)) in *. clearbody u. unfold gate_ok, is_int, is_ll. cbn [f_ty f_u f_v]. lia.
  - split; [rewrite row_length; pose proof n_pos; nia|]. rewrite row_length. apply small_pow in K4. change (Z.of_nat 30) with 30%Z in K4. lia.
  - rewrite row_length, least_bits_pow by lia. apply GenProofs.row_forall. intros x Hx.
    assert (Q : x * (4 * r) + 4 * r <= n3) by (unfold n3; nia).
    pose proof (bit_len_gt n3) as G. apply small_pow in G. pose proof (P30 (bit_len n3) ltac:(lia)).
    unfold h_sum. set (u := x * (4 * r)) in *. clearbody u. unfold gate_ok, is_int, is_ll. cbn [f_ty f_u f_v]. lia.
  - exact I.
  - lia.
  - reflexivity.
  - apply Forall_forall. intros m Hin. apply repeat_spec in Hin. subst m. unfold meta_ok, zmeta, is_int. cbn [m_para m_block m_repeat m_log_block m_log_repeat]. lia.
Qed.
Lemma pdesc_types : forall i g, 1 <= i <= 4 -> In g (gates (layer_at (denotes pdesc) i)) -> In (g_ty g) [1; 2; 4; 5]%Z.
Proof.
  pose proof pdesc_ok as OK. intros i g Hi Hg.
  destruct (denotes_layer pdesc i OK ltac:(change (length (d_layers pdesc)) with 4; lia)) as [G _]. rewrite G in Hg.
  unfold LoadedProofs.row_gates in Hg. destruct (Nat.eqb_spec i 1) as [->|N1].
  - unfold copy_gates in Hg. apply in_map_iff in Hg. destruct Hg as (x & <- & _). cbn; tauto.
  - apply In_nth with (d := Gate 2 0 0) in Hg. destruct Hg as (j & _ & <-).
    destruct (file_gate_at (file_row pdesc i) j) as [(f & E & ->)| ->]; [|cbn; tauto].
    apply nth_error_In in E. assert (EF : In (f_ty f) [1; 2; 5]%Z).
    { assert (i = 2 \/ i = 3 \/ i = 4) as [-> | [-> | ->]] by lia.
      - change (file_row pdesc 2) with (row (2 ^ bit_len n2) (padh n2 h_prod)) in E. unfold row in E. apply in_map_iff in E. destruct E as (x & <- & _).
        unfold padh. destruct (x <? n2); cbn; tauto.
      - change (file_row pdesc 3) with (row (2 ^ bit_len n3) (padh n3 h_sum)) in E. unfold row in E. apply in_map_iff in E. destruct E as (x & <- & _).
        unfold padh. destruct (x <? n3); cbn; tauto.
      - change (file_row pdesc 4) with (row (n * n) h_sum) in E. unfold row in E. apply in_map_iff in E. destruct E as (x & <- & _). cbn; tauto. }
    unfold file_gate. cbn [g_ty In] in *. tauto.
Qed.
Lemma pdesc_other : (forall k, n <> 2 ^ k) -> exists mx,
  read_circuit (circuit_tokens (d_layers pdesc)) (repeat 0%Z 20) = Ok (denotes pdesc, mx) /\ zevaluate (denotes pdesc) = UB.
Proof.
  intro N. pose proof pdesc_ok as OK. destruct (denotes_depth _ OK) as [TD _]. change (length (d_layers pdesc)) with 4 in TD. eexists. split.
  - apply read_circuit_iff. exists pdesc, [], []. split; [symmetry; apply app_nil_r|]. split; [|split; [exact OK|split; reflexivity]]. reflexivity.
  - apply loaded_other_ub; [exact OK|rewrite TD; lia| |].
    + intros i g Hi Hg. rewrite TD in Hi. pose proof (pdesc_types i g ltac:(lia) Hg) as Q. left. cbn [In] in *. tauto.
    + intro Q. rewrite Forall_forall in Q.
      destruct (Q (row (n * n) h_sum)) as [j J]; [unfold pdesc; cbn [d_layers In]; tauto|]. rewrite row_length in J.
      destruct (factor_pow2 j n n J) as [k K]. exact (N k K).
Qed.
Variable k : nat.
Hypothesis Hk : n = 2 ^ k.
Lemma n_sq : n * n = 2 ^ (2 * k).
Proof. rewrite Hk, <- Nat.pow_add_r. f_equal. lia. Qed.
Lemma k_ok : 2 * k <= 30.
Proof. pose proof nn_lt as H. rewrite n_sq in H. apply Nat.pow_lt_mono_r_iff in H; lia. Qed.
Lemma pdesc_pow2 : Forall pow2_size (d_layers pdesc).
Proof.
  unfold pdesc. cbn [d_layers]. repeat constructor; [exists (bit_len n1)|exists (bit_len n2)|exists (bit_len n3)|exists (2 * k)]; rewrite row_length; try reflexivity. exact n_sq.
Qed.
Let C := denotes pdesc.
Lemma pdesc_complete : zcomplete_circuit C /\ forall ec1, ec1 <= 1000 -> (Z.of_nat (zmessages C * msize ec1 + 512) < 2 ^ 31)%Z.
Proof.
  pose proof pdesc_ok as OK. destruct (denotes_depth _ OK) as [TD LC]. change (length (d_layers pdesc)) with 4 in TD, LC. fold C in TD, LC. split.
  - apply loaded_zcomplete; [exact OK|apply pdesc_pow2|fold C; lia| | |].
    + fold C. intros i g Hi. unfold gate_at. destruct (denotes_layer pdesc i OK ltac:(change (length (d_layers pdesc)) with 4; lia)) as [G _]. fold C in G. rewrite G.
      unfold LoadedProofs.row_gates. destruct (Nat.eqb_spec i 1); [lia|]. left. destruct (file_gate_at (file_row pdesc i) g) as [(f & E & ->)| ->]; [|cbn; tauto].
      apply nth_error_In in E. assert (EF : In (f_ty f) [1; 2; 5]%Z).
      { assert (i = 2 \/ i = 3 \/ i = 4) as [-> | [-> | ->]] by lia.
        - change (file_row pdesc 2) with (row (2 ^ bit_len n2) (padh n2 h_prod)) in E. unfold row in E. apply in_map_iff in E. destruct E as (x & <- & _).
          unfold padh. destruct (x <? n2); cbn; tauto.
        - change (file_row pdesc 3) with (row (2 ^ bit_len n3) (padh n3 h_sum)) in E. unfold row in E. apply in_map_iff in E. destruct E as (x & <- & _).
          unfold padh. destruct (x <? n3); cbn; tauto.
        - change (file_row pdesc 4) with (row (n * n) h_sum) in E. unfold row in E. apply in_map_iff in E. destruct E as (x & <- & _). cbn; tauto. }
      unfold file_gate. cbn [g_ty In] in *. tauto.
    + apply denotes_par.
    + intros i Hi Q. exfalso. unfold pdesc in Q. rewrite denotes_par in Q. discriminate.
  - intros ec1 He. assert (M : max_bit_length C <= 30).
    { apply circuit_max; [exact OK|lia|]. pose proof b1_ok. pose proof b2_ok. pose proof b3_ok. pose proof k_ok.
      assert (Q : forall m, m <= 30 -> 2 ^ m <= 2 ^ 30) by (intros; apply Nat.pow_le_mono_r; lia).
      unfold pdesc. cbn [d_layers]. apply Forall_cons; [rewrite row_length; apply Q; lia|]. apply Forall_cons; [rewrite row_length; apply Q; lia|].
      apply Forall_cons; [rewrite row_length; apply Q; lia|]. apply Forall_cons; [rewrite row_length, n_sq; apply Q; lia|]. apply Forall_nil. }
    assert (BM : forall i, i < total_depth C -> bit_length (layer_at C i) <= 30).
    { intros i Hi. etransitivity; [|exact M]. apply bit_length_max. lia. }
    unfold zmessages, msize. pose proof (BM 0 ltac:(lia)). pose proof (BM (total_depth C - 1) ltac:(lia)). rewrite TD in *.
    set (b0 := bit_length (layer_at C 0)) in *. set (bd := bit_length (layer_at C (5 - 1))) in *.
    set (mm := max_bit_length C) in *.
    assert (X : (5 - 1) * (18 * mm + 24) <= 4 * 564) by (apply Nat.mul_le_mono; lia).
    set (q := (5 - 1) * (18 * mm + 24)) in *.
    assert (Y : (Z.of_nat (Nat.max 256 (8 * ec1)) <= 8000)%Z) by lia.
    assert (Z : (Z.of_nat (4 + 2 * bd + q + 2 * (b0 + 1)) <= 250000)%Z) by lia.
    rewrite Nat2Z.inj_add, Nat2Z.inj_mul.
    assert (W : (Z.of_nat (4 + 2 * bd + q + 2 * (b0 + 1)) * Z.of_nat (Nat.max 256 (8 * ec1)) <= 250000 * 8000)%Z) by (apply Z.mul_le_mono_nonneg; lia).
    lia.
Qed.
Lemma val_in : forall x, x < n1 -> vals C 1 x = ofZ (stored (if x <? T then rnd x else nth (x - T) cs 0%Z)).
Proof.
  intros x Hx. pose proof pdesc_ok as OK. pose proof (bit_len_gt n1). unfold C. rewrite loaded_copy_value; [|exact OK| |cbn; lia].
  - rewrite (loaded_stored_value pdesc x (h_in x) OK); [reflexivity|].
    change (file_row pdesc 1) with (row (2 ^ bit_len n1) (padh n1 h_in)). rewrite row_nth by lia. unfold padh.
    replace (x <? n1) with true by (symmetry; apply Nat.ltb_lt; lia). reflexivity.
  - change (file_row pdesc 1) with (row (2 ^ bit_len n1) (padh n1 h_in)). unfold file_gates. rewrite app_length, map_length, row_length. lia.
Qed.
Lemma small31 : forall x m, x <= 2 ^ m -> m <= 30 -> int32 (Z.of_nat x) = Z.of_nat x.
Proof.
  clear. intros x m H Hm. apply int32_small. assert (2 ^ m <= 2 ^ 30) by (apply Nat.pow_le_mono_r; lia).
  assert (Z.of_nat x <= Z.of_nat (2 ^ 30))%Z by lia. rewrite LoadedProofs.pow_Z in *. change (2 ^ Z.of_nat 30)%Z with 1073741824%Z in *. lia.
Qed.
Lemma val_sum : forall V x m, x * (4 * r) + 4 * r <= 2 ^ m -> m <= 30 ->
  gate_spec V (file_gate (h_sum x)) = sumn (4 * r) (fun i => V (x * (4 * r) + i)).
Proof.
  clear. intros V x m H Hm. unfold gate_spec, file_gate, h_sum. cbn [f_ty f_u f_v g_ty g_u g_v].
  change ((5 =? 6) || (5 =? 10))%Z with false. cbn iota.
  rewrite (small31 (x * (4 * r)) m), (small31 (x * (4 * r) + 4 * r) m) by lia. rewrite !Nat2Z.id.
  replace (x * (4 * r) + 4 * r - x * (4 * r)) with (4 * r) by lia. reflexivity.
Qed.
(** The number that multiplies position [c] of a row. *)
Definition used (c : nat) : F :=
  if c <? 2 * r then ofZ (stored (nth c cs 0%Z)) else if c =? 4 * r - 1 then ofZ (rnd (T - 1)) else ofZ (stored (nth (4 * r - 2 - c) cs 0%Z)).
Lemma stored_rnd : forall i, stored (rnd i) = rnd i.
Proof. intro i. specialize (Hrnd i). unfold stored. rewrite int32_small by lia. apply Z.mod_small. lia. Qed.
Lemma val_prod : forall xr yr y c, xr < n -> yr < n -> y < 4 * r -> c < 4 * r ->
  vals C 2 ((((xr * n + yr) * (4 * r) + y)) * (4 * r) + c) = (ofZ (rnd (np * (r * yr + y) + (r * xr + c))) * used c)%F.
Proof.
  intros xr yr y c Hx Hy Hy' Hc. pose proof pdesc_ok as OK. pose proof n_pos as Hn. pose proof b1_ok as K1.
  set (x := ((xr * n + yr) * (4 * r) + y) * (4 * r) + c).
  assert (Lx : x < n2).
  { assert (xr * n + yr < n * n) by nia. set (w := xr * n + yr) in *. assert (w * (4 * r) + y < n * n * (4 * r)) by nia.
    set (t := w * (4 * r) + y) in *. unfold x, n2. rewrite Nat.mul_assoc. nia. }
  pose proof (bit_len_gt n2) as G2. pose proof (pix_lt x Lx) as HP.
  unfold C. rewrite (loaded_gate_value pdesc 2 x (h_prod x) OK); [|cbn; lia|].
  2:{ change (file_row pdesc 2) with (row (2 ^ bit_len n2) (padh n2 h_prod)). rewrite row_nth by lia. unfold padh.
      replace (x <? n2) with true by (symmetry; apply Nat.ltb_lt; lia). reflexivity. }
  change (2 - 1) with 1. fold C. unfold gate_spec, file_gate, h_prod. cbv zeta. cbn [f_ty f_u f_v g_ty g_u g_v].
  change ((1 =? 6) || (1 =? 10))%Z with false. cbn iota.
  unfold x in *. clear x.
  destruct (div_at ((xr * n + yr) * (4 * r) + y) c (4 * r) Hc) as [D1 D2]. rewrite D1, D2 in *.
  destruct (div_at (xr * n + yr) y (4 * r) Hy') as [D3 D4]. rewrite D3, D4 in *.
  destruct (div_at xr yr n Hy) as [D5 D6]. rewrite D5, D6 in *. clear D1 D2 D3 D4 D5 D6.
  pose proof (bit_len_gt n1) as G1. pose proof T_pos as HT. pose proof (cid_range c Hc) as HC.
  set (u := np * (r * yr + y) + r * xr + c) in *. replace (np * (r * yr + y) + (r * xr + c)) with u by (unfold u; lia). clearbody u.
  assert (EV : (cid r c + Z.of_nat T)%Z = Z.of_nat (Z.to_nat (cid r c + Z.of_nat T))) by lia.
  set (v := Z.to_nat (cid r c + Z.of_nat T)) in *. rewrite EV.
  assert (Hu : u < n1) by (unfold n1; lia). assert (Hv : v < n1) by (unfold n1, v; lia).
  rewrite (small31 u (bit_len n1)), (small31 v (bit_len n1)) by lia. rewrite !Nat2Z.id, !val_in by assumption.
  replace (u <? T) with true by (symmetry; apply Nat.ltb_lt; lia). rewrite stored_rnd. f_equal.
  unfold used. unfold v, cid in *. clear EV. destruct (Nat.ltb_spec c (2 * r)) as [L|L].
  - replace (Z.to_nat (Z.of_nat c + Z.of_nat T)) with (c + T) by lia. replace (c + T <? T) with false by (symmetry; apply Nat.ltb_ge; lia).
    replace (c + T - T) with c by lia. reflexivity.
  - destruct (Nat.eqb_spec c (4 * r - 1)) as [->|N].
    + replace (Z.to_nat (4 * Z.of_nat r - 2 - Z.of_nat (4 * r - 1) + Z.of_nat T)) with (T - 1) by lia.
      replace (T - 1 <? T) with true by (symmetry; apply Nat.ltb_lt; lia). rewrite stored_rnd. reflexivity.
    + replace (Z.to_nat (4 * Z.of_nat r - 2 - Z.of_nat c + Z.of_nat T)) with (4 * r - 2 - c + T) by lia.
      replace (4 * r - 2 - c + T <? T) with false by (symmetry; apply Nat.ltb_ge; lia).
      replace (4 * r - 2 - c + T - T) with (4 * r - 2 - c) by lia. reflexivity.
Qed.
Lemma val_out : forall xr yr, xr < n -> yr < n -> vals C 4 (xr * n + yr) =
  sumn (4 * r) (fun y => sumn (4 * r) (fun c => ofZ (rnd (np * (r * yr + y) + (r * xr + c))) * used c))%F.
Proof.
  intros xr yr Hx Hy. pose proof pdesc_ok as OK. pose proof b2_ok as K2. pose proof b3_ok as K3.
  assert (L : xr * n + yr < n * n) by nia. set (w := xr * n + yr) in *.
  pose proof (bit_len_gt n2) as G2. pose proof (bit_len_gt n3) as G3.
  assert (E4 : vals C 4 w = sumn (4 * r) (fun i => vals C 3 (w * (4 * r) + i))).
  { unfold C. rewrite (loaded_gate_value pdesc 4 w (h_sum w) OK); [|cbn; lia|].
    - apply (val_sum _ w (bit_len n3)); [|lia]. unfold n3 in G3 at 1. nia.
    - change (file_row pdesc 4) with (row (n * n) h_sum). apply row_nth. exact L. }
  rewrite E4. apply sumn_ext. intros y Hy'. set (t := w * (4 * r) + y).
  assert (Lt : t < n3) by (unfold t, n3; nia).
  assert (E3 : vals C 3 t = sumn (4 * r) (fun i => vals C 2 (t * (4 * r) + i))).
  { unfold C. rewrite (loaded_gate_value pdesc 3 t (h_sum t) OK); [|cbn; lia|].
    - apply (val_sum _ t (bit_len n2)); [|lia]. pose proof n3_n2. nia.
    - change (file_row pdesc 3) with (row (2 ^ bit_len n3) (padh n3 h_sum)). rewrite row_nth by lia. unfold padh.
      replace (t <? n3) with true by (symmetry; apply Nat.ltb_lt; lia). reflexivity. }
  rewrite E3. apply sumn_ext. intros c Hc. unfold t, w. apply val_prod; assumption.
Qed.
Lemma pdesc_run : exists mx out cv,
  read_circuit (circuit_tokens (d_layers pdesc)) (repeat 0%Z 20) = Ok (C, mx) /\ zevaluate C = Ok (out, cv) /\
  (forall xr yr, xr < n -> yr < n -> exists x, nth_error out (xr * n + yr) = Some x /\
     rep x (sumn (4 * r) (fun y => sumn (4 * r) (fun c => ofZ (rnd (np * (r * yr + y) + (r * xr + c))) * used c)))%F) /\
  (forall enc ec1 aes fr zr, (forall x, length (enc x) = ec1) -> 0 < ec1 <= 1000 -> is_cipher aes -> stream_ok fr zr ->
     run_zk enc aes fr zr C = Ok true).
Proof.
  pose proof pdesc_ok as OK. destruct pdesc_complete as [CC MB]. destruct (evaluated _ CC) as (out & cv & EV & V).
  destruct (denotes_depth _ OK) as [TD _]. change (length (d_layers pdesc)) with 4 in TD. fold C in TD. eexists _, out, cv. split; [|split; [exact EV|split]].
  - apply read_circuit_iff. exists pdesc, [], []. split; [symmetry; apply app_nil_r|]. split; [|split; [exact OK|split; reflexivity]]. reflexivity.
  - intros xr yr Hx Hy. rewrite TD in V. change (5 - 1) with 4 in V. rewrite <- val_out by assumption. apply V.
    destruct (denotes_layer pdesc 4 OK ltac:(cbn; lia)) as [_ EB]. fold C in EB. rewrite EB. change (file_row pdesc 4) with (row (n * n) h_sum).
    rewrite row_length, n_sq. unfold least_bits. rewrite log2_up_pow2.
    apply Nat.lt_le_trans with (2 ^ (2 * k)); [rewrite <- n_sq; nia|]. apply Nat.pow_le_mono_r; lia.
  - intros enc ec1 aes fr zr Henc Hec Ha Hst. apply (zk_complete enc ec1); try assumption; try lia. apply MB. lia.
Qed.
End Gen.
