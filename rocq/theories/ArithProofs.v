(** * Strings, bits, random elements, tables *)
From Coq Require Import ZArith List Bool Lia Znumtheory FinFun.
From Verif Require Import Limbs LimbsProofs Field FieldProofs Fp Prime SpecArith.
Import ListNotations.
Open Scope Z_scope.

(** ** Decimal strings (C09) *)
Fixpoint rev_value (l : list Z) : Z :=
  match l with [] => 0 | c :: r => (c - 48) + 10 * rev_value r end.

Lemma rev_value_app : forall l c, rev_value (l ++ [c]) = rev_value l + 10 ^ Z.of_nat (length l) * (c - 48).
Proof.
  induction l; intro c; [cbn [app rev_value length Z.of_nat]; rewrite Z.pow_0_r; ring|].
  cbn [app rev_value length]. rewrite IHl. rewrite Nat2Z.inj_succ, Z.pow_succ_r by lia. ring.
Qed.

Lemma dec_value_acc : forall s acc,
  fold_left (fun acc c => 10 * acc + (c - 48)) s acc = acc * 10 ^ Z.of_nat (length s) + rev_value (rev s).
Proof.
  induction s; intro acc; [cbn [fold_left rev rev_value length Z.of_nat]; rewrite Z.pow_0_r; ring|].
  cbn [fold_left rev length]. rewrite IHs, rev_value_app, rev_length.
  rewrite Nat2Z.inj_succ, Z.pow_succ_r by lia. ring.
Qed.
Lemma dec_value_rev : forall s, dec_value s = rev_value (rev s).
Proof. intro s. unfold dec_value. rewrite dec_value_acc. ring. Qed.

Lemma digits_rev : forall s, is_digits s -> is_digits (rev s).
Proof. intros s H. apply Forall_rev, H. Qed.

Lemma digit_W64 : forall c, 48 <= c <= 57 -> 0 <= c - 48 < W64.
Proof. intros c H. pose proof W64_val. lia. Qed.

Lemma rev_value_nonneg : forall l, is_digits l -> 0 <= rev_value l.
Proof.
  induction l; intro H; cbn [rev_value]; [lia|]. inversion H; subst. specialize (IHl H3). lia.
Qed.

Lemma mod_step : forall W a b c r, W <> 0 ->
  ((a + b mod W) mod W + (c mod W) * r) mod W = (a + b + c * r) mod W.
Proof.
  intros W a b c r H. rewrite Z.add_mod_idemp_l by exact H.
  rewrite <- Z.add_mod_idemp_r by exact H. rewrite Z.mul_mod_idemp_l by exact H.
  rewrite Z.add_mod_idemp_r by exact H.
  replace (a + b mod W + c * r) with (a + c * r + b mod W) by ring.
  rewrite Z.add_mod_idemp_r by exact H. f_equal. ring.
Qed.

Lemma u256_parse_loop_val : forall l ret tmp, is_digits l -> wf256 ret -> wf256 tmp ->
  wf256 (u256_parse_loop l 10 ret tmp) /\
  val256 (u256_parse_loop l 10 ret tmp) = (val256 ret + val256 tmp * rev_value l) mod W256.
Proof.
  induction l; intros ret tmp D Wr Wt; cbn [u256_parse_loop rev_value].
  - split; [assumption|]. rewrite Z.mul_0_r, Z.add_0_r. symmetry. apply Z.mod_small, val256_range, Wr.
  - inversion D as [|c l' Hc Hl]; subst.
    pose proof (digit_W64 a Hc) as Ha. rewrite (ull_small (a - 48)) by exact Ha.
    rewrite (ull_small 10) by (rewrite W64_val; lia).
    assert (W10 : wf256 (u256_of_ull 10)) by (apply wf256_of_ull; rewrite W64_val; lia).
    destruct (u256_mul_exact tmp (u256_of_ull (a - 48)) Wt (wf256_of_ull _ Ha)) as [W1 V1].
    destruct (u256_mul_exact tmp _ Wt W10) as [W2 V2].
    destruct (u256_add_exact ret _ Wr W1) as [W3 V3].
    destruct (IHl _ _ Hl W3 W2) as [W4 V4]. split; [exact W4|]. rewrite V4, V3, V2, V1.
    rewrite !val256_of_ull. pose proof W256_pos as HW.
    rewrite mod_step by lia. f_equal. ring.
Qed.

Theorem u256_parse_dec : forall s, is_digits s ->
  wf256 (u256_parse s 10) /\ val256 (u256_parse s 10) = dec_value s mod W256.
Proof.
  intros s H. unfold u256_parse.
  destruct (u256_parse_loop_val (rev s) (u256_of_ull 0) (u256_of_ull 1) (digits_rev s H)) as [W V];
    try (apply wf256_of_ull; rewrite W64_val; lia).
  split; [exact W|]. rewrite V, !val256_of_ull, dec_value_rev. f_equal. ring.
Qed.

Lemma of_ull_512 : forall x, 0 <= x < W64 ->
  wf512 (u512_of_u256 (u256_of_ull x)) /\ val512 (u512_of_u256 (u256_of_ull x)) = x.
Proof.
  intros x H. destruct (u512_of_u256_spec _ (wf256_of_ull x H)) as [W V].
  rewrite val256_of_ull in V. split; assumption.
Qed.

(** A digit zero contributes nothing, whatever the running power. *)
Lemma u512_mul_zero_r : forall t, u512_mul t (u512_of_u256 (u256_of_ull 0)) = u512_of_u256 (u256_of_ull 0).
Proof. intro t. reflexivity. Qed.
Lemma rev_value_zero : forall l, is_digits l -> rev_value l = 0 -> Forall (fun c => c = 48) l.
Proof.
  induction l; intros H E; [constructor|]. inversion H as [|c r Hc Hr]; subst. cbn [rev_value] in E.
  pose proof (rev_value_nonneg l Hr). constructor; [lia|]. apply IHl; [assumption|lia].
Qed.

Lemma u512_parse_loop_zeros : forall l ret tmp, Forall (fun c => c = 48) l -> wf512 ret ->
  val512 ret < W256 ->
  wf512 (u512_parse_loop l ret tmp) /\ val512 (u512_parse_loop l ret tmp) = val512 ret.
Proof.
  induction l; intros ret tmp H W B; cbn [u512_parse_loop]; [split; auto|].
  inversion H as [|c r Hc Hr]; subst. replace (ull (48 - 48)) with 0 by reflexivity.
  rewrite u512_mul_zero_r.
  destruct (of_ull_512 0 ltac:(rewrite W64_val; lia)) as [W0 V0].
  destruct (u512_add_small ret _ W W0) as [W1 V1].
  { rewrite V0. pose proof W256_W508. pose proof W508_lt_W512. lia. }
  rewrite V0, Z.add_0_r in V1.
  destruct (IHl (u512_add ret (u512_of_u256 (u256_of_ull 0)))
              (u512_mul tmp (u512_of_u256 (u256_of_ull 10))) Hr W1 ltac:(lia)) as [W2 V2].
  split; [exact W2|lia].
Qed.

Lemma add_prod_le : forall v t d r W, 0 <= t -> 0 <= r -> v + t * (d + 10 * r) < W -> v + t * d < W.
Proof. intros. assert (0 <= t * r) by (apply Z.mul_nonneg_nonneg; assumption). nia. Qed.
Lemma big_zero : forall v t r W, 0 <= v -> 0 <= r -> W <= t -> v + t * r < W -> 0 < W -> r = 0.
Proof. intros. nia. Qed.

Lemma u512_parse_loop_val : forall l ret tmp, is_digits l -> wf512 ret -> wf512 tmp ->
  val512 tmp < W256 -> val512 ret + val512 tmp * rev_value l < W256 ->
  wf512 (u512_parse_loop l ret tmp) /\
  val512 (u512_parse_loop l ret tmp) = val512 ret + val512 tmp * rev_value l.
Proof.
  induction l; intros ret tmp D Wr Wt Bt B; cbn [u512_parse_loop rev_value] in *.
  - split; [assumption|ring].
  - inversion D as [|c l' Hc Hl]; subst.
    pose proof (digit_W64 a Hc) as Ha. rewrite (ull_small (a - 48)) by exact Ha.
    destruct (of_ull_512 _ Ha) as [Wd Vd].
    destruct (of_ull_512 10 ltac:(rewrite W64_val; lia)) as [W10 V10].
    pose proof (rev_value_nonneg l Hl) as Nl.
    pose proof (val512_range tmp Wt) as Rt. pose proof (val512_range ret Wr) as Rr.
    assert (L64 : W64 < W256) by (pose proof W64_lt_P; pose proof P_lt_W256; lia).
    destruct (u512_mul_exact tmp _ Wt Wd Bt ltac:(rewrite Vd; lia)) as [W1 V1]. rewrite Vd in V1.
    destruct (u512_mul_exact tmp _ Wt W10 Bt ltac:(rewrite V10; pose proof W64_val; lia)) as [W2 V2].
    rewrite V10 in V2.
    pose proof (add_prod_le _ _ _ _ _ (proj1 Rt) Nl B) as B1.
    destruct (u512_add_small ret _ Wr W1) as [W3 V3].
    { rewrite V1. pose proof W256_W508. pose proof W508_lt_W512. lia. }
    rewrite V1 in V3.
    assert (EQ : val512 ret + val512 tmp * (a - 48 + 10 * rev_value l)
                 = (val512 ret + val512 tmp * (a - 48)) + (val512 tmp * 10) * rev_value l) by ring.
    rewrite EQ in B |- *.
    destruct (Z.lt_ge_cases (val512 tmp * 10) W256) as [S|S].
    + destruct (IHl _ _ Hl W3 W2 ltac:(rewrite V2; exact S) ltac:(rewrite V2, V3; exact B)) as [W4 V4].
      split; [exact W4|]. rewrite V4, V3, V2. reflexivity.
    + pose proof (val512_range _ W3) as R3. rewrite V3 in R3.
      assert (Z0 : rev_value l = 0) by (apply (big_zero _ _ _ _ (proj1 R3) Nl S B W256_pos)).
      destruct (u512_parse_loop_zeros l _ (u512_mul tmp (u512_of_u256 (u256_of_ull 10)))
                  (rev_value_zero l Hl Z0) W3 ltac:(rewrite V3; exact B1)) as [W4 V4].
      split; [exact W4|]. rewrite V4, V3, Z0. ring.
Qed.

Theorem u512_parse_dec : forall s, is_digits s -> dec_value s < W256 ->
  wf512 (u512_parse s) /\ val512 (u512_parse s) = dec_value s.
Proof.
  intros s H B. unfold u512_parse.
  destruct (of_ull_512 0 ltac:(rewrite W64_val; lia)) as [W0 V0].
  destruct (of_ull_512 1 ltac:(rewrite W64_val; lia)) as [W1 V1].
  rewrite dec_value_rev in *.
  destruct (u512_parse_loop_val (rev s) _ _ (digits_rev s H) W0 W1) as [W V].
  - rewrite V1. pose proof W64_lt_P; pose proof P_lt_W256; pose proof W64_val; lia.
  - rewrite V0, V1. lia.
  - split; [exact W|]. rewrite V, V0, V1. ring.
Qed.

(** [from_string] of zk_prover.cpp *)
Lemma fz_ofZ : forall z, fz (ofZ z) = z mod P. Proof. reflexivity. Qed.
Lemma rep_of_int_small : forall x, 0 <= x < W64 -> rep (fe_of_int x) (ofZ x).
Proof. exact rep_of_ull_small. Qed.
Lemma dec_step : forall b c n r, ((b * 10 + c) mod P * n + r) mod P = ((10 * b + c) * n + r) mod P.
Proof.
  intros. rewrite <- Z.add_mod_idemp_l by apply P_nz. rewrite Z.mul_mod_idemp_l by apply P_nz.
  rewrite Z.add_mod_idemp_l by apply P_nz. f_equal. ring.
Qed.
Lemma fs_step_rep : forall acc b c, 48 <= c <= 57 -> rep acc b ->
  rep (from_string_step acc c) (ofZ (fz b * 10 + (c - 48))).
Proof.
  intros acc b c Hc R. unfold from_string_step. rewrite ofZ_add, ofZ_mul, ofZ_fz.
  apply rep_add; [apply rep_mul; [exact R|]|]; apply rep_of_int_small; rewrite W64_val; lia.
Qed.
Lemma fold_cons : forall (A B : Type) (f : A -> B -> A) b l a, fold_left f (b :: l) a = fold_left f l (f a b).
Proof. reflexivity. Qed.
Lemma dec_fold_step : forall s b c,
  ofZ (fold_left (fun acc c => 10 * acc + (c - 48)) s (fz (ofZ (fz b * 10 + (c - 48))))) =
  ofZ (fold_left (fun acc c => 10 * acc + (c - 48)) s (10 * fz b + (c - 48))).
Proof.
  intros s b c. apply ofZ_eq. rewrite (dec_value_acc s (fz _)), (dec_value_acc s (10 * _ + _)).
  rewrite fz_ofZ. apply dec_step.
Qed.
Lemma fe_from_string_acc : forall s acc a, is_digits s -> rep acc a ->
  rep (fold_left from_string_step s acc) (ofZ (fold_left (fun acc c => 10 * acc + (c - 48)) s (fz a))).
Proof.
  induction s; intros acc b D R.
  - simpl. rewrite ofZ_fz. exact R.
  - inversion D as [|c l' Hc Hl]; subst. rewrite !fold_cons.
    rewrite <- dec_fold_step. apply IHs; [exact Hl|]. apply fs_step_rep; assumption.
Qed.
Theorem fe_from_string_dec : forall s, is_digits s -> rep (fe_from_string s) (ofZ (dec_value s)).
Proof.
  intros s D. unfold fe_from_string.
  pose proof (fe_from_string_acc s fe_zero 0%F D rep_0) as H.
  eapply rep_eq; [exact H|]. replace (fz 0%F) with 0; [reflexivity|].
  symmetry. apply fz_ofZ_small. pose proof P_pos; lia.
Qed.

(** ** Bits (C10, C11) *)
Lemma testbit_split : forall l h k i, 0 <= k -> 0 <= l < 2 ^ k -> 0 <= i ->
  Z.testbit (l + 2 ^ k * h) i = if i <? k then Z.testbit l i else Z.testbit h (i - k).
Proof.
  intros l h k i Hk Hl Hi.
  rewrite Z.add_comm, Z.mul_comm.
  destruct (Z.ltb_spec i k).
  - rewrite <- (Z.mod_pow2_bits_low (h * 2 ^ k + l) k i) by lia.
    rewrite Z.add_comm, Z.mod_add by lia. rewrite Z.mod_small by lia. reflexivity.
  - replace (Z.testbit h (i - k)) with (Z.testbit ((h * 2 ^ k + l) / 2 ^ k) (i - k)).
    + rewrite Z.div_pow2_bits by lia. f_equal. lia.
    + rewrite Z.add_comm, Z.div_add by lia. rewrite Z.div_small by lia. f_equal.
Qed.

Lemma W64_pow : W64 = 2 ^ 64. Proof. reflexivity. Qed.
Lemma W128_pow : W128 = 2 ^ 128. Proof. reflexivity. Qed.
Lemma W256_pow : W256 = 2 ^ 256. Proof. reflexivity. Qed.

Lemma land1_shiftr : forall w i, 0 <= i -> Z.land (Z.shiftr w i) 1 = b2z (Z.testbit w i).
Proof.
  intros w i Hi. change 1 with (Z.ones 1). rewrite Z.land_ones by lia.
  change (2 ^ 1) with 2. rewrite <- Z.bit0_mod, Z.shiftr_spec by lia. rewrite Z.add_0_l.
  destruct (Z.testbit w i); reflexivity.
Qed.

Lemma val256_testbit : forall x i, wf256 x -> 0 <= i ->
  Z.testbit (val256 x) i =
    if i <? 64 then Z.testbit (lo6 x) i
    else if i <? 128 then Z.testbit (mid6 x) (i - 64) else Z.testbit (hi6 x) (i - 128).
Proof.
  intros x i (Hl & Hm & Hh) Hi. unfold val256.
  replace (lo6 x + W64 * mid6 x + W128 * hi6 x) with (lo6 x + 2 ^ 64 * (mid6 x + 2 ^ 64 * hi6 x))
    by (rewrite W128_W64, <- W64_pow; ring).
  rewrite W64_pow in Hl, Hm.
  rewrite testbit_split by lia. destruct (Z.ltb_spec i 64); [reflexivity|].
  rewrite testbit_split by lia.
  destruct (Z.ltb_spec (i - 64) 64), (Z.ltb_spec i 128); try lia; try reflexivity.
  f_equal. lia.
Qed.

Theorem u256_bit_at_exact : forall x i, wf256 x -> 0 <= i < 256 ->
  u256_bit_at x i = Some (b2z (Z.testbit (val256 x) i)).
Proof.
  intros x i W Hi. rewrite val256_testbit by (assumption || lia).
  unfold u256_bit_at, shr_w.
  destruct (Z.ltb_spec i 64).
  - replace (0 <=? i) with true by (symmetry; apply Z.leb_le; lia).
    cbn [andb and1]. rewrite land1_shiftr by lia. reflexivity.
  - destruct (Z.ltb_spec i 128).
    + replace (0 <=? i - 64) with true by (symmetry; apply Z.leb_le; lia).
      replace (i - 64 <? 64) with true by (symmetry; apply Z.ltb_lt; lia).
      cbn [andb and1]. rewrite land1_shiftr by lia. reflexivity.
    + replace (0 <=? i - 128) with true by (symmetry; apply Z.leb_le; lia).
      replace (i - 128 <? 128) with true by (symmetry; apply Z.ltb_lt; lia).
      cbn [andb and1]. rewrite land1_shiftr by lia. reflexivity.
Qed.

Theorem u256_testBit_exact : forall x i, wf256 x -> 0 <= i < 256 -> i <> 64 -> i <> 128 ->
  u256_testBit x i = Some (b2z (Z.testbit (val256 x) i)).
Proof.
  intros x i W Hi N1 N2. rewrite <- u256_bit_at_exact by assumption.
  unfold u256_testBit, u256_bit_at.
  destruct (Z.leb_spec i 64), (Z.ltb_spec i 64); try lia; try reflexivity.
  destruct (Z.leb_spec i 128), (Z.ltb_spec i 128); try lia; try reflexivity.
Qed.
Theorem u256_testBit_undefined : forall x, u256_testBit x 64 = None /\ u256_testBit x 128 = None.
Proof. intro x. split; reflexivity. Qed.

Lemma log2_split : forall l h k, 0 <= k -> 0 <= l < 2 ^ k -> 0 < h ->
  Z.log2 (l + 2 ^ k * h) = k + Z.log2 h.
Proof.
  intros l h k Hk Hl Hh.
  pose proof (Z.log2_spec h Hh) as L. pose proof (Z.log2_nonneg h).
  apply Z.log2_unique; [lia|].
  rewrite Z.add_comm with (n := k). rewrite <- Z.add_succ_l. rewrite !Z.pow_add_r by lia.
  set (a := 2 ^ Z.log2 h) in *. set (b := 2 ^ Z.succ (Z.log2 h)) in *. set (c := 2 ^ k) in *.
  assert (h + 1 <= b) by lia.
  split; [nia|]. nia.
Qed.

Lemma ull_shr : forall x, 0 <= x < W128 -> ull (Z.shiftr x 64) = x / W64 /\ 0 <= x / W64 < W64.
Proof.
  intros x H. rewrite shr64. rewrite W128_W64 in H.
  pose proof (div_lt x W64 W64 W64_pos H). split; [apply ull_small; assumption|assumption].
Qed.

(** The two-word count used for every 128-bit limb. *)
Lemma clz128 : forall x n, 0 < x < W128 ->
  (if negb (ull (Z.shiftr x 64) =? 0) then sub_opt n (clzll (ull (Z.shiftr x 64)))
   else sub_opt (n - 64) (clzll (ull (Z.land x max_ull)))) = Some (n - 127 + Z.log2 x).
Proof.
  intros x n H. destruct (ull_shr x ltac:(lia)) as [E R]. rewrite E, land_max_ull.
  assert (Q : ull (ull x) = x mod W64) by (apply ull_small; apply ull_range). rewrite Q.
  pose proof (Z.div_mod x W64 ltac:(pose proof W64_pos; lia)) as DM.
  pose proof (Z.mod_pos_bound x W64 W64_pos) as MB.
  unfold clzll.
  destruct (Z.eqb_spec (x / W64) 0) as [Z0|NZ]; cbn [negb].
  - rewrite Z0, Z.mul_0_r, Z.add_0_l in DM. rewrite <- DM.
    destruct (Z.eqb_spec x 0); [lia|]. cbn [sub_opt]. f_equal. lia.
  - cbn [sub_opt]. f_equal.
    rewrite (Z.add_comm (W64 * _)) in DM.
    rewrite DM at 2. clear Q E. rewrite W64_pow in *. rewrite log2_split by lia. lia.
Qed.

Theorem u256_bitLen_exact : forall x, wf256 x -> 0 < val256 x ->
  u256_bitLen x = Some (Z.log2 (val256 x) + 1).
Proof.
  intros x (Hl & Hm & Hh) Hp. unfold u256_bitLen, val256 in *.
  destruct (Z.eqb_spec (hi6 x) 0) as [H0|H0]; cbn [negb].
  - rewrite H0, Z.mul_0_r, Z.add_0_r in *.
    destruct (Z.eqb_spec (mid6 x) 0) as [M0|M0]; cbn [negb].
    + rewrite M0, Z.mul_0_r, Z.add_0_r in *. unfold clzll.
      destruct (Z.eqb_spec (lo6 x) 0); [lia|]. cbn [sub_opt]. f_equal. lia.
    + unfold clzll. destruct (Z.eqb_spec (mid6 x) 0); [lia|]. cbn [sub_opt]. f_equal.
      rewrite W64_pow in *. rewrite log2_split by lia. lia.
  - rewrite (clz128 (hi6 x) 256) by lia. f_equal.
    assert (D : 0 <= lo6 x + W64 * mid6 x < W128) by (rewrite W128_W64; apply digits2; [apply W64_pos|lia|lia]).
    rewrite W128_pow in D |- *. rewrite log2_split by lia. lia.
Qed.
Theorem u256_bitLen_zero : forall x, wf256 x -> val256 x = 0 -> u256_bitLen x = None.
Proof.
  intros x W V. assert (E : x = U256 0 0 0) by (apply val256_inj; [exact W|apply wf256_zero|rewrite V; reflexivity]).
  subst x. reflexivity.
Qed.

(** [word_bits n w] are the bits of [w]. *)
Lemma word_bits_eq : forall n w, word_bits n w = map (fun i => Z.testbit w (Z.of_nat i)) (seq 0 n).
Proof.
  intros n w. unfold word_bits. apply map_ext_in. intros i _. rewrite land1_shiftr by lia.
  destruct (Z.testbit w (Z.of_nat i)); reflexivity.
Qed.
Lemma bits_value_testbits : forall n w k,
  bits_value (map (fun i => Z.testbit w (Z.of_nat i)) (seq k n)) =
  (Z.shiftr w (Z.of_nat k)) mod 2 ^ Z.of_nat n.
Proof.
  induction n; intros w k.
  - cbn. rewrite Z.mod_1_r. reflexivity.
  - cbn [seq map bits_value]. rewrite IHn.
    rewrite (Nat2Z.inj_succ n), Z.pow_succ_r by lia.
    rewrite (Nat2Z.inj_succ k). unfold Z.succ. rewrite <- Z.shiftr_shiftr by lia.
    set (u := Z.shiftr w (Z.of_nat k)).
    replace (if Z.testbit w (Z.of_nat k) then 1 else 0) with (u mod 2).
    2:{ rewrite <- Z.bit0_mod. unfold u. rewrite Z.shiftr_spec by lia. rewrite Z.add_0_l.
        destruct (Z.testbit w (Z.of_nat k)); reflexivity. }
    rewrite (Z.shiftr_div_pow2 u 1) by lia. change (2 ^ 1) with 2.
    rewrite Z.rem_mul_r by (try lia; apply Z.pow_pos_nonneg; lia). ring.
Qed.
Lemma bits_value_app : forall l m, bits_value (l ++ m) = bits_value l + 2 ^ Z.of_nat (length l) * bits_value m.
Proof.
  induction l; intro m; [cbn; destruct (bits_value m); reflexivity|].
  cbn [app bits_value length]. rewrite IHl. rewrite Nat2Z.inj_succ, Z.pow_succ_r by lia. ring.
Qed.
Lemma word_bits_value : forall n w, 0 <= w < 2 ^ Z.of_nat n -> bits_value (word_bits n w) = w.
Proof.
  intros n w H. rewrite word_bits_eq, bits_value_testbits. rewrite Z.shiftr_0_r.
  apply Z.mod_small, H.
Qed.
Lemma word_bits_length : forall n w, length (word_bits n w) = n.
Proof. intros. unfold word_bits. rewrite map_length, seq_length. reflexivity. Qed.

Theorem fe_bit_stream_value : forall x, wf512 x ->
  length (fe_bit_stream x) = 256%nat /\ bits_value (fe_bit_stream x) = val512 x mod W256.
Proof.
  intros x W. unfold fe_bit_stream. rewrite app_length, !word_bits_length. split; [reflexivity|].
  rewrite <- low256_mod by exact W. destruct W as (Hl & Hm & _). unfold low256.
  rewrite bits_value_app, word_bits_length, !word_bits_value by (rewrite <- W128_pow || idtac; assumption).
  reflexivity.
Qed.

Theorem fe_bit_stream_inj : forall x y, wf512 x -> wf512 y -> val512 x < W256 -> val512 y < W256 ->
  fe_bit_stream x = fe_bit_stream y -> x = y.
Proof.
  intros x y Wx Wy Bx By E. apply val512_inj; try assumption.
  pose proof (proj2 (fe_bit_stream_value x Wx)) as Vx. pose proof (proj2 (fe_bit_stream_value y Wy)) as Vy.
  rewrite Z.mod_small in Vx by (pose proof (val512_range x Wx); lia).
  rewrite Z.mod_small in Vy by (pose proof (val512_range y Wy); lia). congruence.
Qed.

Lemma gmp_of_bits_acc : forall l acc, gmp_of_bits acc l = acc * 2 ^ Z.of_nat (length l) + bits_value (rev l).
Proof.
  induction l; intro acc; [cbn [gmp_of_bits rev bits_value length Z.of_nat]; rewrite Z.pow_0_r; ring|].
  cbn [gmp_of_bits rev length]. rewrite IHl, bits_value_app, rev_length.
  rewrite Nat2Z.inj_succ, Z.pow_succ_r by lia. cbn [bits_value]. unfold b2z. ring.
Qed.

Lemma u256_ne_zero : forall x, wf256 x -> u256_ne x (u256_of_ull 0) = negb (val256 x =? 0).
Proof.
  intros x W. destruct (u256_cmp x (u256_of_ull 0) W) as (_ & _ & _ & N).
  { apply wf256_of_ull. pose proof W64_pos; lia. }
  rewrite val256_of_ull in N.
  destruct (Z.eqb_spec (val256 x) 0) as [E|E]; cbn [negb].
  - destruct (u256_ne x (u256_of_ull 0)); [|reflexivity]. destruct N as [N _]. exfalso. apply N; auto.
  - apply N. exact E.
Qed.

Theorem fe_to_gmp_exact : forall x, wf512 x -> val512 x < W256 -> fe_to_gmp x = Some (val512 x).
Proof.
  intros x W B. unfold fe_to_gmp. rewrite u256_ne_zero by apply W.
  rewrite (proj2 (low256_small x W B)). cbn [Z.eqb negb]. f_equal.
  rewrite gmp_of_bits_acc, rev_involutive.
  rewrite (proj2 (fe_bit_stream_value x W)). rewrite Z.mul_0_l, Z.add_0_l.
  apply Z.mod_small. pose proof (val512_range x W). lia.
Qed.
Theorem fe_to_gmp_assert : forall x, wf512 x -> W256 <= val512 x -> fe_to_gmp x = None.
Proof.
  intros x W B. unfold fe_to_gmp. rewrite u256_ne_zero by apply W.
  destruct (Z.eqb_spec (val256 (hi5 x)) 0) as [E|E]; [|reflexivity].
  pose proof (low256_range x W) as R. unfold low256 in R. unfold val512 in B. rewrite E in B. lia.
Qed.

(** Converting to a big integer, writing it in decimal (any decimal numeral
    for it) and parsing gives back the element. *)
Theorem fe_gmp_roundtrip : forall x z s, reduced x -> fe_to_gmp x = Some z ->
  is_digits s -> dec_value s = z -> u512_parse s = x /\ fe_from_string s = x.
Proof.
  intros x z s [W R] E D V. pose proof P_lt_W256.
  rewrite (fe_to_gmp_exact x W ltac:(lia)) in E. injection E as <-.
  destruct (u512_parse_dec s D ltac:(lia)) as [W1 V1].
  split; [apply val512_inj; congruence|].
  pose proof (fe_from_string_dec s D) as R2.
  eapply rep_inj; [exact R2|]. split; [exact W|]. rewrite V. symmetry. apply fz_ofZ_small, R.
Qed.

Lemma seq_shift_map : forall n k, seq k n = map (fun i => (k + i)%nat) (seq 0 n).
Proof.
  induction n; intro k; [reflexivity|]. cbn [seq map]. f_equal; [lia|].
  rewrite (IHn (S k)), (IHn 1%nat), map_map. apply map_ext. intro; lia.
Qed.

Theorem fe_to_string_value : forall x, wf512 x ->
  length (fe_to_string x) = 512%nat /\
  exists bits, fe_to_string x = map (fun b : bool => if b then 49 else 48) bits /\
               bits_value bits = val512 x.
Proof.
  intros x W. split.
  - unfold fe_to_string. rewrite map_length, !app_length, !word_bits_length, map_length, seq_length. reflexivity.
  - unfold fe_to_string. eexists. split; [reflexivity|].
    rewrite app_assoc. change (word_bits 128 (lo5 x) ++ word_bits 128 (mid5 x)) with (fe_bit_stream x).
    rewrite bits_value_app. rewrite (proj1 (fe_bit_stream_value x W)), (proj2 (fe_bit_stream_value x W)).
    rewrite <- low256_mod by exact W. destruct W as (Hl & Hm & Hh).
    replace (map _ (seq 0 256)) with (map (fun i => Z.testbit (val256 (hi5 x)) (Z.of_nat i)) (seq 0 256)).
    + rewrite bits_value_testbits, Z.shiftr_0_r. rewrite Z.mod_small by (apply val256_range, Hh).
      unfold low256, val512. f_equal.
    + apply map_ext_in. intros i Hi. apply in_seq in Hi.
      rewrite u256_bit_at_exact by (try exact Hh; lia).
      destruct (Z.testbit (val256 (hi5 x)) (Z.of_nat i)); reflexivity.
Qed.

(** ** Random elements (C12) *)
Definition rand_out (r : Z) : Prop := 0 <= r < 2 ^ 31.

Lemma u512_random_val : forall a b c, rand_out a -> rand_out b -> rand_out c ->
  wf512 (u512_random a b c) /\ val512 (u512_random a b c) = a + W128 * b + W256 * c /\
  val512 (u512_random a b c) < W508.
Proof.
  intros a b c Ha Hb Hc. unfold rand_out in *. unfold u512_random, wf512, val512; cbn [lo5 mid5 hi5].
  rewrite ull_small by (rewrite W64_val; lia). rewrite val256_of_ull.
  assert (W : wf256 (u256_of_ull c)) by (apply wf256_of_ull; rewrite W64_val; lia).
  split; [split; [rewrite W128_val; lia|split; [rewrite W128_val; lia|exact W]]|].
  split; [reflexivity|].
  assert (B : a + W128 * b + W256 * c <= (2 ^ 31) + W128 * 2 ^ 31 + W256 * 2 ^ 31).
  { pose proof W128_pos. pose proof W256_pos. nia. }
  eapply Z.le_lt_trans; [exact B|]. vm_compute. reflexivity.
Qed.

Theorem fe_random_exact : forall a b c, rand_out a -> rand_out b -> rand_out c ->
  reduced (fe_random a b c) /\ val512 (fe_random a b c) = (a + 2 ^ 128 * b + 2 ^ 256 * c) mod P.
Proof.
  intros a b c Ha Hb Hc. destruct (u512_random_val a b c Ha Hb Hc) as (W & V & B).
  destruct (u512_mod_exact _ W B) as [W2 V2]. fold (fe_random a b c) in W2, V2.
  rewrite V in V2. split; [|exact V2]. split; [exact W2|]. rewrite V2.
  apply Z.mod_pos_bound, P_pos.
Qed.

(** Pigeonhole: an image of [0,N) cannot cover [0,M) when N < M. *)
Lemma not_surjective : forall (N M : Z) (f : Z -> Z), 0 <= N < M ->
  exists y, 0 <= y < M /\ forall x, 0 <= x < N -> f x <> y.
Proof.
  intros N M f H.
  set (img := map (fun i => f (Z.of_nat i)) (seq 0 (Z.to_nat N))).
  assert (DEC : forall m, (exists y, (y < m)%nat /\ ~ In (Z.of_nat y) img) \/
                          (forall y, (y < m)%nat -> In (Z.of_nat y) img)).
  { induction m; [right; intros; lia|]. destruct IHm as [(y & L & I)|A]; [left; exists y; split; [lia|exact I]|].
    destruct (in_dec Z.eq_dec (Z.of_nat m) img) as [I|I].
    - right. intros y L. destruct (Nat.eq_dec y m) as [->|]; [exact I|apply A; lia].
    - left. exists m. split; [lia|exact I]. }
  destruct (DEC (Z.to_nat M)) as [(y & L & I)|A].
  - exists (Z.of_nat y). split; [lia|]. intros x Hx E. apply I.
    unfold img. apply in_map_iff. exists (Z.to_nat x). rewrite Z2Nat.id by lia.
    split; [exact E|]. apply in_seq. lia.
  - exfalso.
    assert (INC : incl (map Z.of_nat (seq 0 (Z.to_nat M))) img).
    { intros z Hz. apply in_map_iff in Hz. destruct Hz as (y & <- & Hy). apply in_seq in Hy. apply A. lia. }
    assert (ND : NoDup (map Z.of_nat (seq 0 (Z.to_nat M)))).
    { apply FinFun.Injective_map_NoDup; [|apply seq_NoDup]. intros i j E. lia. }
    pose proof (NoDup_incl_length ND INC) as L. unfold img in L.
    rewrite !map_length, !seq_length in L. lia.
Qed.

Lemma three_digits : forall y W, 0 < W -> y mod W + W * ((y / W) mod W) + W * W * (y / (W * W)) = y.
Proof.
  intros y W H. rewrite <- Z.div_div by lia.
  assert (D1 : y = W * (y / W) + y mod W) by (apply Z.div_mod; lia).
  assert (D2 : y / W = W * (y / W / W) + (y / W) mod W) by (apply Z.div_mod; lia).
  set (q := y / W) in *. set (q2 := q / W) in *. set (m := y mod W) in *. set (m2 := q mod W) in *.
  clearbody q2 m m2. rewrite D1, D2. ring.
Qed.

Theorem fe_random_not_surjective : exists x, reduced x /\
  forall a b c, rand_out a -> rand_out b -> rand_out c -> fe_random a b c <> x.
Proof.
  set (K := 2 ^ 31).
  destruct (not_surjective (K * K * K) P
      (fun n => (n mod K + 2 ^ 128 * ((n / K) mod K) + 2 ^ 256 * (n / (K * K))) mod P)) as (y & Hy & N).
  { split; [vm_compute; congruence|vm_compute; reflexivity]. }
  assert (Ry : exists x, reduced x /\ val512 x = y).
  { assert (W : wf256 (U256 (y mod W64) ((y / W64) mod W64) (y / W128))).
    { unfold wf256; cbn [lo6 mid6 hi6]. split; [apply Z.mod_pos_bound, W64_pos|].
      split; [apply Z.mod_pos_bound, W64_pos|]. apply div_lt; [apply W128_pos|].
      pose proof P_lt_W256. rewrite <- W256_W128. lia. }
    destruct (u512_of_u256_spec _ W) as [W5 V5].
    exists (u512_of_u256 (U256 (y mod W64) ((y / W64) mod W64) (y / W128))).
    assert (V : val512 (u512_of_u256 (U256 (y mod W64) ((y / W64) mod W64) (y / W128))) = y).
    { rewrite V5. unfold val256; cbn [lo6 mid6 hi6]. rewrite W128_W64. apply three_digits, W64_pos. }
    split; [|exact V]. split; [exact W5|]. rewrite V. exact Hy. }
  destruct Ry as (x & Rx & Vx). exists x. split; [exact Rx|].
  intros a b c Ha Hb Hc E. destruct (fe_random_exact a b c Ha Hb Hc) as [_ V]. rewrite E, Vx in V.
  unfold rand_out in *. fold K in Ha, Hb, Hc. assert (HK : 0 < K) by reflexivity.
  apply (N (a + K * (b + K * c))); [clearbody K; nia|].
  cbv beta. rewrite V. clear V N.
  assert (Q1 : (a + K * (b + K * c)) / K = b + K * c).
  { rewrite Z.mul_comm, Z.div_add by lia. rewrite Z.div_small by lia. ring. }
  replace ((a + K * (b + K * c)) mod K) with a.
  2:{ rewrite Z.mul_comm, Z.mod_add by lia. symmetry. apply Z.mod_small. lia. }
  rewrite <- Z.div_div by lia. rewrite Q1.
  replace ((b + K * c) mod K) with b.
  2:{ rewrite Z.mul_comm, Z.mod_add by lia. symmetry. apply Z.mod_small. lia. }
  replace ((b + K * c) / K) with c.
  2:{ rewrite Z.mul_comm, Z.div_add by lia. rewrite Z.div_small by lia. ring. }
  reflexivity.
Qed.

(** ** Start-up tables (C13) *)
Lemma not_mod_val : wf256 (not_mod_of mod_u) /\ val256 (not_mod_of mod_u) = W256 - P.
Proof. split; [repeat split; vm_compute; congruence|vm_compute; reflexivity]. Qed.

Lemma P2_W256 : 2 * P < W256. Proof. vm_compute. reflexivity. Qed.

(** One conditional subtraction. *)
Lemma cond_sub : forall s, wf256 s -> val256 s < 2 * P ->
  let t := if u256_le mod_u s then u256_add s (not_mod_of mod_u) else s in
  wf256 t /\ val256 t = val256 s mod P.
Proof.
  intros s W B. cbv zeta. destruct (u256_cmp mod_u s wf_mod_u W) as (L & _).
  rewrite val_mod_u in L. pose proof (val256_range s W) as R.
  destruct (u256_le mod_u s) eqn:E.
  - assert (H : P <= val256 s) by (apply L; reflexivity).
    destruct not_mod_val as [Wn Vn]. destruct (u256_add_exact s _ W Wn) as [W2 V2].
    split; [exact W2|]. rewrite V2, Vn. pose proof P2_W256. pose proof P_pos.
    replace (val256 s + (W256 - P)) with (val256 s - P + 1 * W256) by ring.
    rewrite Z.mod_add by lia. rewrite Z.mod_small by lia.
    symmetry. replace (val256 s) with (val256 s - P + 1 * P) at 1 by ring.
    rewrite Z.mod_add by lia. apply Z.mod_small. lia.
  - split; [exact W|]. symmetry. apply Z.mod_small.
    assert (~ P <= val256 s) by (intro H; apply L in H; discriminate). lia.
Qed.

Lemma tmps_loop_val : forall n cur k, wf256 cur -> 0 <= k -> val256 cur = 2 ^ k mod P ->
  forall i, (i < n)%nat -> exists t, nth_error (tmps_loop mod_u (not_mod_of mod_u) n cur) i = Some t /\
    wf256 t /\ val256 t = 2 ^ (k + 1 + Z.of_nat i) mod P.
Proof.
  induction n; intros cur k W Hk V i Hi; [lia|].
  cbn [tmps_loop].
  assert (B : val256 cur < P) by (rewrite V; apply Z.mod_pos_bound, P_pos).
  destruct (u256_add_small cur cur W W) as [W2 V2]; [pose proof P2_W256; lia|].
  destruct (cond_sub _ W2 ltac:(lia)) as [W3 V3].
  set (nx := if u256_le mod_u (u256_add cur cur) then _ else _) in *.
  assert (V4 : val256 nx = 2 ^ (k + 1) mod P).
  { rewrite V3, V2, V. rewrite Z.pow_add_r by lia. change (2 ^ 1) with 2.
    rewrite <- Z.add_mod by apply P_nz. f_equal. ring. }
  destruct i.
  - exists nx. cbn [nth_error]. split; [reflexivity|]. split; [exact W3|]. rewrite V4. f_equal. f_equal. lia.
  - cbn [nth_error]. destruct (IHn nx (k + 1) W3 ltac:(lia) V4 i ltac:(lia)) as (t & E & Wt & Vt).
    exists t. split; [exact E|]. split; [exact Wt|]. rewrite Vt. f_equal. f_equal. lia.
Qed.

Theorem interesting_tmps_val : forall i, (i < 256)%nat -> exists t,
  nth_error (interesting_tmps mod_u interm_u) i = Some t /\ wf256 t /\
  val256 t = 2 ^ (256 + Z.of_nat i) mod P.
Proof.
  intros i Hi. unfold interesting_tmps. destruct i.
  - exists interm_u. split; [reflexivity|]. split; [apply wf_interm_u|].
    rewrite val_interm_u, W256_pow. f_equal.
  - cbn [nth_error].
    destruct (tmps_loop_val 255 interm_u 256 wf_interm_u ltac:(lia)) with (i := i) as (t & E & Wt & Vt); [|lia|].
    + rewrite val_interm_u, W256_pow. reflexivity.
    + exists t. split; [exact E|]. split; [exact Wt|]. rewrite Vt. f_equal. f_equal. lia.
Qed.

Lemma tmps_length : length (interesting_tmps mod_u interm_u) = 256%nat.
Proof.
  assert (G : forall n cur, length (tmps_loop mod_u (not_mod_of mod_u) n cur) = n).
  { induction n; intro cur; [reflexivity|]. cbn [tmps_loop length]. rewrite IHn. reflexivity. }
  unfold interesting_tmps. cbn [length]. rewrite G. reflexivity.
Qed.

Lemma comb_loop_val : forall l j sum e, 0 <= e ->
  (forall i, (i < length l)%nat -> exists t, nth_error l i = Some t /\ wf256 t /\
       val256 t = 2 ^ (e + Z.of_nat i) mod P) ->
  0 <= j -> wf256 sum -> val256 sum < P ->
  wf256 (comb_loop mod_u (not_mod_of mod_u) l j sum) /\
  val256 (comb_loop mod_u (not_mod_of mod_u) l j sum) < P /\
  val256 (comb_loop mod_u (not_mod_of mod_u) l j sum)
   = (val256 sum + (j mod 2 ^ Z.of_nat (length l)) * 2 ^ e) mod P.
Proof.
  induction l; intros j sum e He H Hj W B.
  - cbn. rewrite Z.mod_1_r. split; [exact W|]. split; [exact B|].
    rewrite Z.add_0_r. symmetry. apply Z.mod_small. pose proof (val256_range sum W). lia.
  - cbn [comb_loop length].
    destruct (H 0%nat ltac:(cbn; lia)) as (t & Et & Wt & Vt). cbn in Et. injection Et as <-.
    rewrite Z.add_0_r in Vt.
    assert (Bt : val256 a < P) by (rewrite Vt; apply Z.mod_pos_bound, P_pos).
    set (sum' := if Z.odd j then _ else sum).
    assert (S : wf256 sum' /\ val256 sum' < P /\ val256 sum' = (val256 sum + (j mod 2) * 2 ^ e) mod P).
    { unfold sum'. rewrite Zmod_odd. destruct (Z.odd j).
      - destruct (u256_add_small sum a W Wt) as [W2 V2]; [pose proof P2_W256; lia|].
        destruct (cond_sub _ W2 ltac:(lia)) as [W3 V3]. split; [exact W3|].
        rewrite V3, V2. split; [apply Z.mod_pos_bound, P_pos|].
        rewrite Vt, Z.mul_1_l. apply Z.add_mod_idemp_r, P_nz.
      - split; [exact W|]. split; [exact B|]. rewrite Z.mul_0_l, Z.add_0_r. symmetry.
        apply Z.mod_small. pose proof (val256_range sum W). lia. }
    destruct S as (W' & B' & V').
    destruct (IHl (Z.shiftr j 1) sum' (e + 1)) as (W2 & B2 & V2); try assumption; try lia.
    { intros i Hi. destruct (H (S i) ltac:(cbn; lia)) as (u & Eu & Wu & Vu).
      exists u. split; [exact Eu|]. split; [exact Wu|]. rewrite Vu. f_equal. f_equal. lia. }
    { apply Z.shiftr_nonneg. exact Hj. }
    split; [exact W2|]. split; [exact B2|]. rewrite V2, V'.
    rewrite Z.add_mod_idemp_l by apply P_nz. f_equal.
    rewrite Nat2Z.inj_succ, (Z.pow_succ_r 2) by lia.
    rewrite Z.rem_mul_r by (try lia; apply Z.pow_pos_nonneg; lia).
    rewrite Z.shiftr_div_pow2 by lia. rewrite Z.pow_add_r by lia. change (2 ^ 1) with 2. ring.
Qed.

Lemma nth_error_firstn : forall (A : Type) n (l : list A) i, (i < n)%nat -> nth_error (firstn n l) i = nth_error l i.
Proof.
  induction n; intros l i H; [lia|]. destruct l; [destruct i; reflexivity|].
  destruct i; [reflexivity|]. cbn. apply IHn. lia.
Qed.
Lemma nth_error_skipn : forall (A : Type) n (l : list A) i, nth_error (skipn n l) i = nth_error l (n + i).
Proof.
  induction n; intros l i; [reflexivity|]. destruct l; [destruct i; reflexivity|]. cbn. apply IHn.
Qed.

Theorem interesting_combination_val : forall i j, (i < 32)%nat -> 0 <= j < 256 ->
  wf256 (interesting_combination mod_u interm_u i j) /\
  val256 (interesting_combination mod_u interm_u i j) = (j * 2 ^ (256 + 8 * Z.of_nat i)) mod P.
Proof.
  intros i j Hi Hj. unfold interesting_combination.
  set (l := firstn 8 (skipn (8 * i) (interesting_tmps mod_u interm_u))).
  assert (L : length l = 8%nat).
  { unfold l. rewrite firstn_length, skipn_length, tmps_length. lia. }
  destruct (comb_loop_val l j (u256_of_ull 0) (256 + 8 * Z.of_nat i)) as (W & _ & V).
  - lia.
  - intros k Hk. rewrite L in Hk.
    destruct (interesting_tmps_val (8 * i + k)) as (t & E & Wt & Vt); [lia|].
    exists t. split; [|split; [exact Wt|rewrite Vt; f_equal; f_equal; lia]].
    unfold l. rewrite nth_error_firstn. 2: exact Hk.
    rewrite nth_error_skipn. exact E.
  - lia.
  - apply wf256_of_ull. pose proof W64_pos; lia.
  - rewrite val256_of_ull. apply P_pos.
  - split; [exact W|]. rewrite V, L, val256_of_ull, Z.add_0_l. f_equal. f_equal.
    apply Z.mod_small. exact Hj.
Qed.

(** ** The inverse of two *)
Definition half : F := ofZ (dec_value inv_2_str).
Lemma rep_inv_2 : rep inv_2 half.
Proof. apply fe_from_string_dec. unfold is_digits. repeat constructor; lia || (vm_compute; congruence). Qed.
Lemma two_half : ((1 + 1) * half = 1)%F.
Proof. apply F_eq. vm_compute. reflexivity. Qed.

(** ** F is an integral domain *)
Theorem F_integral : forall a b : F, (a * b = 0)%F -> a = 0%F \/ b = 0%F.
Proof.
  intros a b H. apply ofZ_eq_inv in H. rewrite Z.mod_0_l in H by apply P_nz.
  apply Zmod_divide in H; [|apply P_nz].
  apply prime_mult in H; [|exact prime_P].
  assert (Z0 : forall x : F, (P | fz x) -> x = 0%F).
  { intros x D. apply F_eq. pose proof (fz_range x) as R. apply Zdivide_mod in D.
    rewrite Z.mod_small in D by exact R. rewrite D. symmetry. apply fz_ofZ_small. pose proof P_pos; lia. }
  destruct H; [left|right]; apply Z0; assumption.
Qed.
Lemma F1_neq_F0 : 1%F <> 0%F.
Proof.
  intro H. apply (f_equal fz) in H. unfold F1, F0 in H.
  rewrite !fz_ofZ_small in H by (pose proof W64_lt_P; pose proof W64_val; lia). lia.
Qed.
