(** * Proofs about the limb level arithmetic of [Limbs.v] *)
From Coq Require Import ZArith List Bool Lia.
From Verif Require Import Limbs.
Import ListNotations.
Open Scope Z_scope.

Lemma W64_val : W64 = 18446744073709551616. Proof. reflexivity. Qed.
Lemma W128_val : W128 = 340282366920938463463374607431768211456. Proof. reflexivity. Qed.
Lemma W128_W64 : W128 = W64 * W64. Proof. reflexivity. Qed.
Lemma W256_W64 : W256 = W64 * W64 * (W64 * W64). Proof. reflexivity. Qed.
Lemma W256_W128 : W256 = W128 * W128. Proof. reflexivity. Qed.
Lemma W512_W256 : W512 = W256 * W256. Proof. reflexivity. Qed.
Lemma W64_pos : 0 < W64. Proof. reflexivity. Qed.
Lemma W128_pos : 0 < W128. Proof. reflexivity. Qed.
Lemma W256_pos : 0 < W256. Proof. reflexivity. Qed.
Lemma W512_pos : 0 < W512. Proof. reflexivity. Qed.
Global Opaque W64 W128 W256 W512.

(** ** Word level facts *)
Lemma mod_split : forall x w, 0 < w -> exists q, x mod w = x - w * q /\ 0 <= x - w * q < w.
Proof.
  intros x w H. exists (x / w).
  pose proof (Z.div_mod x w ltac:(lia)). pose proof (Z.mod_pos_bound x w H). lia.
Qed.

Lemma ull_range : forall x, 0 <= ull x < W64.
Proof. intro x. apply Z.mod_pos_bound, W64_pos. Qed.
Lemma u128_range : forall x, 0 <= u128 x < W128.
Proof. intro x. apply Z.mod_pos_bound, W128_pos. Qed.
Lemma ull_small : forall x, 0 <= x < W64 -> ull x = x.
Proof. intros. apply Z.mod_small; assumption. Qed.
Lemma u128_small : forall x, 0 <= x < W128 -> u128 x = x.
Proof. intros. apply Z.mod_small; assumption. Qed.
Lemma ull_add_r : forall a b, ull (a + ull b) = ull (a + b).
Proof. intros. apply Z.add_mod_idemp_r. pose proof W64_pos; lia. Qed.
Lemma ull_add_l : forall a b, ull (ull a + b) = ull (a + b).
Proof. intros. apply Z.add_mod_idemp_l. pose proof W64_pos; lia. Qed.
Lemma u128_add_r : forall a b, u128 (a + u128 b) = u128 (a + b).
Proof. intros. apply Z.add_mod_idemp_r. pose proof W128_pos; lia. Qed.
Lemma u128_add_l : forall a b, u128 (u128 a + b) = u128 (a + b).
Proof. intros. apply Z.add_mod_idemp_l. pose proof W128_pos; lia. Qed.

Lemma not64_val : forall x, 0 <= x < W64 -> not64 x = W64 - 1 - x.
Proof.
  intros x H. unfold not64, Z.lnot. symmetry.
  apply Z.mod_unique with (q := -1); lia.
Qed.
Lemma not128_val : forall x, 0 <= x < W128 -> not128 x = W128 - 1 - x.
Proof.
  intros x H. unfold not128, Z.lnot. symmetry.
  apply Z.mod_unique with (q := -1); lia.
Qed.

Lemma shr64 : forall x, Z.shiftr x 64 = x / W64.
Proof. intro x. rewrite Z.shiftr_div_pow2 by lia. reflexivity. Qed.

Lemma land_max_ull : forall x, Z.land x max_ull = ull x.
Proof.
  intro x. unfold max_ull, ull.
  change (W64 - 1) with (Z.ones 64). rewrite Z.land_ones by lia. reflexivity.
Qed.

Lemma lor_add : forall n a b, 0 <= n -> 0 <= a < 2 ^ n -> Z.lor a (b * 2 ^ n) = a + b * 2 ^ n.
Proof.
  intros n a b Hn Ha.
  rewrite <- Z.lxor_lor.
  - symmetry. apply Z.add_nocarry_lxor.
    apply Z.bits_inj'. intros m Hm. rewrite Z.land_spec, Z.bits_0.
    destruct (Z.lt_ge_cases m n).
    + rewrite Z.mul_pow2_bits_low by lia. apply andb_false_r.
    + destruct (Z.eq_dec a 0) as [->|]; [rewrite Z.bits_0; reflexivity|].
      rewrite Z.bits_above_log2; [reflexivity | lia |].
      apply Z.log2_lt_pow2; [lia|]. apply Z.lt_le_trans with (2 ^ n); [lia|].
      apply Z.pow_le_mono_r; lia.
  - apply Z.bits_inj'. intros m Hm. rewrite Z.land_spec, Z.bits_0.
    destruct (Z.lt_ge_cases m n).
    + rewrite Z.mul_pow2_bits_low by lia. apply andb_false_r.
    + destruct (Z.eq_dec a 0) as [->|]; [rewrite Z.bits_0; reflexivity|].
      rewrite Z.bits_above_log2; [reflexivity | lia |].
      apply Z.log2_lt_pow2; [lia|]. apply Z.lt_le_trans with (2 ^ n); [lia|].
      apply Z.pow_le_mono_r; lia.
Qed.

Lemma low128_val : forall l m, 0 <= l < W64 -> 0 <= m < W64 ->
  Z.lor l (u128 (Z.shiftl m 64)) = l + W64 * m.
Proof.
  intros l m Hl Hm. rewrite Z.shiftl_mul_pow2 by lia.
  rewrite u128_small.
  - rewrite lor_add; [change (2^64) with W64; lia | lia | exact Hl].
  - change (2 ^ 64) with W64. rewrite W128_W64. nia.
Qed.

Lemma div_lt : forall x a b, 0 < a -> 0 <= x < a * b -> 0 <= x / a < b.
Proof.
  intros. split; [apply Z.div_pos; lia|]. apply Z.div_lt_upper_bound; lia.
Qed.

(** ** Basic facts on values *)
Lemma val256_range : forall x, wf256 x -> 0 <= val256 x < W256.
Proof.
  intros [l m h] (Hl & Hm & Hh); unfold val256; cbn [lo6 mid6 hi6] in *.
  rewrite W256_W128. rewrite W128_W64 in *. pose proof W64_val. nia.
Qed.

Lemma val512_range : forall x, wf512 x -> 0 <= val512 x < W512.
Proof.
  intros [l m h] (Hl & Hm & Hh); unfold val512; cbn [lo5 mid5 hi5] in *.
  apply val256_range in Hh. rewrite W512_W256. rewrite W256_W128 in *. nia.
Qed.

Lemma val256_inj : forall x y, wf256 x -> wf256 y -> val256 x = val256 y -> x = y.
Proof.
  intros [l m h] [l' m' h'] (Hl & Hm & Hh) (Hl' & Hm' & Hh') E; unfold val256 in E;
    cbn [lo6 mid6 hi6] in *.
  rewrite W128_W64 in *. rewrite W64_val in *.
  f_equal; lia.
Qed.

Lemma val512_inj : forall x y, wf512 x -> wf512 y -> val512 x = val512 y -> x = y.
Proof.
  intros [l m h] [l' m' h'] (Hl & Hm & Hh) (Hl' & Hm' & Hh') E; unfold val512 in E;
    cbn [lo5 mid5 hi5] in *.
  pose proof (val256_range _ Hh). pose proof (val256_range _ Hh').
  rewrite W256_W128 in *. rewrite W128_val in *.
  assert (val256 h = val256 h') by lia.
  assert (h = h') by (apply val256_inj; assumption). subst h'.
  f_equal; lia.
Qed.

Lemma wf256_zero : wf256 (U256 0 0 0).
Proof. unfold wf256; cbn. pose proof W64_pos; pose proof W128_pos; lia. Qed.

Lemma wf256_of_ull : forall x, 0 <= x < W64 -> wf256 (u256_of_ull x).
Proof. intros; unfold wf256, u256_of_ull; cbn. pose proof W64_pos; pose proof W128_pos; lia. Qed.
Lemma val256_of_ull : forall x, val256 (u256_of_ull x) = x.
Proof. intros; unfold val256, u256_of_ull; cbn [lo6 mid6 hi6]; lia. Qed.

Lemma u256_of_u128_spec : forall x, 0 <= x < W128 ->
  wf256 (u256_of_u128 x) /\ val256 (u256_of_u128 x) = x /\ hi6 (u256_of_u128 x) = 0.
Proof.
  intros x H. unfold u256_of_u128, wf256, val256; cbn [lo6 mid6 hi6].
  rewrite land_max_ull, shr64.
  rewrite W128_W64 in *. pose proof W64_pos.
  pose proof (div_lt x W64 W64 ltac:(lia) H).
  rewrite (ull_small (x / W64)) by lia.
  rewrite (ull_small (ull x)) by (apply ull_range).
  pose proof (ull_range x). unfold ull in *.
  pose proof (Z.div_mod x W64 ltac:(lia)).
  rewrite Z.mul_0_r, Z.add_0_r. nia.
Qed.

(** ** [u256b::operator+] *)
Lemma u256_add_exact : forall a x, wf256 a -> wf256 x ->
  wf256 (u256_add a x) /\ val256 (u256_add a x) = (val256 a + val256 x) mod W256.
Proof.
  intros [l m h] [l' m' h'] (Hl & Hm & Hh) (Hl' & Hm' & Hh'); cbn [lo6 mid6 hi6] in *.
  unfold u256_add, wf256, val256; cbn [lo6 mid6 hi6].
  rewrite shr64.
  pose proof W64_val as W. pose proof W128_W64 as W2.
  rewrite ull_add_l.
  set (rlo := ull (l + l')).
  assert (E1 : rlo = l + l' /\ (rlo <? l) = false \/ rlo = l + l' - W64 /\ (rlo <? l) = true).
  { subst rlo. unfold ull. destruct (mod_split (l + l') W64 W64_pos) as (q & E & R).
    rewrite E in *. rewrite Z.ltb_lt, Z.ltb_ge. nia. }
  rewrite (u128_small (m + m')) by (rewrite W2; nia).
  assert (E2 : exists c, 0 <= c <= 1 /\ b2z (rlo <? l) = c /\ l + l' = rlo + W64 * c).
  { destruct E1 as [[E ->]|[E ->]]; [exists 0|exists 1]; cbn; lia. }
  destruct E2 as (c & Hc & -> & El).
  assert (Hrlo : 0 <= rlo < W64) by (apply ull_range).
  set (rmid := ull (m + m' + c)).
  assert (Hrmid : 0 <= rmid < W64) by (apply ull_range).
  assert (E3 : (if m + m' =? max_ull then u128 (m + m' + c) else m + m') / W64 = (m + m' + c) / W64).
  { destruct (Z.eqb_spec (m + m') max_ull) as [E|N].
    - rewrite u128_small by nia. reflexivity.
    - unfold max_ull in N.
      destruct (Z.lt_ge_cases (m + m') W64).
      + rewrite !Z.div_small by lia. reflexivity.
      + transitivity 1; [symmetry|].
        * apply Z.div_unique with (r := m + m' - W64); lia.
        * apply Z.div_unique with (r := m + m' + c - W64); lia. }
  rewrite E3.
  assert (E4 : exists d, 0 <= d <= 1 /\ (m + m' + c) / W64 = d /\ m + m' + c = rmid + W64 * d).
  { exists ((m + m' + c) / W64). unfold rmid, ull.
    pose proof (Z.div_mod (m + m' + c) W64 ltac:(lia)).
    pose proof (div_lt (m + m' + c) W64 2 ltac:(lia) ltac:(lia)). lia. }
  destruct E4 as (d & Hd & -> & Em).
  rewrite u128_add_l.
  split.
  - pose proof (u128_range (h + h' + d)). lia.
  - unfold u128. destruct (mod_split (h + h' + d) W128 W128_pos) as (q & E & R).
    rewrite E in *.
    apply Z.mod_unique with (q := q).
    + left. rewrite W256_W128, W2 in *. nia.
    + rewrite W256_W128. rewrite W2. nia.
Qed.

Lemma u256_add_small : forall a x, wf256 a -> wf256 x -> val256 a + val256 x < W256 ->
  wf256 (u256_add a x) /\ val256 (u256_add a x) = val256 a + val256 x.
Proof.
  intros a x Ha Hx H. destruct (u256_add_exact a x Ha Hx) as [W E]. split; [exact W|].
  rewrite E. apply Z.mod_small. pose proof (val256_range a Ha); pose proof (val256_range x Hx); lia.
Qed.

(** ** [u256b::operator-] computes [a - b - 1] *)
Lemma u256_sub_exact : forall a x, wf256 a -> wf256 x ->
  wf256 (u256_sub a x) /\ val256 (u256_sub a x) = (val256 a - val256 x - 1) mod W256.
Proof.
  intros a x Ha Hx. unfold u256_sub.
  destruct Hx as (Hl & Hm & Hh).
  set (nx := U256 _ _ _).
  assert (Wn : wf256 nx).
  { unfold nx, wf256; cbn [lo6 mid6 hi6].
    rewrite !not64_val, not128_val by assumption. lia. }
  assert (En : val256 nx = W256 - 1 - val256 x).
  { unfold nx, val256; cbn [lo6 mid6 hi6].
    rewrite !not64_val, not128_val by assumption. rewrite W256_W128, W128_W64. ring. }
  destruct (u256_add_exact a nx Ha Wn) as [W E]. split; [exact W|].
  rewrite E, En. replace (val256 a + (W256 - 1 - val256 x)) with (val256 a - val256 x - 1 + 1 * W256) by ring.
  apply Z.mod_add. pose proof W256_pos; lia.
Qed.

(** ** Products *)
(** The shared multiplication kernel of [operator*] (65-84) and [mul_no_hi]. *)
(** Pure arithmetic facts, kept apart so that the checker sees small terms. *)
Lemma sum3_lt : forall W a b c, 4 <= W -> 0 <= a < W -> 0 <= b < W -> 0 <= c < W ->
  0 <= a + b + c < W * W.
Proof. intros. nia. Qed.
Lemma sum2_lt : forall W a b, 4 <= W -> 0 <= a < W -> 0 <= b < W -> 0 <= a + b < W * W.
Proof. intros. nia. Qed.
Lemma digits2 : forall W l m, 0 < W -> 0 <= l < W -> 0 <= m < W -> 0 <= l + W * m < W * W.
Proof. intros. nia. Qed.
Lemma mul_lt_sq : forall W a b, 0 <= a < W -> 0 <= b < W -> 0 <= a * b < W * W.
Proof. intros. nia. Qed.
Lemma mul_cancel_lt : forall W x, 0 < W -> W * x < W * W -> x < W.
Proof. intros. nia. Qed.
Lemma small_mult : forall W d k, 0 < W -> d = W * k -> - W < d < W -> d = 0.
Proof. intros W d k HW E H. assert (k = 0) by nia. subst. ring. Qed.
Lemma kernel_id : forall W q0 r0 q1 r1 q2 r2 q3 r3, r1 + r2 + q0 = r3 + W * q3 ->
  r0 + W * r3 + W * W * (q1 + q2 + q3) = r0 + W * q0 + W * (r1 + W * q1 + (r2 + W * q2)).
Proof. intros. replace (r3) with (r1 + r2 + q0 - W * q3) by lia. ring. Qed.

Lemma mul_kernel : forall al am xl xm,
  0 <= al < W64 -> 0 <= am < W64 -> 0 <= xl < W64 -> 0 <= xm < W64 ->
  let lolo := u128 (al * xl) in
  let lomid1 := u128 (am * xl) in
  let lomid2 := u128 (al * xm) in
  let carry := Z.shiftr lolo 64 in
  let rmid := ull (ull (ull lomid1 + ull lomid2) + ull carry) in
  let carry2 := u128 (u128 (Z.shiftr lomid1 64 + Z.shiftr lomid2 64)
      + Z.shiftr (u128 (u128 (Z.land lomid1 max_ull + Z.land lomid2 max_ull) + carry)) 64) in
  ull lolo + W64 * rmid + W128 * carry2 = al * xl + W64 * (am * xl + al * xm)
  /\ 0 <= carry2 < 3 * W64.
Proof.
  intros al am xl xm Hal Ham Hxl Hxm. cbv zeta.
  pose proof W64_val as W. pose proof W128_W64 as W2.
  rewrite !(u128_small (_ * _)) by (rewrite W2; apply mul_lt_sq; assumption).
  rewrite !land_max_ull, !shr64.
  assert (W4 : 4 <= W64) by lia.
  assert (Q : forall x, 0 <= x < W64 * W64 -> exists q r, x / W64 = q /\ ull x = r /\ x = r + W64 * q /\ 0 <= q < W64 /\ 0 <= r < W64).
  { intros x Hx. exists (x / W64), (ull x). pose proof (div_lt x W64 W64 ltac:(lia) Hx).
    pose proof (Z.div_mod x W64 ltac:(lia)). pose proof (ull_range x). unfold ull in *. lia. }
  destruct (Q (al * xl)) as (q0 & r0 & -> & -> & E0 & Hq0 & Hr0); [apply mul_lt_sq; assumption|].
  destruct (Q (am * xl)) as (q1 & r1 & -> & -> & E1 & Hq1 & Hr1); [apply mul_lt_sq; assumption|].
  destruct (Q (al * xm)) as (q2 & r2 & -> & -> & E2 & Hq2 & Hr2); [apply mul_lt_sq; assumption|].
  rewrite (ull_small q0) by lia.
  rewrite (u128_small (r1 + r2)) by (rewrite W2; apply sum2_lt; assumption).
  rewrite (u128_small (r1 + r2 + q0)) by (rewrite W2; apply sum3_lt; assumption).
  rewrite (u128_small (q1 + q2)) by (rewrite W2; apply sum2_lt; assumption).
  rewrite ull_add_l.
  destruct (Q (r1 + r2 + q0)) as (q3 & r3 & -> & -> & E3 & Hq3 & Hr3); [apply sum3_lt; assumption|].
  rewrite u128_small by (rewrite W2; apply sum3_lt; assumption).
  split; [|lia].
  rewrite E0, E1, E2. rewrite W2. apply kernel_id. exact E3.
Qed.

Lemma mul_no_hi_exact : forall a b, 0 <= lo6 a < W64 -> 0 <= mid6 a < W64 -> 0 <= lo6 b < W64 ->
  0 <= mid6 b < W64 ->
  wf256 (mul_no_hi a b) /\
  val256 (mul_no_hi a b) = (lo6 a + W64 * mid6 a) * (lo6 b + W64 * mid6 b).
Proof.
  intros a b H1 H2 H3 H4. unfold mul_no_hi, wf256, val256; cbn [lo6 mid6 hi6].
  pose proof (mul_kernel _ _ _ _ H1 H2 H3 H4) as K. cbv zeta in K.
  destruct K as [K1 K2].
  set (carry2 := u128 (u128 (Z.shiftr _ 64 + Z.shiftr _ 64) + _)) in *.
  pose proof W128_W64 as W2. pose proof W64_val.
  set (rm := ull (ull (ull _ + ull _) + ull _)) in *.
  assert (Hrm : 0 <= rm < W64) by apply ull_range.
  pose proof (ull_range (u128 (lo6 a * lo6 b))).
  rewrite (u128_small (mid6 a * mid6 b)) by (rewrite W2; nia).
  assert (HB : mid6 a * mid6 b + carry2 < W128).
  { assert (W128 * (mid6 a * mid6 b + carry2) < W128 * W128); [|pose proof W128_pos; nia].
    assert (E : W128 * (mid6 a * mid6 b + carry2) <=
               (lo6 a + W64 * mid6 a) * (lo6 b + W64 * mid6 b)).
    { replace ((lo6 a + W64 * mid6 a) * (lo6 b + W64 * mid6 b))
        with (lo6 a * lo6 b + W64 * (mid6 a * lo6 b + lo6 a * mid6 b) + W128 * (mid6 a * mid6 b))
        by (rewrite W2; ring). nia. }
    assert ((lo6 a + W64 * mid6 a) * (lo6 b + W64 * mid6 b) < W128 * W128).
    { apply Z.mul_lt_mono_nonneg; nia. }
    lia. }
  rewrite (u128_small (mid6 a * mid6 b + carry2)) by nia.
  split; [nia|].
  replace ((lo6 a + W64 * mid6 a) * (lo6 b + W64 * mid6 b))
    with (lo6 a * lo6 b + W64 * (mid6 a * lo6 b + lo6 a * mid6 b) + W128 * (mid6 a * mid6 b))
    by (rewrite W2; ring).
  rewrite <- K1. ring.
Qed.

(** Congruence modulo 2^128, used to strip intermediate wraps. *)
Definition cong128 (x y : Z) : Prop := exists k, x = y + W128 * k.
Lemma cong128_refl : forall x, cong128 x x. Proof. intro; exists 0; ring. Qed.
Lemma cong128_add : forall a b c d, cong128 a b -> cong128 c d -> cong128 (a + c) (b + d).
Proof. intros a b c d [k ->] [k' ->]; exists (k + k'); ring. Qed.
Lemma cong128_mul : forall a b c d, cong128 a b -> cong128 c d -> cong128 (a * c) (b * d).
Proof. intros a b c d [k ->] [k' ->]; exists (k * d + k' * b + W128 * k * k'); ring. Qed.
Lemma cong128_u128 : forall a b, cong128 a b -> cong128 (u128 a) b.
Proof.
  intros a b [k ->]. unfold u128. destruct (mod_split (b + W128 * k) W128 W128_pos) as (q & E & _).
  rewrite E. exists (k - q). ring.
Qed.
Lemma cong128_eq : forall a b, cong128 a b -> u128 a = u128 b.
Proof. intros a b [k ->]. unfold u128. rewrite Z.mul_comm. apply Z.mod_add. pose proof W128_pos; lia. Qed.

Lemma u256_mul_exact : forall a x, wf256 a -> wf256 x ->
  wf256 (u256_mul a x) /\ val256 (u256_mul a x) = (val256 a * val256 x) mod W256.
Proof.
  intros a x (H1 & H2 & H5) (H3 & H4 & H6).
  unfold u256_mul, wf256, val256; cbn [lo6 mid6 hi6].
  pose proof (mul_kernel _ _ _ _ H1 H2 H3 H4) as K. cbv zeta in K.
  destruct K as [K1 K2].
  set (carry2 := u128 (u128 (Z.shiftr _ 64 + Z.shiftr _ 64) + _)) in *.
  set (rm := ull (ull (ull _ + ull _) + ull _)) in *.
  assert (Hrm : 0 <= rm < W64) by apply ull_range.
  pose proof (ull_range (u128 (lo6 a * lo6 x))) as HL.
  set (rl := ull (u128 (lo6 a * lo6 x))) in *.
  rewrite Z.shiftl_mul_pow2 by lia. change (2 ^ 64) with W64.
  match goal with |- context [W128 * u128 ?e] => set (S := e) end.
  assert (ES : u128 S = u128 (lo6 a * hi6 x + hi6 a * lo6 x + mid6 a * mid6 x
               + (mid6 a * hi6 x + hi6 a * mid6 x) * W64 + carry2)).
  { apply cong128_eq. unfold S.
    repeat first [apply cong128_refl | apply cong128_add | apply cong128_mul | apply cong128_u128]. }
  rewrite ES.
  set (S' := lo6 a * hi6 x + _ + _ + _ + _).
  pose proof (u128_range S').
  split; [lia|].
  destruct (mod_split S' W128 W128_pos) as (q & E & R).
  change (S' mod W128) with (u128 S') in E.
  apply Z.mod_unique with (q := hi6 a * hi6 x + q).
  - left. pose proof W64_val. rewrite W256_W128, W128_W64 in *. nia.
  - rewrite E. unfold S'. rewrite W256_W128.
    transitivity ((rl + W64 * rm + W128 * carry2) + W64 * W64 * (W64 * W64) * (hi6 a * hi6 x)
       + W128 * (lo6 a * hi6 x + hi6 a * lo6 x + mid6 a * mid6 x
               + (mid6 a * hi6 x + hi6 a * mid6 x) * W64)); [|rewrite W128_W64; ring].
    rewrite K1. rewrite W128_W64. ring.
Qed.

Lemma u256_mul_small : forall a x, wf256 a -> wf256 x -> val256 a * val256 x < W256 ->
  wf256 (u256_mul a x) /\ val256 (u256_mul a x) = val256 a * val256 x.
Proof.
  intros a x Ha Hx H. destruct (u256_mul_exact a x Ha Hx) as [W E]. split; [exact W|].
  rewrite E. apply Z.mod_small. pose proof (val256_range a Ha); pose proof (val256_range x Hx); nia.
Qed.

(** ** Comparisons of [u256b] *)
Lemma u256_cmp : forall a x, wf256 a -> wf256 x ->
  (u256_le a x = true <-> val256 a <= val256 x) /\
  (u256_lt a x = true <-> val256 a < val256 x) /\
  (u256_gt a x = true <-> val256 a > val256 x) /\
  (u256_ne a x = true <-> val256 a <> val256 x).
Proof.
  intros [l m h] [l' m' h'] (Hl & Hm & Hh) (Hl' & Hm' & Hh').
  unfold u256_le, u256_lt, u256_gt, u256_ne, val256; cbn [lo6 mid6 hi6] in *.
  rewrite W64_val, W128_val in *.
  repeat split.
  all: repeat match goal with
  | |- context [?a <? ?b] => destruct (Z.ltb_spec a b)
  | |- context [?a <=? ?b] => destruct (Z.leb_spec a b)
  | |- context [?a =? ?b] => destruct (Z.eqb_spec a b)
  end; cbn [negb orb]; try congruence; try lia.
Qed.

(** ** [u512b] *)
Lemma u512_of_u256_spec : forall x, wf256 x ->
  wf512 (u512_of_u256 x) /\ val512 (u512_of_u256 x) = val256 x.
Proof.
  intros [l m h] (Hl & Hm & Hh). unfold u512_of_u256, wf512, val512; cbn [lo5 mid5 hi5 lo6 mid6 hi6] in *.
  rewrite Z.lor_comm, low128_val by assumption.
  change (val256 {| lo6 := 0; mid6 := 0; hi6 := 0 |}) with (0 + W64 * 0 + W128 * 0).
  unfold val256; cbn [lo6 mid6 hi6].
  pose proof wf256_zero. rewrite W128_W64 in *. split; [|ring]. split; [nia|]. split; assumption.
Qed.

Lemma u512_of_u128_spec : forall x, 0 <= x < W128 ->
  wf512 (u512_of_u128 x) /\ val512 (u512_of_u128 x) = x.
Proof.
  intros x H. unfold u512_of_u128, wf512, val512; cbn [lo5 mid5 hi5].
  change (val256 {| lo6 := 0; mid6 := 0; hi6 := 0 |}) with (0 + W64 * 0 + W128 * 0).
  pose proof wf256_zero. pose proof W128_pos. split; [|ring]. split; [lia|]. split; [lia|assumption].
Qed.

Lemma u512_add_exact : forall a x, wf512 a -> wf512 x ->
  wf512 (u512_add a x) /\ val512 (u512_add a x) = (val512 a + val512 x) mod W512.
Proof.
  intros [l m h] [l' m' h'] (Hl & Hm & Hh) (Hl' & Hm' & Hh'); cbn [lo5 mid5 hi5] in *.
  unfold u512_add, wf512, val512; cbn [lo5 mid5 hi5].
  pose proof W128_val as W.
  rewrite u128_add_l.
  set (rlo := u128 (l + l')).
  assert (Hrlo : 0 <= rlo < W128) by apply u128_range.
  assert (E2 : exists c, 0 <= c <= 1 /\ b2z (rlo <? l) = c /\ l + l' = rlo + W128 * c).
  { subst rlo. unfold u128. destruct (mod_split (l + l') W128 W128_pos) as (q & E & R).
    unfold u128 in *. rewrite E in *.
    destruct (Z.ltb_spec (l + l' - W128 * q) l); [exists 1|exists 0]; cbn; nia. }
  destruct E2 as (c & Hc & -> & El).
  set (rmid := u128 (m + m' + c)).
  assert (Hrmid : 0 <= rmid < W128) by apply u128_range.
  assert (E3 : exists d, 0 <= d <= 1 /\
     (if c =? 0 then b2z (rmid <? m) else b2z (rmid <=? m)) = d /\ m + m' + c = rmid + W128 * d).
  { subst rmid. unfold u128. destruct (mod_split (m + m' + c) W128 W128_pos) as (q & E & R).
    unfold u128 in *. rewrite E in *.
    destruct (Z.eqb_spec c 0).
    - destruct (Z.ltb_spec (m + m' + c - W128 * q) m); [exists 1|exists 0]; cbn; nia.
    - destruct (Z.leb_spec (m + m' + c - W128 * q) m); [exists 1|exists 0]; cbn; nia. }
  destruct E3 as (d & Hd & -> & Em).
  destruct (u256_of_u128_spec d ltac:(lia)) as (Wd & Vd & _).
  destruct (u256_add_exact h h' Hh Hh') as [W1 V1].
  destruct (u256_add_exact _ _ W1 Wd) as [W2 V2].
  split; [split; [assumption|split; assumption]|].
  rewrite V2, V1, Vd.
  rewrite Z.add_mod_idemp_l by (pose proof W256_pos; lia).
  destruct (mod_split (val256 h + val256 h' + d) W256 W256_pos) as (q & E & R).
  rewrite E.
  apply Z.mod_unique with (q := q).
  - left. rewrite W512_W256. rewrite W256_W128 in *. nia.
  - rewrite W512_W256. rewrite W256_W128 in *. nia.
Qed.

Lemma u512_add_small : forall a x, wf512 a -> wf512 x -> val512 a + val512 x < W512 ->
  wf512 (u512_add a x) /\ val512 (u512_add a x) = val512 a + val512 x.
Proof.
  intros a x Ha Hx H. destruct (u512_add_exact a x Ha Hx) as [W E]. split; [exact W|].
  rewrite E. apply Z.mod_small. pose proof (val512_range a Ha); pose proof (val512_range x Hx); lia.
Qed.

Lemma u512_not_spec : forall x, wf512 x ->
  wf512 (u512_not x) /\ val512 (u512_not x) = W512 - 1 - val512 x.
Proof.
  intros [l m [a b c]] (Hl & Hm & (Ha & Hb & Hc)); cbn [lo5 mid5 hi5 lo6 mid6 hi6] in *.
  unfold u512_not, wf512, val512, wf256, val256; cbn [lo5 mid5 hi5 lo6 mid6 hi6].
  rewrite !not64_val, !not128_val by assumption.
  split; [lia|]. rewrite W512_W256, W256_W128, W128_W64. ring.
Qed.

(** [one] being 1 (after [init]) or 0 (before). *)
Lemma u512_sub_g_exact : forall one a x, wf256 one -> wf512 a -> wf512 x ->
  wf512 (u512_sub_g one a x) /\
  val512 (u512_sub_g one a x) = (val512 a - val512 x - 1 + val256 one) mod W512.
Proof.
  intros one a x Ho Ha Hx. unfold u512_sub_g.
  destruct (u512_not_spec x Hx) as [Wn Vn].
  destruct (u512_of_u256_spec one Ho) as [W1 V1].
  destruct (u512_add_exact _ _ Wn W1) as [W2 V2].
  destruct (u512_add_exact _ _ Ha W2) as [W3 V3].
  split; [exact W3|]. rewrite V3, V2, Vn, V1.
  rewrite Z.add_mod_idemp_r by (pose proof W512_pos; lia).
  replace (val512 a + (W512 - 1 - val512 x + val256 one))
    with (val512 a - val512 x - 1 + val256 one + 1 * W512) by ring.
  apply Z.mod_add. pose proof W512_pos; lia.
Qed.

Lemma wf_one_g : wf256 one_g.
Proof. apply wf256_of_ull. pose proof W64_val; lia. Qed.
Lemma val_one_g : val256 one_g = 1.
Proof. apply val256_of_ull. Qed.

Lemma u512_sub_exact : forall a x, wf512 a -> wf512 x ->
  wf512 (u512_sub a x) /\ val512 (u512_sub a x) = (val512 a - val512 x) mod W512.
Proof.
  intros a x Ha Hx. unfold u512_sub.
  destruct (u512_sub_g_exact one_g a x wf_one_g Ha Hx) as [W V]. split; [exact W|].
  rewrite V, val_one_g. f_equal. ring.
Qed.

Lemma u512_sub_small : forall a x, wf512 a -> wf512 x -> val512 x <= val512 a ->
  wf512 (u512_sub a x) /\ val512 (u512_sub a x) = val512 a - val512 x.
Proof.
  intros a x Ha Hx H. destruct (u512_sub_exact a x Ha Hx) as [W E]. split; [exact W|].
  rewrite E. apply Z.mod_small. pose proof (val512_range a Ha); pose proof (val512_range x Hx); lia.
Qed.

(** ** [u512b::operator*] *)
Lemma u256_low128_spec : forall x, wf256 x ->
  u256_low128 x = lo6 x + W64 * mid6 x /\ 0 <= u256_low128 x < W128 /\
  val256 x = u256_low128 x + W128 * hi6 x.
Proof.
  intros [l m h] (Hl & Hm & Hh); unfold u256_low128, val256; cbn [lo6 mid6 hi6] in *.
  rewrite low128_val by assumption. rewrite W128_W64. split; [reflexivity|]. split; [nia|ring].
Qed.

Lemma mul_general_core : forall W al am xl xm v0 v1 v2 v3 l0 l1 l2 lt lk h0 h1 h2 hk ht c2,
  0 < W -> 0 <= al < W -> 0 <= am < W -> 0 <= xl < W -> 0 <= xm < W ->
  v0 = l0 + W * h0 -> v1 = l1 + W * h1 -> v2 = l2 + W * h2 ->
  v0 = al * xl -> v1 = am * xl -> v2 = al * xm -> v3 = am * xm ->
  0 <= l0 < W -> 0 <= lt < W -> 0 <= lk < W ->
  l1 + l2 + h0 = lk + W * hk ->
  lt + W * ht = (v1 + v2 + h0) mod (W * W) ->
  c2 = h1 + h2 + hk ->
  lt = lk /\ l0 + W * lk + W * W * (v3 + c2) = (al + W * am) * (xl + W * xm) /\ v3 + c2 < W * W.
Proof.
  intros W al am xl xm v0 v1 v2 v3 l0 l1 l2 lt lk h0 h1 h2 hk ht c2 HW Hal Ham Hxl Hxm
    S0 S1 S2 V0 V1 V2 V3 L0 Lt Lk K T C.
  assert (WW : 0 < W * W) by (apply Z.mul_pos_pos; assumption).
  assert (KK : lk = l1 + l2 + h0 - W * hk) by (rewrite K; ring).
  assert (E : lt = lk).
  { destruct (mod_split (v1 + v2 + h0) (W * W) WW) as (q & E & _).
    rewrite E, S1, S2 in T.
    assert (D : lt - lk = W * (hk + h1 + h2 - W * q - ht)).
    { replace lt with (lt + W * ht - W * ht) by ring. rewrite T, KK. ring. }
    assert (D0 : lt - lk = 0) by (apply (small_mult W _ _ HW D); clear - Lt Lk; lia).
    clear - D0. lia. }
  assert (TOT : l0 + W * lk + W * W * (v3 + c2) = (al + W * am) * (xl + W * xm)).
  { replace ((al + W * am) * (xl + W * xm)) with
      (al * xl + W * (am * xl + al * xm) + W * W * (am * xm)) by ring.
    rewrite <- V0, <- V1, <- V2, <- V3, S0, S1, S2, C, KK. ring. }
  split; [exact E|]. split; [exact TOT|].
  apply mul_cancel_lt; [exact WW|].
  apply Z.le_lt_trans with ((al + W * am) * (xl + W * xm)).
  - rewrite <- TOT. assert (0 <= W * lk) by (apply Z.mul_nonneg_nonneg; lia). lia.
  - apply mul_lt_sq; apply digits2; assumption.
Qed.

Lemma u512_mul_general : forall a x, wf512 a -> wf512 x ->
  ~ (mid5 x = 0 /\ lo5 x = 0) -> ~ (mid5 a = 0 /\ lo5 a = 0) ->
  wf512 (u512_mul a x) /\
  val512 (u512_mul a x) = (lo5 a + W128 * mid5 a) * (lo5 x + W128 * mid5 x).
Proof.
  intros a x (Hal & Ham & Hah) (Hxl & Hxm & Hxh) Nx Na.
  unfold u512_mul.
  replace ((mid5 x =? 0) && (lo5 x =? 0)) with false.
  2:{ symmetry. apply andb_false_iff. rewrite !Z.eqb_neq. lia. }
  replace ((mid5 a =? 0) && (lo5 a =? 0)) with false.
  2:{ symmetry. apply andb_false_iff. rewrite !Z.eqb_neq. lia. }
  destruct (u256_of_u128_spec _ Hal) as ((Wal1 & Wal2 & _) & Val & Hal0).
  destruct (u256_of_u128_spec _ Ham) as ((Wam1 & Wam2 & _) & Vam & Ham0).
  destruct (u256_of_u128_spec _ Hxl) as ((Wxl1 & Wxl2 & _) & Vxl & Hxl0).
  destruct (u256_of_u128_spec _ Hxm) as ((Wxm1 & Wxm2 & _) & Vxm & Hxm0).
  unfold val256 in Val, Vam, Vxl, Vxm.
  rewrite Hal0, Z.mul_0_r, Z.add_0_r in Val. rewrite Ham0, Z.mul_0_r, Z.add_0_r in Vam.
  rewrite Hxl0, Z.mul_0_r, Z.add_0_r in Vxl. rewrite Hxm0, Z.mul_0_r, Z.add_0_r in Vxm.
  set (alo := u256_of_u128 (lo5 a)) in *. set (xlo := u256_of_u128 (lo5 x)) in *.
  set (amid := u256_of_u128 (mid5 a)) in *. set (xmid := u256_of_u128 (mid5 x)) in *.
  destruct (mul_no_hi_exact alo xlo) as [W0 V0]; try assumption.
  destruct (mul_no_hi_exact amid xlo) as [W1 V1]; try assumption.
  destruct (mul_no_hi_exact alo xmid) as [W2 V2]; try assumption.
  destruct (mul_no_hi_exact amid xmid) as [W3 V3]; try assumption.
  rewrite Val, Vxl in V0. rewrite Vam, Vxl in V1. rewrite Val, Vxm in V2. rewrite Vam, Vxm in V3.
  set (lolo := mul_no_hi alo xlo) in *. set (lomid1 := mul_no_hi amid xlo) in *.
  set (lomid2 := mul_no_hi alo xmid) in *. set (midmid := mul_no_hi amid xmid) in *.
  clearbody lolo lomid1 lomid2 midmid. clear alo xlo amid xmid Val Vam Vxl Vxm Wal1 Wal2 Wam1 Wam2 Wxl1 Wxl2
    Wxm1 Wxm2 Hal0 Ham0 Hxl0 Hxm0.
  destruct (u256_low128_spec _ W0) as (_ & L0 & S0).
  destruct (u256_low128_spec _ W1) as (_ & L1 & S1).
  destruct (u256_low128_spec _ W2) as (_ & L2 & S2).
  set (l0 := u256_low128 lolo) in *. set (l1 := u256_low128 lomid1) in *.
  set (l2 := u256_low128 lomid2) in *.
  assert (C0 : 0 <= hi6 lolo < W128) by apply W0.
  assert (C1 : 0 <= hi6 lomid1 < W128) by apply W1.
  assert (C2 : 0 <= hi6 lomid2 < W128) by apply W2.
  destruct (u256_of_u128_spec _ C0) as (Wc & Vc & _).
  destruct (u256_of_u128_spec _ C1) as (Wc1 & Vc1 & _).
  destruct (u256_of_u128_spec _ C2) as (Wc2 & Vc2 & _).
  destruct (u256_of_u128_spec _ L1) as (Wl1 & Vl1 & _).
  destruct (u256_of_u128_spec _ L2) as (Wl2 & Vl2 & _).
  pose proof W128_val as WW. pose proof W256_W128 as W6.
  destruct (u256_add_exact _ _ W1 W2) as [Wt1 Vt1].
  destruct (u256_add_exact _ _ Wt1 Wc) as [Wt Vt].
  set (tmp := u256_add (u256_add lomid1 lomid2) (u256_of_u128 (hi6 lolo))) in *.
  assert (W4 : 4 <= W128) by lia.
  destruct (u256_add_small _ _ Wc1 Wc2 ltac:(rewrite Vc1, Vc2, W6; apply sum2_lt; assumption)) as [Wk1 Vk1].
  destruct (u256_add_small _ _ Wl1 Wl2 ltac:(rewrite Vl1, Vl2, W6; apply sum2_lt; assumption)) as [Wk2 Vk2].
  destruct (u256_add_small _ _ Wk2 Wc ltac:(rewrite Vk2, Vl1, Vl2, Vc, W6; apply sum3_lt; assumption)) as [Wk3 Vk3].
  set (k3 := u256_add (u256_add (u256_of_u128 l1) (u256_of_u128 l2)) (u256_of_u128 (hi6 lolo))) in *.
  assert (Ck : 0 <= hi6 k3 < W128) by apply Wk3.
  destruct (u256_of_u128_spec _ Ck) as (Wc3 & Vc3 & _).
  destruct (u256_add_small _ _ Wk1 Wc3 ltac:(rewrite Vk1, Vc1, Vc2, Vc3, W6; apply sum3_lt; assumption)) as [Wk4 Vk4].
  destruct (u256_low128_spec _ Wk3) as (_ & Lk3 & Sk3).
  destruct (u256_low128_spec _ Wt) as (_ & Lt & St).
  set (lt := u256_low128 tmp) in *. set (lk := u256_low128 k3) in *.
  set (c2 := u256_add (u256_add (u256_of_u128 (hi6 lomid1)) (u256_of_u128 (hi6 lomid2)))
                (u256_of_u128 (hi6 k3))) in *.
  rewrite Vk1, Vc1, Vc2, Vc3 in Vk4.
  rewrite Vk2, Vl1, Vl2, Vc in Vk3.
  rewrite Vt1, Vc in Vt.
  rewrite Z.add_mod_idemp_l in Vt by (pose proof W256_pos; lia).
  unfold wf512, val512; cbn [lo5 mid5 hi5]. fold l0. 
  destruct (mul_general_core W128 (lo5 a) (mid5 a) (lo5 x) (mid5 x) (val256 lolo) (val256 lomid1)
    (val256 lomid2) (val256 midmid) l0 l1 l2 lt lk (hi6 lolo) (hi6 lomid1) (hi6 lomid2) (hi6 k3) (hi6 tmp)
    (val256 c2) W128_pos Hal Ham Hxl Hxm S0 S1 S2 V0 V1 V2 V3)
    as (E1 & E2 & E3); try assumption.
  { rewrite <- Vk3. exact Sk3. }
  { rewrite <- St, Vt, W6. reflexivity. }
  rewrite <- W6 in E2, E3.
  destruct (u256_add_small _ _ W3 Wk4 E3) as [Wf Vf].
  split; [split; [assumption|split; assumption]|].
  rewrite E1, Vf. exact E2.
Qed.

Definition low256 (a : u512) : Z := lo5 a + W128 * mid5 a.

Lemma low256_range : forall a, wf512 a -> 0 <= low256 a < W256.
Proof. intros [l m h] (Hl & Hm & _); unfold low256; cbn [lo5 mid5] in *. rewrite W256_W128; nia. Qed.

Lemma low256_mod : forall a, wf512 a -> low256 a = val512 a mod W256.
Proof.
  intros a Ha. apply Z.mod_unique with (q := val256 (hi5 a)).
  - left; apply low256_range; assumption.
  - unfold val512, low256. ring.
Qed.

Lemma low256_small : forall a, wf512 a -> val512 a < W256 ->
  low256 a = val512 a /\ val256 (hi5 a) = 0.
Proof.
  intros a Ha H. pose proof (low256_range a Ha). pose proof (val512_range a Ha).
  destruct Ha as (_ & _ & Hh). pose proof (val256_range _ Hh).
  unfold val512, low256 in *. pose proof W256_pos.
  assert (Z0 : val256 (hi5 a) = 0) by nia. split; [|exact Z0]. rewrite Z0. ring.
Qed.

(** For operands below 2^256 the product is the exact integer product. *)
Lemma u512_mul_exact : forall a x, wf512 a -> wf512 x -> val512 a < W256 -> val512 x < W256 ->
  wf512 (u512_mul a x) /\ val512 (u512_mul a x) = val512 a * val512 x.
Proof.
  intros a x Ha Hx La Lx.
  destruct (low256_small a Ha La) as [Ea Ea0]. destruct (low256_small x Hx Lx) as [Ex Ex0].
  destruct (Z.eq_dec (mid5 x) 0) as [M|M].
  - destruct (Z.eq_dec (lo5 x) 0) as [L|L].
    + unfold u512_mul. rewrite M, L. cbn. split; [assumption|].
      assert (val512 x = 0) by (rewrite <- Ex; unfold low256; rewrite M, L; ring).
      rewrite H; ring.
    + destruct (Z.eq_dec (mid5 a) 0) as [M'|M'].
      * destruct (Z.eq_dec (lo5 a) 0) as [L'|L'].
        -- unfold u512_mul. rewrite M, M', L'.
           replace (lo5 x =? 0) with false by (symmetry; apply Z.eqb_neq; lia). cbn.
           split; [assumption|].
           assert (val512 a = 0) by (rewrite <- Ea; unfold low256; rewrite M', L'; ring).
           rewrite H; ring.
        -- rewrite <- Ea, <- Ex. unfold low256. apply u512_mul_general; try assumption; lia.
      * rewrite <- Ea, <- Ex. unfold low256. apply u512_mul_general; try assumption; lia.
  - destruct (Z.eq_dec (mid5 a) 0) as [M'|M'].
    + destruct (Z.eq_dec (lo5 a) 0) as [L'|L'].
      * unfold u512_mul. rewrite M', L'.
        replace (mid5 x =? 0) with false by (symmetry; apply Z.eqb_neq; lia). cbn.
        split; [assumption|].
        assert (val512 a = 0) by (rewrite <- Ea; unfold low256; rewrite M', L'; ring).
        rewrite H; ring.
      * rewrite <- Ea, <- Ex. unfold low256. apply u512_mul_general; try assumption; lia.
    + rewrite <- Ea, <- Ex. unfold low256. apply u512_mul_general; try assumption; lia.
Qed.

(** ** Comparisons of [u512b] *)
Lemma u512_cmp : forall a x, wf512 a -> wf512 x ->
  (u512_ge a x = true <-> val512 a >= val512 x) /\
  (u512_lt a x = true <-> val512 a < val512 x) /\
  (u512_gt a x = true <-> val512 a > val512 x) /\
  (u512_ne a x = true <-> val512 a <> val512 x).
Proof.
  intros [l m h] [l' m' h'] (Hl & Hm & Hh) (Hl' & Hm' & Hh').
  unfold u512_ge, u512_lt, u512_gt, u512_ne, val512; cbn [lo5 mid5 hi5] in *.
  destruct (u256_cmp h h' Hh Hh') as (_ & LT & GT & NE).
  pose proof (val256_range _ Hh). pose proof (val256_range _ Hh').
  rewrite W256_W128, W128_val in *.
  destruct (u256_gt h h') eqn:Eg; destruct (u256_lt h h') eqn:El; destruct (u256_ne h h') eqn:En.
  all: try (assert (val256 h > val256 h') by (apply GT; reflexivity)).
  all: try (assert (~ val256 h > val256 h') by (intro X; apply GT in X; discriminate)).
  all: try (assert (val256 h < val256 h') by (apply LT; reflexivity)).
  all: try (assert (~ val256 h < val256 h') by (intro X; apply LT in X; discriminate)).
  all: try (assert (val256 h <> val256 h') by (apply NE; reflexivity)).
  all: try (assert (~ val256 h <> val256 h') by (intro X; apply NE in X; discriminate)).
  all: try lia.
  all: clear GT LT NE Eg El En.
  all: repeat split.
  all: repeat match goal with
  | |- context [?a <? ?b] => destruct (Z.ltb_spec a b)
  | |- context [?a <=? ?b] => destruct (Z.leb_spec a b)
  | |- context [?a =? ?b] => destruct (Z.eqb_spec a b)
  end; cbn [negb orb]; try congruence; try lia.
Qed.
