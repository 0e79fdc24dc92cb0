(** * Properties C01-C13: integers and field elements

    Statements only; the proofs are in LimbsProofs, FieldProofs, Fp, Prime and
    ArithProofs.  [val256]/[val512] are the integers denoted by limb values,
    [wf256]/[wf512] say that every limb fits its machine type, [reduced x] is
    [wf512 x] and [0 <= val512 x < P]. *)
From Coq Require Import ZArith List Bool Lia Znumtheory.
From Verif Require Import Limbs LimbsProofs Field FieldProofs ModWrap Fp Prime SpecArith ArithProofs.
Import ListNotations.
Open Scope Z_scope.

Definition max256 : u256 := U256 (W64 - 1) (W64 - 1) (W128 - 1).
Definition max512 : u512 := U512 (W128 - 1) (W128 - 1) max256.
Lemma wf_max256 : wf256 max256. Proof. repeat split; vm_compute; congruence. Qed.
Lemma wf_max512 : wf512 max512. Proof. repeat split; vm_compute; congruence. Qed.

(** ** C01 *)
Theorem C01_u256_add : forall a x, wf256 a -> wf256 x ->
  wf256 (u256_add a x) /\ val256 (u256_add a x) = (val256 a + val256 x) mod 2 ^ 256.
Proof. exact u256_add_exact. Qed.
Print Assumptions C01_u256_add.
Theorem C01_u256_mul : forall a x, wf256 a -> wf256 x ->
  wf256 (u256_mul a x) /\ val256 (u256_mul a x) = (val256 a * val256 x) mod 2 ^ 256.
Proof. exact u256_mul_exact. Qed.
Print Assumptions C01_u256_mul.
Example C01_example : wf256 max256 /\ wf256 (U256 1 0 0) /\
  u256_add max256 (U256 1 0 0) = U256 0 0 0 /\ u256_mul max256 max256 = U256 1 0 0.
Proof. split; [apply wf_max256|]. repeat split; vm_compute; congruence. Qed.

(** ** C02: the intended claim is false, the result is always one less *)
Theorem C02_u256_sub_value : forall a x, wf256 a -> wf256 x ->
  wf256 (u256_sub a x) /\ val256 (u256_sub a x) = (val256 a - val256 x - 1) mod 2 ^ 256.
Proof. exact u256_sub_exact. Qed.
Print Assumptions C02_u256_sub_value.
Theorem C02_u256_sub_refuted : exists a x, wf256 a /\ wf256 x /\
  val256 (u256_sub a x) <> (val256 a - val256 x) mod 2 ^ 256.
Proof.
  exists (U256 5 0 0), (U256 3 0 0). repeat split; vm_compute; congruence.
Qed.
Print Assumptions C02_u256_sub_refuted.
Lemma off_by_one : forall d W q1 q2 r, 1 < W -> d = W * q1 + r -> d - 1 = W * q2 + r -> False.
Proof. intros d W q1 q2 r B D1 D2. assert (E : W * (q1 - q2) = 1) by (rewrite Z.mul_sub_distr_l; lia).
  assert (q1 - q2 <> 0) by (intro Z0; rewrite Z0, Z.mul_0_r in E; lia). nia. Qed.
Theorem C02_u256_sub_never_right : forall a x, wf256 a -> wf256 x ->
  val256 (u256_sub a x) <> (val256 a - val256 x) mod 2 ^ 256.
Proof.
  intros a x Ha Hx E. destruct (u256_sub_exact a x Ha Hx) as [_ V]. rewrite V in E.
  change (2 ^ 256) with W256 in E.
  pose proof (Z_div_mod_eq_full (val256 a - val256 x) W256) as D1.
  pose proof (Z_div_mod_eq_full (val256 a - val256 x - 1) W256) as D2.
  assert (B : 1 < W256) by (vm_compute; reflexivity).
  rewrite E in D2.
  exact (off_by_one _ _ _ _ _ B D1 D2).
Qed.
Print Assumptions C02_u256_sub_never_right.
Example C02_example : wf256 (U256 0 7 1) /\ u256_sub (U256 0 7 1) (U256 0 7 1) = max256.
Proof. repeat split; vm_compute; congruence. Qed.

(** ** C03 *)
Theorem C03_u512_add : forall a x, wf512 a -> wf512 x ->
  wf512 (u512_add a x) /\ val512 (u512_add a x) = (val512 a + val512 x) mod 2 ^ 512.
Proof. exact u512_add_exact. Qed.
Print Assumptions C03_u512_add.
Theorem C03_u512_sub : forall a x, wf512 a -> wf512 x ->
  wf512 (u512_sub a x) /\ val512 (u512_sub a x) = (val512 a - val512 x) mod 2 ^ 512.
Proof. exact u512_sub_exact. Qed.
Print Assumptions C03_u512_sub.
(** Before [init] the global [one] is zero. *)
Theorem C03_u512_sub_before_init : forall a x, wf512 a -> wf512 x ->
  wf512 (u512_sub_g (u256_of_ull 0) a x) /\
  val512 (u512_sub_g (u256_of_ull 0) a x) = (val512 a - val512 x - 1) mod 2 ^ 512.
Proof.
  intros a x Ha Hx. destruct (u512_sub_g_exact (u256_of_ull 0) a x) as [W V]; try assumption.
  { apply wf256_of_ull. rewrite W64_val. lia. }
  split; [exact W|]. rewrite V. rewrite val256_of_ull. f_equal. ring.
Qed.
Print Assumptions C03_u512_sub_before_init.
Example C03_example : wf512 max512 /\ wf512 (U512 1 0 (U256 0 0 0)) /\
  u512_add max512 (U512 1 0 (U256 0 0 0)) = u512_zero /\
  u512_sub u512_zero (U512 1 0 (U256 0 0 0)) = max512.
Proof. split; [apply wf_max512|]. repeat split; vm_compute; congruence. Qed.

(** ** C04 *)
Theorem C04_u512_mul : forall a x, wf512 a -> wf512 x -> val512 a < 2 ^ 256 -> val512 x < 2 ^ 256 ->
  wf512 (u512_mul a x) /\ val512 (u512_mul a x) = val512 a * val512 x.
Proof. exact u512_mul_exact. Qed.
Print Assumptions C04_u512_mul.
(** Operands with a non-zero low half: the high halves are ignored. *)
Theorem C04_u512_mul_low_halves : forall a x, wf512 a -> wf512 x ->
  val512 a mod 2 ^ 256 <> 0 -> val512 x mod 2 ^ 256 <> 0 ->
  val512 (u512_mul a x) = (val512 a mod 2 ^ 256) * (val512 x mod 2 ^ 256).
Proof.
  intros a x Ha Hx Na Nx. change (2 ^ 256) with W256 in *.
  rewrite <- (low256_mod a Ha) in *. rewrite <- (low256_mod x Hx) in *. unfold low256 in *.
  destruct (u512_mul_general a x) as [_ V]; try assumption.
  - intros [E1 E2]. apply Nx. rewrite E1, E2. ring.
  - intros [E1 E2]. apply Na. rewrite E1, E2. ring.
Qed.
Print Assumptions C04_u512_mul_low_halves.
Theorem C04_u512_mul_large_refuted : exists a x, wf512 a /\ wf512 x /\
  val512 a * val512 x < 2 ^ 512 /\ val512 (u512_mul a x) <> val512 a * val512 x.
Proof.
  exists (U512 1 0 (U256 1 0 0)), (U512 2 0 (U256 0 0 0)). repeat split; vm_compute; congruence.
Qed.
Print Assumptions C04_u512_mul_large_refuted.
Example C04_example :
  let a := U512 (W128 - 1) (W128 - 1) (U256 0 0 0) in
  val512 a < 2 ^ 256 /\ val512 (u512_mul a a) = (2 ^ 256 - 1) * (2 ^ 256 - 1).
Proof. split; vm_compute; reflexivity. Qed.

(** ** C05 *)
Theorem C05_barrett : forall a, wf512 a -> val512 a < 2 ^ 508 ->
  wf512 (u512_mod a) /\ val512 (u512_mod a) = val512 a mod P.
Proof. exact u512_mod_exact. Qed.
Print Assumptions C05_barrett.
(** The bound covers two products of reduced elements plus four reduced terms. *)
Theorem C05_bound_covers : forall a b c d s, 0 <= a < P -> 0 <= b < P -> 0 <= c < P -> 0 <= d < P ->
  0 <= s <= 4 * P -> a * b + c * d + s < 2 ^ 508.
Proof.
  intros a b c d s Ha Hb Hc Hd Hs.
  assert (H : 2 * P * P + 4 * P < 2 ^ 508) by exact P_2_W508.
  assert (a * b <= P * P) by (apply Z.mul_le_mono_nonneg; lia).
  assert (c * d <= P * P) by (apply Z.mul_le_mono_nonneg; lia). lia.
Qed.
Print Assumptions C05_bound_covers.
Theorem C05_too_large_refuted : exists a, wf512 a /\ val512 (u512_mod a) <> val512 a mod P.
Proof.
  exists max512. split; [apply wf_max512|]. intro E. apply Z.eqb_eq in E.
  pose proof u512_mod_too_large as H. cbv zeta in H. fold max256 in H. fold max512 in H. congruence.
Qed.
Print Assumptions C05_too_large_refuted.
(** Beyond the bound only the residue class is right. *)
Theorem C05_congruent_always : forall a, wf512 a ->
  wf512 (u512_mod a) /\ val512 (u512_mod a) <= val512 a /\ val512 (u512_mod a) mod P = val512 a mod P.
Proof.
  intros a Ha. destruct (u512_mod_congruent a Ha) as (W & k & Hk & E). split; [exact W|]. rewrite E. pose proof P_pos.
  split; [nia|]. rewrite <- Zminus_mod_idemp_r, Z.mod_mul, Z.sub_0_r by lia. reflexivity.
Qed.
Print Assumptions C05_congruent_always.
Example C05_example : let a := U512 17 0 (U256 3 0 0) in
  val512 a < 2 ^ 508 /\ P < val512 a /\ val512 (u512_mod a) = (17 + 3 * 2 ^ 256) mod P.
Proof. repeat split; vm_compute; reflexivity. Qed.

(** ** C06 *)
Theorem C06_u256_order : forall a x, wf256 a -> wf256 x ->
  (u256_le a x = true <-> val256 a <= val256 x) /\
  (u256_lt a x = true <-> val256 a < val256 x) /\
  (u256_gt a x = true <-> val256 a > val256 x) /\
  (u256_ne a x = true <-> val256 a <> val256 x).
Proof. exact u256_cmp. Qed.
Print Assumptions C06_u256_order.
Theorem C06_u512_order : forall a x, wf512 a -> wf512 x ->
  (u512_ge a x = true <-> val512 a >= val512 x) /\
  (u512_lt a x = true <-> val512 a < val512 x) /\
  (u512_gt a x = true <-> val512 a > val512 x) /\
  (u512_ne a x = true <-> val512 a <> val512 x).
Proof. exact u512_cmp. Qed.
Print Assumptions C06_u512_order.
Example C06_example : u256_lt (U256 (W64 - 1) 5 0) (U256 0 6 0) = true /\
  u512_ge (U512 0 1 (U256 0 0 2)) (U512 9 0 (U256 0 0 2)) = true.
Proof. split; reflexivity. Qed.

(** ** C07 *)
Theorem C07_field_ops : forall a b, reduced a -> reduced b ->
  (reduced (fe_add a b) /\ val512 (fe_add a b) = (val512 a + val512 b) mod P) /\
  (reduced (fe_sub a b) /\ val512 (fe_sub a b) = (val512 a - val512 b) mod P) /\
  (reduced (fe_mul a b) /\ val512 (fe_mul a b) = (val512 a * val512 b) mod P) /\
  (fe_eq a b = true <-> val512 a = val512 b) /\
  (fe_ne a b = true <-> val512 a <> val512 b).
Proof.
  intros a b Ha Hb. split; [apply fe_add_exact; assumption|]. split; [apply fe_sub_exact; assumption|].
  split; [apply fe_mul_exact; assumption|]. destruct Ha as [Wa _], Hb as [Wb _].
  split; [apply fe_eq_exact; assumption|]. destruct (u512_cmp a b Wa Wb) as (_ & _ & _ & H). exact H.
Qed.
Print Assumptions C07_field_ops.
Example C07_example : reduced fe_one /\ reduced (fe_sub fe_zero fe_one) /\
  val512 (fe_sub fe_zero fe_one) = P - 1 /\ fe_add (fe_sub fe_zero fe_one) fe_one = fe_zero.
Proof.
  split; [apply reduced_one|]. split; [apply fe_sub_exact; [apply reduced_zero|apply reduced_one]|].
  split; vm_compute; reflexivity.
Qed.

(** ** C08 *)
Theorem C08_int_nonneg : forall x, 0 <= x < 2 ^ 31 ->
  reduced (fe_of_int x) /\ val512 (fe_of_int x) = x.
Proof. exact fe_of_int_nonneg. Qed.
Print Assumptions C08_int_nonneg.
Theorem C08_int_negative_value : forall x, - 2 ^ 31 <= x < 0 ->
  reduced (fe_of_int x) /\ val512 (fe_of_int x) = 2 ^ 64 + x /\ val512 (fe_of_int x) <> x mod P.
Proof.
  intros x H. destruct (fe_of_int_neg x H) as [R V]. split; [exact R|]. split; [exact V|].
  rewrite V. assert (E : x mod P = P + x).
  { rewrite <- (Z.mod_add x 1) by apply P_nz. rewrite Z.mod_small; [ring|].
    assert (2 ^ 31 < P) by (vm_compute; reflexivity). lia. }
  rewrite E. assert (W64 < P) by apply W64_lt_P. lia.
Qed.
Print Assumptions C08_int_negative_value.
Theorem C08_int_negative_refuted : exists x, - 2 ^ 31 <= x < 0 /\ val512 (fe_of_int x) <> x mod P.
Proof. exists (-1). split; [lia|]. vm_compute. congruence. Qed.
Print Assumptions C08_int_negative_refuted.
Example C08_example : val512 (fe_of_int 2147483647) = 2147483647 /\ val512 (fe_of_int (-1)) = 2 ^ 64 - 1.
Proof. split; reflexivity. Qed.

(** ** C09 *)
Theorem C09_parse_u256 : forall s, is_digits s ->
  wf256 (u256_parse s 10) /\ val256 (u256_parse s 10) = dec_value s mod 2 ^ 256.
Proof. exact u256_parse_dec. Qed.
Print Assumptions C09_parse_u256.
Theorem C09_parse_u512 : forall s, is_digits s -> dec_value s < 2 ^ 256 ->
  wf512 (u512_parse s) /\ val512 (u512_parse s) = dec_value s.
Proof. exact u512_parse_dec. Qed.
Print Assumptions C09_parse_u512.
(** The prover's [from_string] (zk_prover.cpp:6-16) reduces modulo [P]. *)
Theorem C09_from_string : forall s, is_digits s ->
  reduced (fe_from_string s) /\ val512 (fe_from_string s) = dec_value s mod P.
Proof.
  intros s H. pose proof (fe_from_string_dec s H) as R. split; [exact (rep_reduced _ _ R)|].
  destruct R as [_ V]. exact V.
Qed.
Print Assumptions C09_from_string.
Example C09_example : is_digits [48; 49; 50; 55] /\ dec_value [48; 49; 50; 55] = 127 /\
  val512 (u512_parse [48; 49; 50; 55]) = 127.
Proof. split; [repeat constructor; lia|]. split; vm_compute; reflexivity. Qed.

(** ** C10 *)
Theorem C10_bit_stream : forall x, wf512 x ->
  length (fe_bit_stream x) = 256%nat /\ bits_value (fe_bit_stream x) = val512 x mod 2 ^ 256.
Proof. exact fe_bit_stream_value. Qed.
Print Assumptions C10_bit_stream.
Theorem C10_bit_stream_injective : forall x y, wf512 x -> wf512 y ->
  val512 x < 2 ^ 256 -> val512 y < 2 ^ 256 -> fe_bit_stream x = fe_bit_stream y -> x = y.
Proof. exact fe_bit_stream_inj. Qed.
Print Assumptions C10_bit_stream_injective.
Theorem C10_to_gmp : forall x, wf512 x ->
  (val512 x < 2 ^ 256 -> fe_to_gmp x = Some (val512 x)) /\
  (2 ^ 256 <= val512 x -> fe_to_gmp x = None).
Proof. intros x W. split; [apply fe_to_gmp_exact, W|apply fe_to_gmp_assert, W]. Qed.
Print Assumptions C10_to_gmp.
Theorem C10_gmp_roundtrip : forall x z s, reduced x -> fe_to_gmp x = Some z ->
  is_digits s -> dec_value s = z -> u512_parse s = x /\ fe_from_string s = x.
Proof. exact fe_gmp_roundtrip. Qed.
Print Assumptions C10_gmp_roundtrip.
Theorem C10_to_string : forall x, wf512 x ->
  length (fe_to_string x) = 512%nat /\
  exists bits, fe_to_string x = map (fun b : bool => if b then 49 else 48) bits /\
               bits_value bits = val512 x.
Proof. exact fe_to_string_value. Qed.
Print Assumptions C10_to_string.
Example C10_example : reduced fe_one /\ fe_to_gmp fe_one = Some 1 /\ is_digits [49] /\ dec_value [49] = 1.
Proof.
  split; [apply reduced_one|]. split; [vm_compute; reflexivity|].
  split; [repeat constructor; lia|reflexivity].
Qed.

(** ** C11 *)
Theorem C11_bit_at : forall x i, wf256 x -> 0 <= i < 256 ->
  u256_bit_at x i = Some (if Z.testbit (val256 x) i then 1 else 0).
Proof. exact u256_bit_at_exact. Qed.
Print Assumptions C11_bit_at.
Theorem C11_testBit : forall x i, wf256 x -> 0 <= i < 256 -> i <> 64 -> i <> 128 ->
  u256_testBit x i = Some (if Z.testbit (val256 x) i then 1 else 0).
Proof. exact u256_testBit_exact. Qed.
Print Assumptions C11_testBit.
(** At 64 and 128 [testBit] shifts a word by its own width: undefined. *)
Theorem C11_testBit_refuted : exists x i, wf256 x /\ 0 <= i < 256 /\ u256_testBit x i = None.
Proof. exists (U256 1 1 1), 64. repeat split; vm_compute; congruence. Qed.
Print Assumptions C11_testBit_refuted.
Theorem C11_testBit_undefined : forall x, u256_testBit x 64 = None /\ u256_testBit x 128 = None.
Proof. exact u256_testBit_undefined. Qed.
Print Assumptions C11_testBit_undefined.
Theorem C11_bitLen : forall x, wf256 x ->
  (0 < val256 x -> u256_bitLen x = Some (Z.log2 (val256 x) + 1)) /\
  (val256 x = 0 -> u256_bitLen x = None).
Proof. intros x W. split; [apply u256_bitLen_exact, W|apply u256_bitLen_zero, W]. Qed.
Print Assumptions C11_bitLen.
Example C11_example : u256_bit_at (U256 0 0 1) 128 = Some 1 /\ u256_testBit (U256 0 2 0) 65 = Some 1 /\
  u256_bitLen (U256 0 0 4) = Some 131.
Proof. repeat split. Qed.

(** ** C12 *)
Theorem C12_random_reduced : forall a b c, 0 <= a < 2 ^ 31 -> 0 <= b < 2 ^ 31 -> 0 <= c < 2 ^ 31 ->
  reduced (fe_random a b c) /\ val512 (fe_random a b c) = (a + 2 ^ 128 * b + 2 ^ 256 * c) mod P.
Proof. exact fe_random_exact. Qed.
Print Assumptions C12_random_reduced.
Theorem C12_random_onto_refuted : exists x, reduced x /\
  forall a b c, 0 <= a < 2 ^ 31 -> 0 <= b < 2 ^ 31 -> 0 <= c < 2 ^ 31 -> fe_random a b c <> x.
Proof. exact fe_random_not_surjective. Qed.
Print Assumptions C12_random_onto_refuted.
Example C12_example : val512 (fe_random 7 0 0) = 7 /\ 0 <= 7 < 2 ^ 31.
Proof. split; [vm_compute; reflexivity|lia]. Qed.

(** ** C13 *)
Theorem C13_modulus_prime : prime (val256 (g_mod (init_globals p_str))).
Proof. rewrite init_mod_u, val_mod_u. exact prime_P. Qed.
Print Assumptions C13_modulus_prime.
Theorem C13_barrett_factor : val256 (g_factor (init_globals p_str)) = 2 ^ 508 / P.
Proof. rewrite init_factor_u, val_factor_u. exact factor_is_floor. Qed.
Print Assumptions C13_barrett_factor.
Theorem C13_mod_512 : val512 (g_mod_512 (init_globals p_str)) = P /\
  val512 (g_minus_mod_512 (init_globals p_str)) = 2 ^ 512 - P.
Proof. rewrite init_mod_512, init_minus_mod_512. split; [exact val_mod_512|exact val_minus_mod_512]. Qed.
Print Assumptions C13_mod_512.
Theorem C13_inv_2 : fe_add inv_2 inv_2 = fe_one.
Proof.
  apply (rep_inj _ _ 1%F); [|apply rep_1]. eapply rep_eq; [apply rep_add; apply rep_inv_2|].
  rewrite <- two_half. ring.
Qed.
Print Assumptions C13_inv_2.
Theorem C13_residue_table : forall i, (i < 256)%nat -> exists t,
  nth_error (interesting_tmps mod_u interm_u) i = Some t /\ wf256 t /\
  val256 t = 2 ^ (256 + Z.of_nat i) mod P.
Proof. exact interesting_tmps_val. Qed.
Print Assumptions C13_residue_table.
Theorem C13_byte_table : forall i j, (i < 32)%nat -> 0 <= j < 256 ->
  wf256 (interesting_combination mod_u interm_u i j) /\
  val256 (interesting_combination mod_u interm_u i j) = (j * 2 ^ (256 + 8 * Z.of_nat i)) mod P.
Proof. exact interesting_combination_val. Qed.
Print Assumptions C13_byte_table.
Example C13_example : val256 (interesting_combination mod_u interm_u 0 3) = (3 * 2 ^ 256) mod P.
Proof. vm_compute. reflexivity. Qed.
