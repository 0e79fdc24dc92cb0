(** * Proofs about [Field.v]: Barrett reduction and the field operations *)
From Coq Require Import ZArith List Bool Lia String Ascii.
From Verif Require Import Limbs LimbsProofs Field.
Import ListNotations.
Open Scope Z_scope.

Lemma P_pos : 0 < P. Proof. reflexivity. Qed.
Lemma P_lt_W256 : P < W256. Proof. reflexivity. Qed.
Definition factor : Z := 49885853761272603568320884710755151782187486770207743353506441985236025007921.

Lemma init_mod_u : g_mod (init_globals p_str) = mod_u. Proof. vm_compute. reflexivity. Qed.
Lemma init_factor_u : g_factor (init_globals p_str) = factor_u. Proof. vm_compute. reflexivity. Qed.
Lemma init_mod_512 : g_mod_512 (init_globals p_str) = mod_512. Proof. vm_compute. reflexivity. Qed.
Lemma init_minus_mod_512 : g_minus_mod_512 (init_globals p_str) = minus_mod_512.
Proof. vm_compute. reflexivity. Qed.

Lemma val_mod_u : val256 mod_u = P. Proof. vm_compute. reflexivity. Qed.
Lemma val_factor_u : val256 factor_u = factor. Proof. vm_compute. reflexivity. Qed.
Lemma val_interm_u : val256 interm_u = W256 mod P. Proof. vm_compute. reflexivity. Qed.
Lemma val_mod_512 : val512 mod_512 = P. Proof. vm_compute. reflexivity. Qed.
Lemma val_minus_mod_512 : val512 minus_mod_512 = W512 - P. Proof. vm_compute. reflexivity. Qed.
Ltac wfc := unfold wf512, wf256; repeat split; vm_compute; congruence.
Lemma wf_mod_u : wf256 mod_u. Proof. wfc. Qed.
Lemma wf_factor_u : wf256 factor_u. Proof. wfc. Qed.
Lemma wf_interm_u : wf256 interm_u. Proof. wfc. Qed.
Lemma wf_mod_512 : wf512 mod_512. Proof. wfc. Qed.
Lemma wf_minus_mod_512 : wf512 minus_mod_512. Proof. wfc. Qed.
Lemma u512_of_mod_u : u512_of_u256 mod_u = mod_512. Proof. vm_compute. reflexivity. Qed.

Definition W508 : Z := 2 ^ 508.
Lemma W508_pos : 0 < W508. Proof. reflexivity. Qed.
(** The Barrett factor is the right one. *)
Lemma factor_is_floor : factor = W508 / P. Proof. vm_compute. reflexivity. Qed.
Lemma factor_bounds : factor * P <= W508 < factor * P + P. Proof. vm_compute; split; congruence. Qed.
Lemma factor_lt : 0 < factor < W256. Proof. vm_compute; split; congruence. Qed.
Lemma W508_W256 : W508 * 16 = W512. Proof. reflexivity. Qed.
Lemma P_2_W508 : 2 * P * P + 4 * P < W508. Proof. vm_compute. reflexivity. Qed.
Lemma P_W508 : P < W508. Proof. vm_compute. reflexivity. Qed.
Lemma W256_W508 : W256 < W508. Proof. vm_compute. reflexivity. Qed.
Lemma W508_lt_W512 : W508 < W512. Proof. vm_compute. reflexivity. Qed.
Lemma W64_lt_P : W64 < P. Proof. vm_compute. reflexivity. Qed.
Global Opaque W508 P factor.

(** ** Shifting by 4 and merging, prime_field.cpp:374-376 *)
Lemma lor_merge : forall k c b, 0 <= k -> 0 <= b < 2 ^ k -> Z.lor (c * 2 ^ k) b = c * 2 ^ k + b.
Proof. intros. rewrite Z.lor_comm, lor_add by assumption. ring. Qed.

Lemma shl4_ull : forall a, ull (Z.shiftl a 4) = (a mod 2 ^ 60) * 2 ^ 4.
Proof.
  intro a. rewrite Z.shiftl_mul_pow2 by lia. unfold ull.
  change W64 with (2 ^ 60 * 2 ^ 4). rewrite Zmult_mod_distr_r. reflexivity.
Qed.
Lemma shl4_u128 : forall a, u128 (Z.shiftl a 4) = (a mod 2 ^ 124) * 2 ^ 4.
Proof.
  intro a. rewrite Z.shiftl_mul_pow2 by lia. unfold u128.
  change W128 with (2 ^ 124 * 2 ^ 4). rewrite Zmult_mod_distr_r. reflexivity.
Qed.

Lemma shift_merge : forall (res : u512), wf512 res -> val512 res < W508 ->
  let rh := hi5 res in
  let t := U256
     (ull (Z.lor (ull (Z.shiftl (lo6 rh) 4)) (Z.shiftr (mid5 res) 124)))
     (Z.lor (ull (Z.shiftl (mid6 rh) 4)) (Z.shiftr (lo6 rh) 60))
     (Z.lor (u128 (Z.shiftl (hi6 rh) 4)) (Z.shiftr (mid6 rh) 60)) in
  wf256 t /\ val256 t = val512 res / 2 ^ 252.
Proof.
  intros res (Hl & Hm & Hh) HB. cbv zeta.
  set (rh := hi5 res) in *. destruct rh as [h0 h1 h2] eqn:Erh.
  destruct Hh as (H0 & H1 & H2); cbn [lo6 mid6 hi6] in *.
  rewrite !Z.shiftr_div_pow2 by lia. rewrite !shl4_ull, shl4_u128.
  assert (B1 : 0 <= mid5 res / 2 ^ 124 < 2 ^ 4).
  { apply div_lt; [reflexivity|]. change (2 ^ 124 * 2 ^ 4) with W128. assumption. }
  assert (B2 : 0 <= h0 / 2 ^ 60 < 2 ^ 4).
  { apply div_lt; [reflexivity|]. change (2 ^ 60 * 2 ^ 4) with W64. assumption. }
  assert (B3 : 0 <= h1 / 2 ^ 60 < 2 ^ 4).
  { apply div_lt; [reflexivity|]. change (2 ^ 60 * 2 ^ 4) with W64. assumption. }
  rewrite !lor_merge by (lia || assumption).
  assert (Hh2 : h2 < 2 ^ 124).
  { unfold val512 in HB. fold rh in HB. rewrite Erh in HB. unfold val256 in HB; cbn [lo6 mid6 hi6] in HB.
    assert (W256 * (W128 * h2) < W508).
    { pose proof W128_pos; pose proof W64_pos; pose proof W256_pos.
      apply Z.le_lt_trans with (2 := HB).
      transitivity (W256 * (h0 + W64 * h1 + W128 * h2)); [|nia].
      apply Z.mul_le_mono_nonneg_l; nia. }
    change W508 with (W256 * (W128 * 2 ^ 124)) in H.
    apply Z.mul_lt_mono_pos_l in H; [|apply W256_pos].
    apply Z.mul_lt_mono_pos_l in H; [exact H|apply W128_pos]. }
  rewrite (Z.mod_small h2) by lia.
  pose proof (Z.mod_pos_bound h0 (2 ^ 60) ltac:(reflexivity)) as M0.
  pose proof (Z.mod_pos_bound h1 (2 ^ 60) ltac:(reflexivity)) as M1.
  pose proof (Z.div_mod h0 (2 ^ 60) ltac:(discriminate)) as D0.
  pose proof (Z.div_mod h1 (2 ^ 60) ltac:(discriminate)) as D1.
  set (m0 := h0 mod 2 ^ 60) in *. set (m1 := h1 mod 2 ^ 60) in *.
  set (d0 := h0 / 2 ^ 60) in *. set (d1 := h1 / 2 ^ 60) in *.
  set (e := mid5 res / 2 ^ 124) in *.
  change (2 ^ 4) with 16 in *. change (2 ^ 60) with 1152921504606846976 in *.
  pose proof W64_val as E64. pose proof W128_val as E128.
  change (2 ^ 124) with 21267647932558653966460912964485513216 in *.
  rewrite ull_small by lia.
  split.
  - unfold wf256; cbn [lo6 mid6 hi6]. lia.
  - unfold val256; cbn [lo6 mid6 hi6].
    apply Z.div_unique with (r := lo5 res + W128 * (mid5 res - 21267647932558653966460912964485513216 * e)).
    + left. unfold e.
      pose proof (Z.mod_pos_bound (mid5 res) 21267647932558653966460912964485513216 ltac:(reflexivity)) as Mb.
      rewrite Z.mod_eq in Mb by discriminate.
      change (2 ^ 252) with (W128 * 21267647932558653966460912964485513216). nia.
    + unfold val512. fold rh. rewrite Erh. unfold val256; cbn [lo6 mid6 hi6].
      change (2 ^ 252) with (W128 * 21267647932558653966460912964485513216).
      change W256 with (W128 * (16 * 21267647932558653966460912964485513216)).
      rewrite D0, D1. rewrite E64, E128. ring.
Qed.

(** ** [u512b::operator%] *)
Lemma barrett_div : forall x, 0 <= x < W508 ->
  let t := (x * factor / W256) / 2 ^ 252 in
  0 <= x - t * P < 2 * P /\ 0 <= t.
Proof.
  intros x Hx t.
  assert (Et : t = x * factor / W508).
  { unfold t. rewrite Z.div_div; [reflexivity | discriminate | reflexivity]. }
  pose proof factor_bounds as FB. pose proof factor_lt as FL. pose proof P_pos as PP.
  pose proof W508_pos as PW.
  assert (T1 : t * W508 <= x * factor < t * W508 + W508).
  { rewrite Et. pose proof (Z.div_mod (x * factor) W508 ltac:(lia)).
    pose proof (Z.mod_pos_bound (x * factor) W508 PW). lia. }
  assert (T0 : 0 <= t) by (rewrite Et; apply Z.div_pos; nia).
  split; [|exact T0]. split.
  - assert (t * P * W508 <= x * W508) by nia. nia.
  - (* x * W508 < (factor + 1) P x  and x factor < (t+1) W508 *)
    assert (x * W508 <= x * (factor * P) + x * P) by nia.
    assert (x * factor * P < (t + 1) * W508 * P) by nia.
    assert (x * P < W508 * P) by nia.
    assert (x * W508 < ((t + 1) * P + P) * W508) by nia.
    nia.
Qed.

Lemma final_sub : forall x t r m, 0 < m -> 0 <= x - t * m < 2 * m -> r = x - t * m ->
  (r >= m -> r - m = x mod m) /\ (~ r >= m -> r = x mod m).
Proof.
  intros x t r m Hm H ->. split; intro.
  - apply Z.mod_unique with (q := t + 1); [left; lia | ring].
  - apply Z.mod_unique with (q := t); [left; lia | ring].
Qed.

Theorem u512_mod_exact : forall a, wf512 a -> val512 a < W508 ->
  wf512 (u512_mod a) /\ val512 (u512_mod a) = val512 a mod P.
Proof.
  intros a Ha HB. unfold u512_mod, u512_mod_g.
  match goal with |- context [if ?c then a else _] => destruct c eqn:EZ end.
  { repeat rewrite andb_true_iff in EZ. rewrite !Z.eqb_eq in EZ. destruct EZ as ((((E1 & E2) & E3) & E4) & E5).
    assert (val512 a = 0) by (unfold val512, val256; rewrite E1, E2, E3, E4, E5; ring).
    split; [assumption|]. rewrite H. reflexivity. }
  clear EZ.
  pose proof (val512_range a Ha) as HR.
  destruct (u512_of_u256_spec factor_u wf_factor_u) as [Wf Vf]. rewrite val_factor_u in Vf.
  assert (Hh : wf256 (hi5 a)) by apply Ha.
  destruct (u512_of_u256_spec _ Hh) as [Wh Vh].
  pose proof (val256_range _ Hh) as Rh. pose proof factor_lt as FL.
  destruct (u512_mul_exact _ _ Wh Wf ltac:(lia) ltac:(lia)) as [W1 V1].
  set (hi_factor := u512_mul (u512_of_u256 (hi5 a)) (u512_of_u256 factor_u)) in *.
  set (lo256 := U512 (lo5 a) (mid5 a) (u256_of_ull 0)).
  assert (Wl : wf512 lo256).
  { destruct Ha as (A & B & _). split; [exact A|]. split; [exact B|].
    apply wf256_of_ull. pose proof W64_pos; lia. }
  assert (Vl : val512 lo256 = low256 a).
  { unfold val512, lo256, low256; cbn [lo5 mid5 hi5]. rewrite val256_of_ull. ring. }
  pose proof (low256_range a Ha) as RL.
  destruct (u512_mul_exact _ _ Wl Wf ltac:(lia) ltac:(lia)) as [W2 V2].
  set (lo_factor := u512_mul lo256 (u512_of_u256 factor_u)) in *.
  assert (Hlf : wf256 (hi5 lo_factor)) by apply W2.
  destruct (u512_of_u256_spec _ Hlf) as [W3 V3].
  rewrite Vl, Vf in V2. rewrite Vh, Vf in V1.
  assert (EH : val256 (hi5 lo_factor) = low256 a * factor / W256).
  { apply Z.div_unique with (r := low256 lo_factor).
    - left. apply low256_range; assumption.
    - rewrite <- V2. unfold val512, low256. ring. }
  assert (EX : val512 a = low256 a + W256 * val256 (hi5 a)) by (unfold val512, low256; ring).
  assert (ER : val512 hi_factor + val256 (hi5 lo_factor) = val512 a * factor / W256).
  { rewrite EH, V1, EX.
    replace ((low256 a + W256 * val256 (hi5 a)) * factor)
      with (low256 a * factor + (val256 (hi5 a) * factor) * W256) by ring.
    rewrite Z.div_add by (pose proof W256_pos; lia). ring. }
  pose proof W256_pos as PW. pose proof W508_pos as PW8.
  assert (RB : 0 <= val512 a * factor / W256 < W508).
  { split; [apply Z.div_pos; nia|]. apply Z.div_lt_upper_bound; [lia|]. nia. }
  destruct (u512_add_small hi_factor (u512_of_u256 (hi5 lo_factor)) W1 W3) as [W4 V4].
  { rewrite V3, ER. pose proof W508_W256. lia. }
  set (res := u512_add hi_factor (u512_of_u256 (hi5 lo_factor))) in *.
  rewrite V3, ER in V4.
  destruct (shift_merge res W4 ltac:(rewrite V4; lia)) as [W5 V5]. cbv zeta in W5, V5.
  set (t := U256 (ull _) _ _) in *.
  rewrite V4 in V5.
  destruct (barrett_div (val512 a) ltac:(lia)) as [TB T0]. cbv zeta in TB, T0. rewrite <- V5 in TB, T0.
  destruct (u512_of_u256_spec _ W5) as [W6 V6].
  pose proof (val256_range _ W5) as Rt.
  rewrite u512_of_mod_u.
  destruct (u512_mul_exact _ mod_512 W6 wf_mod_512) as [W7 V7].
  { rewrite V6; lia. } { rewrite val_mod_512; apply P_lt_W256. }
  rewrite V6, val_mod_512 in V7.
  change (u512_sub_g one_g) with u512_sub.
  destruct (u512_sub_small a _ Ha W7 ltac:(rewrite V7; lia)) as [W8 V8].
  rewrite V7 in V8.
  set (r := u512_sub a (u512_mul (u512_of_u256 t) mod_512)) in *.
  destruct (u512_cmp r mod_512 W8 wf_mod_512) as (GE & _). rewrite val_mod_512 in GE.
  pose proof P_pos as PP.
  clearbody r. clearbody t.
  destruct (u512_ge r mod_512) eqn:G.
  - assert (val512 r >= P) by (apply GE; reflexivity).
    destruct (u512_sub_small r mod_512 W8 wf_mod_512 ltac:(rewrite val_mod_512; lia)) as [W9 V9].
    split; [exact W9|]. rewrite V9, val_mod_512.
    destruct (final_sub _ _ _ _ PP TB V8) as [FS _]. exact (FS H).
  - assert (~ val512 r >= P) by (intro X; apply GE in X; discriminate).
    split; [exact W8|]. destruct (final_sub _ _ _ _ PP TB V8) as [_ FS]. exact (FS H).
Qed.

(** The reduction fails above the bound: a concrete value. *)
Example u512_mod_too_large :
  let x := U512 (W128 - 1) (W128 - 1) (U256 (W64 - 1) (W64 - 1) (W128 - 1)) in
  (val512 (u512_mod x) =? val512 x mod P) = false.
Proof. vm_compute. reflexivity. Qed.

(** ** Field operations *)

Lemma u512_mod_reduced : forall a, wf512 a -> val512 a < W508 -> reduced (u512_mod a).
Proof.
  intros a Ha HB. destruct (u512_mod_exact a Ha HB) as [W V]. split; [exact W|].
  rewrite V. apply Z.mod_pos_bound, P_pos.
Qed.

Lemma fe_mul_exact : forall a b, reduced a -> reduced b ->
  reduced (fe_mul a b) /\ val512 (fe_mul a b) = (val512 a * val512 b) mod P.
Proof.
  intros a b [Wa Ra] [Wb Rb]. unfold fe_mul. pose proof P_lt_W256.
  destruct (u512_mul_exact b a Wb Wa ltac:(lia) ltac:(lia)) as [W V].
  assert (B : val512 (u512_mul b a) < W508).
  { rewrite V. pose proof P_2_W508. pose proof P_pos. nia. }
  split; [apply u512_mod_reduced; assumption|].
  destruct (u512_mod_exact _ W B) as [_ ->]. rewrite V. f_equal. ring.
Qed.

Lemma fe_add_exact : forall a b, reduced a -> reduced b ->
  reduced (fe_add a b) /\ val512 (fe_add a b) = (val512 a + val512 b) mod P.
Proof.
  intros a b [Wa Ra] [Wb Rb]. unfold fe_add.
  pose proof P_pos as PP. pose proof P_2_W508. pose proof W508_lt_W512.
  destruct (u512_add_small b a Wb Wa ltac:(nia)) as [W V].
  destruct (u512_cmp (u512_add b a) mod_512 W wf_mod_512) as (GE & _). rewrite val_mod_512 in GE.
  destruct (u512_ge (u512_add b a) mod_512).
  - assert (val512 (u512_add b a) >= P) by (apply GE; reflexivity).
    destruct (u512_add_exact _ _ W wf_minus_mod_512) as [W2 V2].
    rewrite val_minus_mod_512, V in V2.
    replace (val512 b + val512 a + (W512 - P)) with (val512 a + val512 b - P + 1 * W512) in V2 by ring.
    rewrite Z.mod_add in V2 by (pose proof W512_pos; lia).
    rewrite Z.mod_small in V2 by lia.
    assert (E : val512 a + val512 b - P = (val512 a + val512 b) mod P)
      by (apply Z.mod_unique with (q := 1); [left; lia | ring]).
    split; [|congruence]. split; [exact W2|]. lia.
  - assert (~ val512 (u512_add b a) >= P) by (intro X; apply GE in X; discriminate).
    rewrite V in *. split; [split; [exact W|lia]|].
    rewrite Z.mod_small by lia. ring.
Qed.

Lemma fe_sub_exact : forall a b, reduced a -> reduced b ->
  reduced (fe_sub a b) /\ val512 (fe_sub a b) = (val512 a - val512 b) mod P.
Proof.
  intros a b [Wa Ra] [Wb Rb]. unfold fe_sub.
  pose proof P_pos as PP. pose proof P_2_W508. pose proof W508_lt_W512.
  destruct (u512_cmp a b Wa Wb) as (GE & _).
  destruct (u512_ge a b).
  - assert (val512 a >= val512 b) by (apply GE; reflexivity).
    destruct (u512_sub_small a b Wa Wb ltac:(lia)) as [W V].
    split; [split; [exact W|lia]|]. rewrite V. rewrite Z.mod_small by lia. reflexivity.
  - assert (~ val512 a >= val512 b) by (intro X; apply GE in X; discriminate).
    destruct (u512_add_small a mod_512 Wa wf_mod_512 ltac:(rewrite val_mod_512; nia)) as [W1 V1].
    rewrite val_mod_512 in V1.
    destruct (u512_sub_small _ b W1 Wb ltac:(lia)) as [W V].
    split; [split; [exact W|lia]|]. rewrite V, V1.
    apply Z.mod_unique with (q := -1); [left; lia | ring].
Qed.

Lemma fe_eq_exact : forall a b, wf512 a -> wf512 b -> (fe_eq a b = true <-> val512 a = val512 b).
Proof.
  intros a b Wa Wb. unfold fe_eq, fe_ne. destruct (u512_cmp a b Wa Wb) as (_ & _ & _ & NE).
  destruct (u512_ne a b); cbn [negb]; split; intro H; try congruence.
  - exfalso. apply NE; [reflexivity|assumption].
  - destruct (Z.eq_dec (val512 a) (val512 b)); [assumption|]. apply NE in n. discriminate.
Qed.

(** ** Conversions from machine integers *)
Lemma fe_of_ull_val : forall x, wf512 (fe_of_ull x) /\ val512 (fe_of_ull x) = x mod W64.
Proof.
  intro x. unfold fe_of_ull.
  destruct (u512_of_u256_spec (u256_of_ull (ull x)) (wf256_of_ull _ (ull_range x))) as [W V].
  split; [exact W|]. rewrite V, val256_of_ull. reflexivity.
Qed.
Lemma fe_of_ull_reduced : forall x, reduced (fe_of_ull x).
Proof.
  intro x. destruct (fe_of_ull_val x) as [W V]. split; [exact W|].
  rewrite V. pose proof (Z.mod_pos_bound x W64 W64_pos). pose proof W64_lt_P. lia.
Qed.

Lemma fe_of_int_nonneg : forall x, 0 <= x < 2 ^ 31 ->
  reduced (fe_of_int x) /\ val512 (fe_of_int x) = x.
Proof.
  intros x H. split; [apply fe_of_ull_reduced|].
  destruct (fe_of_ull_val x) as [_ V]. change (fe_of_int x) with (fe_of_ull x). rewrite V.
  apply Z.mod_small. rewrite W64_val. lia.
Qed.

Lemma fe_of_int_neg : forall x, - 2 ^ 31 <= x < 0 ->
  reduced (fe_of_int x) /\ val512 (fe_of_int x) = W64 + x.
Proof.
  intros x H. split; [apply fe_of_ull_reduced|].
  destruct (fe_of_ull_val x) as [_ V]. change (fe_of_int x) with (fe_of_ull x). rewrite V.
  symmetry. apply Z.mod_unique with (q := -1); rewrite ?W64_val; lia.
Qed.

Lemma reduced_zero : reduced fe_zero.
Proof. change fe_zero with (fe_of_ull 0). apply fe_of_ull_reduced. Qed.
Lemma val_zero : val512 fe_zero = 0. Proof. vm_compute. reflexivity. Qed.
Lemma reduced_one : reduced fe_one.
Proof. apply fe_of_ull_reduced. Qed.
Lemma val_one : val512 fe_one = 1. Proof. vm_compute. reflexivity. Qed.
