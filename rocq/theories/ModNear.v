(** * The reduction of u512b just above the range where it is exact *)
From Coq Require Import ZArith List Bool Lia.
From Verif Require Import Base Limbs Field LimbsProofs FieldProofs ModWrap Fp Lazy.
Open Scope Z_scope.

Definition near_bound : Z := 6 * P * P + 1000 * P.
Lemma near_wrap : near_bound * factor < W256 * W508. Proof. vm_compute. reflexivity. Qed.
Lemma near_error : near_bound * (W508 - factor * P) <= 2 * P * W508. Proof. vm_compute. discriminate. Qed.

Definition exact_bound : Z := 3 * P * P + 1000 * P.
Lemma exact_error : exact_bound * (W508 - factor * P) <= P * W508. Proof. vm_compute. discriminate. Qed.

Lemma near_div : forall x, 0 <= x <= near_bound ->
  let t := x * factor / W256 / 2 ^ 252 in 0 <= t /\ t < W256 /\ 0 <= x - t * P < 3 * P /\ (x <= exact_bound -> x - t * P < 2 * P).
Proof.
  intros x Hx t.
  assert (Et : t = x * factor / W508).
  { unfold t. rewrite Z.div_div; [reflexivity | discriminate | reflexivity]. }
  pose proof factor_bounds as FB. pose proof factor_lt as FL. pose proof P_pos as PP. pose proof W508_pos as PW.
  assert (T1 : t * W508 <= x * factor < t * W508 + W508).
  { rewrite Et. pose proof (Z.div_mod (x * factor) W508 ltac:(lia)).
    pose proof (Z.mod_pos_bound (x * factor) W508 PW). lia. }
  assert (T0 : 0 <= t) by (rewrite Et; apply Z.div_pos; nia).
  pose proof near_wrap as NW. pose proof near_error as NE. pose proof exact_error as XE.
  set (B := near_bound) in *. set (B' := exact_bound) in *. clearbody B B' t. clear Et.
  split; [exact T0|]. split.
  - assert (t * W508 < W256 * W508) by nia. nia.
  - assert (x * factor * P < (t + 1) * W508 * P) by nia. split; [split|].
    + assert (t * P * W508 <= x * W508) by nia; nia.
    + assert (x * (W508 - factor * P) <= B * (W508 - factor * P)) by nia.
      assert (x * W508 < (t * P + 3 * P) * W508) by nia. nia.
    + intro Hx'. assert (x * (W508 - factor * P) <= B' * (W508 - factor * P)) by nia.
      assert (x * W508 < (t * P + 2 * P) * W508) by nia. nia.
Qed.

(** Up to [6 P^2]: congruent to the argument, and below [2 P]; up to [3 P^2] exact. *)
Theorem u512_mod_near : forall a, wf512 a -> val512 a <= near_bound ->
  wf512 (u512_mod a) /\ exists k, val512 (u512_mod a) = val512 a - k * P /\ 0 <= val512 (u512_mod a) < 2 * P /\ (val512 a <= exact_bound -> val512 (u512_mod a) < P).
Proof.
  intros a Ha HB. unfold u512_mod, u512_mod_g. pose proof P_pos as PP.
  match goal with |- context [if ?c then a else _] => destruct c eqn:EZ end.
  { repeat rewrite andb_true_iff in EZ. rewrite !Z.eqb_eq in EZ. destruct EZ as ((((E1 & E2) & E3) & E4) & E5).
    assert (val512 a = 0) by (unfold val512, val256; rewrite E1, E2, E3, E4, E5; ring).
    split; [exact Ha|]. exists 0. lia. }
  clear EZ.
  pose proof (val512_range a Ha) as HR.
  destruct (u512_of_u256_spec factor_u wf_factor_u) as [Wf Vf]. rewrite val_factor_u in Vf.
  assert (Hh : wf256 (hi5 a)) by apply Ha.
  destruct (u512_of_u256_spec _ Hh) as [Wh Vh].
  pose proof (val256_range _ Hh) as Rh. pose proof factor_lt as FL.
  destruct (u512_mul_exact _ _ Wh Wf ltac:(lia) ltac:(lia)) as [W1 V1].
  set (hi_factor := u512_mul (u512_of_u256 (hi5 a)) (u512_of_u256 factor_u)) in *.
  set (lo256 := U512 (lo5 a) (mid5 a) (u256_of_ull 0)).
  assert (Wl : wf512 lo256).
  { destruct Ha as (A & B & _). split; [exact A|]. split; [exact B|].
    apply wf256_of_ull. pose proof W64_pos; lia. }
  assert (Vl : val512 lo256 = low256 a).
  { unfold val512, lo256, low256; cbn [lo5 mid5 hi5]. rewrite val256_of_ull. ring. }
  pose proof (low256_range a Ha) as RL.
  destruct (u512_mul_exact _ _ Wl Wf ltac:(lia) ltac:(lia)) as [W2 V2].
  set (lo_factor := u512_mul lo256 (u512_of_u256 factor_u)) in *.
  assert (Hlf : wf256 (hi5 lo_factor)) by apply W2.
  destruct (u512_of_u256_spec _ Hlf) as [W3 V3].
  rewrite Vl, Vf in V2. rewrite Vh, Vf in V1.
  assert (EH : val256 (hi5 lo_factor) = low256 a * factor / W256).
  { apply Z.div_unique with (r := low256 lo_factor).
    - left. apply low256_range; assumption.
    - rewrite <- V2. unfold val512, low256. ring. }
  assert (EX : val512 a = low256 a + W256 * val256 (hi5 a)) by (unfold val512, low256; ring).
  assert (ER : val512 hi_factor + val256 (hi5 lo_factor) = val512 a * factor / W256).
  { rewrite EH, V1, EX.
    replace ((low256 a + W256 * val256 (hi5 a)) * factor)
      with (low256 a * factor + (val256 (hi5 a) * factor) * W256) by ring.
    rewrite Z.div_add by (pose proof W256_pos; lia). ring. }
  pose proof W256_pos as PW. pose proof W508_pos as PW8. pose proof near_wrap as NW.
  assert (RB : 0 <= val512 a * factor / W256 < W508).
  { split; [apply Z.div_pos; nia|]. apply Z.div_lt_upper_bound; [lia|]. set (B := near_bound) in *. clearbody B. nia. }
  destruct (u512_add_small hi_factor (u512_of_u256 (hi5 lo_factor)) W1 W3) as [W4 V4].
  { rewrite V3, ER. pose proof W508_W256. pose proof W508_lt_W512. lia. }
  set (res := u512_add hi_factor (u512_of_u256 (hi5 lo_factor))) in *.
  rewrite V3, ER in V4.
  destruct (shift_merge res W4 ltac:(rewrite V4; lia)) as [W5 V5]. cbv zeta in W5, V5.
  set (t := U256 (ull _) _ _) in *.
  rewrite V4 in V5.
  destruct (near_div (val512 a) ltac:(lia)) as (T0 & _ & TB & TX). cbv zeta in TB, TX, T0. rewrite <- V5 in TB, TX, T0.
  destruct (u512_of_u256_spec _ W5) as [W6 V6].
  pose proof (val256_range _ W5) as Rt.
  rewrite u512_of_mod_u.
  destruct (u512_mul_exact _ mod_512 W6 wf_mod_512) as [W7 V7].
  { rewrite V6; lia. } { rewrite val_mod_512; apply P_lt_W256. }
  rewrite V6, val_mod_512 in V7.
  change (u512_sub_g one_g) with u512_sub.
  destruct (u512_sub_small a _ Ha W7 ltac:(rewrite V7; lia)) as [W8 V8].
  rewrite V7 in V8.
  set (r := u512_sub a (u512_mul (u512_of_u256 t) mod_512)) in *.
  destruct (u512_cmp r mod_512 W8 wf_mod_512) as (GE & _). rewrite val_mod_512 in GE.
  clearbody r. clearbody t.
  destruct (u512_ge r mod_512) eqn:G.
  - assert (val512 r >= P) by (apply GE; reflexivity).
    destruct (u512_sub_small r mod_512 W8 wf_mod_512 ltac:(rewrite val_mod_512; lia)) as [W9 V9].
    split; [exact W9|]. exists (val256 t + 1). rewrite V9, val_mod_512, V8. split; [ring|lia].
  - assert (~ val512 r >= P) by (intro X; apply GE in X; discriminate).
    split; [exact W8|]. exists (val256 t). rewrite V8. split; [reflexivity|lia].
Qed.

Lemma lzy_near : forall x a m n, lzy x a m n -> m <= 6 -> n <= 1000 -> lzy (u512_mod x) a 0 2.
Proof.
  intros x a m n (W & B & E) Hm Hn.
  pose proof (lz_mono _ _ _ _ P P_pos Hm Hn) as M.
  destruct (u512_mod_near x W) as (W2 & k & V & R & _); [unfold near_bound; lia|].
  split; [exact W2|]. split; [lia|]. rewrite V, <- E, ofZ_sub, ofZ_mul, ofZ_P. ring.
Qed.
Lemma lzy_mod3 : forall x a m n, lzy x a m n -> m <= 3 -> n <= 1000 -> rep (u512_mod x) a.
Proof.
  intros x a m n (W & B & E) Hm Hn.
  pose proof (lz_mono _ _ _ _ P P_pos Hm Hn) as M. pose proof P_pos as PP.
  destruct (u512_mod_near x W) as (W2 & k & V & R & X); [unfold near_bound; nia|].
  specialize (X ltac:(unfold exact_bound; lia)).
  split; [exact W2|]. rewrite <- E. transitivity (val512 x mod P); [|reflexivity]. apply Z.mod_unique with (q := k); [left; lia|rewrite V; ring].
Qed.
Lemma lzy_weaken : forall x a m n m' n', lzy x a m n -> m <= m' -> n <= n' -> lzy x a m' n'.
Proof.
  intros x a m n m' n' (W & B & E) Hm Hn. pose proof (lz_mono _ _ _ _ P P_pos Hm Hn) as M.
  split; [exact W|]. split; [lia|exact E].
Qed.
