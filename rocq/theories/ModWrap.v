(** * The reduction of u512b beyond the range where it is exact *)
From Coq Require Import ZArith List Bool Lia.
From Verif Require Import Base Limbs Field LimbsProofs FieldProofs.
Open Scope Z_scope.

(** [shift_merge] without the bound: the four top bits are lost. *)
Lemma shift_merge_wrap : forall res, wf512 res ->
  let rh := hi5 res in
  let t := U256
     (ull (Z.lor (ull (Z.shiftl (lo6 rh) 4)) (Z.shiftr (mid5 res) 124)))
     (Z.lor (ull (Z.shiftl (mid6 rh) 4)) (Z.shiftr (lo6 rh) 60))
     (Z.lor (u128 (Z.shiftl (hi6 rh) 4)) (Z.shiftr (mid6 rh) 60)) in
  wf256 t /\ val256 t = (val512 res / 2 ^ 252) mod W256.
Proof.
  intros res WR. cbv zeta. pose proof WR as (Hl & Hm & Hh).
  pose proof W128_pos. pose proof W64_pos. pose proof W256_pos.
  set (r' := U512 (lo5 res) (mid5 res) (U256 (lo6 (hi5 res)) (mid6 (hi5 res)) (hi6 (hi5 res) mod 2 ^ 124))).
  pose proof (Z.mod_pos_bound (hi6 (hi5 res)) (2 ^ 124) ltac:(reflexivity)) as MB.
  assert (W128_124 : W128 = 2 ^ 124 * 16) by reflexivity.
  assert (WR' : wf512 r').
  { split; [exact Hl|]. split; [exact Hm|]. destruct Hh as (K0 & K1 & K2). unfold r', wf256. cbn [hi5 lo6 mid6 hi6].
    split; [exact K0|]. split; [exact K1|]. lia. }
  assert (V' : val512 res = val512 r' + W508 * (hi6 (hi5 res) / 2 ^ 124)).
  { unfold val512, val256, r'. cbn [lo5 mid5 hi5 lo6 mid6 hi6].
    pose proof (Z.div_mod (hi6 (hi5 res)) (2 ^ 124) ltac:(discriminate)) as D.
    change W508 with (W256 * W128 * 2 ^ 124). rewrite D at 1. ring. }
  assert (B' : val512 r' < W508).
  { pose proof (low256_range r' WR') as LR.
    assert (E : val512 r' = low256 r' + W256 * val256 (hi5 r')) by (unfold val512, low256; ring).
    assert (val256 (hi5 r') < W128 * 2 ^ 124).
    { unfold val256, r'. cbn [hi5 lo6 mid6 hi6]. destruct Hh as (K0 & K1 & _).
      assert (W128 = W64 * W64) by reflexivity. nia. }
    change W508 with (W256 * (W128 * 2 ^ 124)). nia. }
  destruct (shift_merge r' WR' B') as (Wt & Vt). cbv zeta in Wt, Vt.
  set (vr := val512 r') in Vt. unfold r' in Wt, Vt. cbn [lo5 mid5 hi5 lo6 mid6 hi6] in Wt, Vt.
  assert (EU : u128 (Z.shiftl (hi6 (hi5 res) mod 2 ^ 124) 4) = u128 (Z.shiftl (hi6 (hi5 res)) 4)).
  { rewrite !shl4_u128. rewrite Z.mod_mod by discriminate. reflexivity. }
  rewrite EU in Wt, Vt. split; [exact Wt|]. rewrite Vt, V'. unfold vr.
  assert (E508 : W508 = 2 ^ 252 * W256) by reflexivity.
  rewrite E508, <- Z.mul_assoc, (Z.mul_comm (2 ^ 252)), Z.div_add by discriminate.
  rewrite (Z.mul_comm W256), Z.mod_add by lia. symmetry. apply Z.mod_small.
  split; [apply Z.div_pos; [apply (val512_range r' WR')|reflexivity]|].
  apply Z.div_lt_upper_bound; [reflexivity|]. rewrite <- E508. exact B'.
Qed.

(** For every 512-bit value: congruent to the argument, and no larger. *)
Theorem u512_mod_congruent : forall a, wf512 a ->
  wf512 (u512_mod a) /\ exists k, 0 <= k /\ val512 (u512_mod a) = val512 a - k * P.
Proof.
  intros a Ha. unfold u512_mod, u512_mod_g.
  match goal with |- context [if ?c then a else _] => destruct c end.
  { split; [exact Ha|]. exists 0. lia. }
  pose proof (val512_range a Ha) as HR.
  destruct (u512_of_u256_spec factor_u wf_factor_u) as [Wf Vf]. rewrite val_factor_u in Vf.
  assert (Hh : wf256 (hi5 a)) by apply Ha.
  destruct (u512_of_u256_spec _ Hh) as [Wh Vh].
  pose proof (val256_range _ Hh) as Rh. pose proof factor_lt as FL.
  destruct (u512_mul_exact _ _ Wh Wf ltac:(lia) ltac:(lia)) as [W1 V1].
  set (hi_factor := u512_mul (u512_of_u256 (hi5 a)) (u512_of_u256 factor_u)) in *.
  set (lo256 := U512 (lo5 a) (mid5 a) (u256_of_ull 0)).
  assert (Wl : wf512 lo256).
  { destruct Ha as (A & B & _). split; [exact A|]. split; [exact B|].
    apply wf256_of_ull. pose proof W64_pos; lia. }
  assert (Vl : val512 lo256 = low256 a).
  { unfold val512, lo256, low256; cbn [lo5 mid5 hi5]. rewrite val256_of_ull. ring. }
  pose proof (low256_range a Ha) as RL.
  destruct (u512_mul_exact _ _ Wl Wf ltac:(lia) ltac:(lia)) as [W2 V2].
  set (lo_factor := u512_mul lo256 (u512_of_u256 factor_u)) in *.
  assert (Hlf : wf256 (hi5 lo_factor)) by apply W2.
  destruct (u512_of_u256_spec _ Hlf) as [W3 V3].
  rewrite Vl, Vf in V2. rewrite Vh, Vf in V1.
  assert (EH : val256 (hi5 lo_factor) = low256 a * factor / W256).
  { apply Z.div_unique with (r := low256 lo_factor).
    - left. apply low256_range; assumption.
    - rewrite <- V2. unfold val512, low256. ring. }
  assert (EX : val512 a = low256 a + W256 * val256 (hi5 a)) by (unfold val512, low256; ring).
  assert (ER : val512 hi_factor + val256 (hi5 lo_factor) = val512 a * factor / W256).
  { rewrite EH, V1, EX.
    replace ((low256 a + W256 * val256 (hi5 a)) * factor)
      with (low256 a * factor + (val256 (hi5 a) * factor) * W256) by ring.
    rewrite Z.div_add by (pose proof W256_pos; lia). ring. }
  pose proof W256_pos as PW. pose proof W508_pos as PW8. pose proof factor_bounds as FB. pose proof P_pos as PP.
  assert (F0 : 0 < factor) by reflexivity.
  assert (RB : 0 <= val512 a * factor / W256 < W512).
  { split; [apply Z.div_pos; nia|]. apply Z.div_lt_upper_bound; [lia|]. nia. }
  destruct (u512_add_small hi_factor (u512_of_u256 (hi5 lo_factor)) W1 W3) as [W4 V4].
  { rewrite V3, ER. lia. }
  set (res := u512_add hi_factor (u512_of_u256 (hi5 lo_factor))) in *.
  rewrite V3, ER in V4.
  destruct (shift_merge_wrap res W4) as [W5 V5]. cbv zeta in W5, V5.
  set (t := U256 (ull _) _ _) in *.
  rewrite V4 in V5.
  assert (TB : 0 <= val256 t /\ val256 t * P <= val512 a).
  { pose proof (val256_range _ W5) as Rt. split; [lia|].
    rewrite V5. set (q := val512 a * factor / W256 / 2 ^ 252).
    assert (Eq : q = val512 a * factor / W508).
    { unfold q. rewrite Z.div_div; [reflexivity | discriminate | reflexivity]. }
    assert (Q0 : 0 <= q) by (rewrite Eq; apply Z.div_pos; nia).
    assert (q mod W256 <= q) by (apply Z.mod_le; lia).
    assert (q * W508 <= val512 a * factor).
    { rewrite Eq, Z.mul_comm. apply Z.mul_div_le. lia. }
    assert (q * P * W508 <= val512 a * W508) by nia.
    assert (q * P <= val512 a) by nia. nia. }
  destruct (u512_of_u256_spec _ W5) as [W6 V6].
  pose proof (val256_range _ W5) as Rt.
  rewrite u512_of_mod_u.
  destruct (u512_mul_exact _ mod_512 W6 wf_mod_512) as [W7 V7].
  { rewrite V6; lia. } { rewrite val_mod_512; apply P_lt_W256. }
  rewrite V6, val_mod_512 in V7.
  change (u512_sub_g one_g) with u512_sub.
  destruct (u512_sub_small a _ Ha W7 ltac:(rewrite V7; lia)) as [W8 V8].
  rewrite V7 in V8.
  set (r := u512_sub a (u512_mul (u512_of_u256 t) mod_512)) in *.
  destruct (u512_cmp r mod_512 W8 wf_mod_512) as (GE & _). rewrite val_mod_512 in GE.
  clearbody r. clearbody t.
  destruct (u512_ge r mod_512) eqn:G.
  - assert (val512 r >= P) by (apply GE; reflexivity).
    destruct (u512_sub_small r mod_512 W8 wf_mod_512 ltac:(rewrite val_mod_512; lia)) as [W9 V9].
    split; [exact W9|]. exists (val256 t + 1). rewrite V9, val_mod_512, V8. split; [lia|ring].
  - split; [exact W8|]. exists (val256 t). rewrite V8. split; [lia|reflexivity].
Qed.
