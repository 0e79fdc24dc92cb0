(** * What the numbers of the zk protocol show: C52

    Statements; the proofs are in ZkHide, ZkViewProofs and ZkHideProofs.  The record
    of a run is defined in ZkView: [honest_view enc v ms zs C] is the log of the
    messages of the honest prover in a run of the verifier's procedure on the circuit
    [C], with the challenges [v], the mask coefficients [ms] and the exponents [zs] of
    the prover; its first component lists the numbers sent. *)
From Coq Require Import ZArith List Bool Arith Lia Ring.
From Verif Require Import Limbs Field Fp Base MleSpec SpecGkr Circuit FastVerifier FastProverProofs FastVerifierProofs SpecVpd SpecZk SpecTranscript
  SoundProofs ZkVerifierProofs ZkComplete ZkRoundProofs ZkFacts ZkIdeal ZkView ZkHide ZkViewProofs ZkHideProofs PropsTranscript PropsZk.
Import ListNotations.
Open Scope nat_scope.

(** ** C52 *)
(** Two inputs with the same outputs and the same first value: there is a bijection of
    the mask coefficients under which the two runs show the same numbers. *)
Theorem C52_numbers_hide_input : forall enc v C C', zcomplete_circuit C -> zcomplete_circuit C' -> twins C C' ->
  (forall g, g < 2 ^ lbits C (total_depth C - 1) -> vals C (total_depth C - 1) g = vals C' (total_depth C - 1) g) ->
  vals C 0 0 = vals C' 0 0 -> good_challenges C v ->
  exists f g, (forall ms, length ms = mask_count C ->
      length (f ms) = mask_count C /\ length (g ms) = mask_count C /\ g (f ms) = ms /\ f (g ms) = ms) /\
    forall ms zs zs', length ms = mask_count C -> (forall k, red (zs k)) -> (forall k, red (zs' k)) ->
      exists lg lg', honest_view enc v ms zs C = Ok lg /\ honest_view enc v (f ms) zs' C' = Ok lg' /\ fst lg = fst lg'.
Proof.
  intros enc v C C' CC CC' TW Ho H0 GC.
  assert (TW' : twins C' C).
  { destruct TW as [A B D]. constructor; [symmetry; exact A|symmetry; exact B|]. intros i Hi. symmetry. apply D. lia. }
  assert (MC : mask_count C' = mask_count C).
  { unfold mask_count. rewrite <- (tw_depth _ _ TW). pose proof (zc_pos C CC). rewrite (tw_masks C C' TW) by lia. reflexivity. }
  exists (remasks C C' v), (remasks C' C v). split.
  - intros ms Lm. pose proof (remasks_length C C' v ms Lm) as L1.
    pose proof (remasks_length C' C v ms ltac:(rewrite MC; exact Lm)) as L2. rewrite MC in L2.
    split; [exact L1|]. split; [exact L2|]. split; [apply (remasks_back C C' CC TW v ms Lm)|].
    apply (remasks_back C' C CC' TW' v ms). rewrite MC. exact Lm.
  - intros ms zs zs' Lm Hz Hz'. pose proof (remasks_length C C' v ms Lm) as L1.
    destruct (honest_view_ok enc v ms zs C CC Hz Lm) as (lg & l & E & El & Rl & _).
    destruct (honest_view_ok enc v (remasks C C' v ms) zs' C' CC' Hz' ltac:(rewrite MC; exact L1)) as (lg' & l' & E' & El' & Rl' & _).
    exists lg, lg'. split; [exact E|]. split; [exact E'|]. rewrite El, El'. f_equal.
    exact (run_nums_same C C' CC CC' TW H0 v ms l l' Lm GC Ho Rl Rl').
Qed.
Print Assumptions C52_numbers_hide_input.

(** The first value of the input is among the numbers: the 15th from the end. *)
Lemma vnums_first : forall C v x0 x1 i q a be R0 R1 mk zu zv pu pv w l, zcomplete_circuit C -> 0 < i < total_depth C ->
  vnums C v x0 x1 i q a be R0 R1 mk zu zv pu pv w l -> 15 <= length l /\ nth 14 (rev l) 0%F = vals C 0 0.
Proof.
  intros C v x0 x1 i. induction i as [|i IH]; intros q a be R0 R1 mk zu zv pu pv w l CC Hi VN; [lia|].
  cbn [vnums] in VN. cbv zeta in VN. destruct VN as (q1 & q3 & l' & RL1 & RL3 & -> & VN).
  destruct (Nat.eq_dec i 0) as [->|N].
  - cbn [vnums] in VN. subst l'. set (b := lbits C 0) in *.
    assert (Hb : 1 <= b) by apply (zc_inbits C CC).
    destruct RL3 as (qs & Lq & Hq & ->). destruct qs as [|p3 [|? ?]]; try discriminate. cbn [concat]. rewrite app_nil_r.
    destruct (Hq 0 ltac:(lia)) as [L3 _]. cbn [nth] in L3. unfold ZkTarget.zdeg in L3. rewrite Nat.add_0_r in L3.
    destruct (Nat.eqb_spec (2 * b) (b - 1)); [lia|]. destruct (Nat.eqb_spec (2 * b) (2 * b - 1)); [lia|]. cbn [orb] in L3.
    destruct p3 as [|z1 [|z2 [|z3 [|? ?]]]]; try discriminate. unfold layer_nums. cbv zeta. set (X := layer_zdata _ _ _ _ _ _ _ _ _ _ _ _ _ _ _ _).
    split; [rewrite !app_length; cbn [length]; lia|]. rewrite !rev_app_distr. cbn [rev app nth].
    unfold X, zd_vv, zd_S, layer_zdata, ch_v. cbn [Nat.eqb zd_V zd_s0 zd_s1 zd_s2 Nat.sub]. rewrite zp_zeros, mle_repeat0 by exact Hb. ring.
  - destruct (IH _ _ _ _ _ _ _ _ _ _ _ _ CC ltac:(lia) VN) as [L E]. rewrite app_length. split; [lia|].
    rewrite rev_app_distr, app_nth1 by (rewrite rev_length; lia). exact E.
Qed.
Theorem C52_first_input_shown : forall enc v C ms zs, zcomplete_circuit C -> 2 <= total_depth C -> length ms = mask_count C -> (forall k, red (zs k)) ->
  exists lg, honest_view enc v ms zs C = Ok lg /\ nth 14 (rev (fst lg)) 0%Z = fz (vals C 0 0).
Proof.
  intros enc v C ms zs CC Hd Lm Hz. destruct (honest_view_ok enc v ms zs C CC Hz Lm) as (lg & l & E & El & (l' & -> & VN) & _).
  exists lg. split; [exact E|]. assert (Hd' : 0 < total_depth C - 1 < total_depth C) by lia.
  destruct (vnums_first _ _ _ _ _ _ _ _ _ _ _ _ _ _ _ _ _ CC Hd' VN) as [L EV].
  rewrite El, <- map_rev, (app_assoc _ _ l'), rev_app_distr.
  rewrite (nth_indep _ 0%Z (fz 0%F)) by (rewrite map_length, app_length, rev_length; lia).
  rewrite map_nth, app_nth1 by (rewrite rev_length; lia). rewrite EV. reflexivity.
Qed.
Print Assumptions C52_first_input_shown.
(** So the claim that the numbers only depend on the output up to the choice of the
    masks is false: inputs with the same outputs that the numbers always tell apart. *)
Definition zex_with (a b c : Z) : layered_circuit := Circuit
  [plain_layer [Gate 3 a 0; Gate 3 b 0; Gate 3 c 0; Gate 2 0 0] 2;
   Layer [Gate 4 0 0; Gate 4 1 0; Gate 4 2 0; Gate 4 3 0] 2 false 2 1 2 1;
   Layer [Gate 1 0 1; Gate 1 2 3] 1 true 1 0 2 1;
   plain_layer [Gate 0 0 1; Gate 13 1 1] 1] 4.
Lemma zex_with_complete : forall a b c, zcomplete_circuit (zex_with a b c).
Proof.
  intros a b c. split; cbn [zex_with total_depth circuit length].
  - reflexivity.
  - lia.
  - reflexivity.
  - intros [|[|[|[|i]]]] H; cbn; lia.
  - intros [|[|[|[|g]]]] H; cbn in *; try lia; auto.
  - intros _. split; [|reflexivity]. split; [reflexivity|]. intros [|[|[|[|g]]]] H; cbn in *; try lia; reflexivity.
  - intros [|[|[|[|i]]]] g Hi Hg; try lia; destruct g as [|[|g]]; cbn in *; lia.
  - intros [|[|[|[|i]]]] Hi; try lia; intro Hp; cbn in Hp; try discriminate.
    exists 0, 1, 1. repeat (split; [cbn; lia|]). split.
    + intros [|j] Hj; cbn in Hj; [|lia]. cbn. repeat split; (lia || discriminate).
    + intros [|[|k]] [|j] Hk Hj; cbn in Hk, Hj; try lia; cbn; repeat split; reflexivity.
  - intros [|[|[|[|i]]]] H; cbn in *; lia.
  - cbn. lia.
Qed.
Lemma zex_with_twins : forall a b c a' b' c', twins (zex_with a b c) (zex_with a' b' c').
Proof. intros. constructor; [reflexivity|reflexivity|]. intros [|[|[|[|i]]]] Hi; cbn in Hi; try lia; reflexivity. Qed.
Definition tape_ex : list F := map (fun k => ofZ (Z.of_nat (k + 3))) (seq 0 30).
Lemma tape_ex_good : forall a b c, good_challenges (zex_with a b c) tape_ex.
Proof.
  assert (NZ : forall x : F, fz x <> 0%Z -> x <> 0%F) by (intros x H E; apply H; rewrite E; reflexivity).
  assert (NE : forall x y : F, fz x <> fz y -> x <> y) by (intros x y H E; apply H; rewrite E; reflexivity).
  intros a b c. unfold good_challenges. change (2 * lbits (zex_with a b c) (total_depth (zex_with a b c) - 1)) with 2.
  change (total_depth (zex_with a b c) - 1) with 3. cbn [good_layers]. cbv zeta.
  change (lbits (zex_with a b c) 2) with 1. change (lbits (zex_with a b c) 1) with 2. change (lbits (zex_with a b c) 0) with 2.
  change (lbits (zex_with a b c) (2 - 1)) with 2. change (lbits (zex_with a b c) (1 - 1)) with 2.
  repeat (split; [(apply NZ; vm_compute; discriminate) || (intros _; split; [apply NZ; vm_compute; discriminate|split; [apply NE; vm_compute; discriminate|apply NZ; vm_compute; discriminate]]) || (intro K; lia)|]).
  exact I.
Qed.
Theorem C52_outputs_only_refuted : exists C C' v, zcomplete_circuit C /\ zcomplete_circuit C' /\ twins C C' /\ good_challenges C v /\
  (forall g, g < 2 ^ lbits C (total_depth C - 1) -> vals C (total_depth C - 1) g = vals C' (total_depth C - 1) g) /\
  forall enc ms ms' zs zs' lg lg', length ms = mask_count C -> length ms' = mask_count C -> (forall k, red (zs k)) -> (forall k, red (zs' k)) ->
    honest_view enc v ms zs C = Ok lg -> honest_view enc v ms' zs' C' = Ok lg' -> fst lg <> fst lg'.
Proof.
  exists (zex_with 2 5 7), (zex_with 5 2 7), tape_ex.
  split; [apply zex_with_complete|]. split; [apply zex_with_complete|]. split; [apply zex_with_twins|]. split; [apply tape_ex_good|]. split.
  - intros [|[|g]] Hg; [| |cbn in Hg; lia]; apply F_eq; vm_compute; reflexivity.
  - intros enc ms ms' zs zs' lg lg' Lm Lm' Hz Hz' E E' K.
    destruct (C52_first_input_shown enc tape_ex (zex_with 2 5 7) ms zs (zex_with_complete 2 5 7) ltac:(cbn; lia) Lm Hz) as (lg1 & E1 & N1).
    destruct (C52_first_input_shown enc tape_ex (zex_with 5 2 7) ms' zs' (zex_with_complete 5 2 7) ltac:(cbn; lia) Lm' Hz') as (lg2 & E2 & N2).
    rewrite E in E1. injection E1 as <-. rewrite E' in E2. injection E2 as <-. rewrite K, N2 in N1. vm_compute in N1. discriminate N1.
Qed.
Print Assumptions C52_outputs_only_refuted.
(** Inputs that the numbers do not tell apart: 2, 5, 7, 0 and 2, 5, 9, 0. *)
Example C52_example : let C := zex_with 2 5 7 in let C' := zex_with 2 5 9 in
  zcomplete_circuit C /\ zcomplete_circuit C' /\ twins C C' /\ good_challenges C tape_ex /\
  (forall g, g < 2 ^ lbits C (total_depth C - 1) -> vals C (total_depth C - 1) g = vals C' (total_depth C - 1) g) /\
  vals C 0 0 = vals C' 0 0 /\ vals C 0 2 <> vals C' 0 2 /\ mask_count C = 61.
Proof.
  cbv zeta. split; [apply zex_with_complete|]. split; [apply zex_with_complete|]. split; [apply zex_with_twins|]. split; [apply tape_ex_good|]. split.
  { intros [|[|g]] Hg; [| |cbn in Hg; lia]; apply F_eq; vm_compute; reflexivity. }
  split; [apply F_eq; vm_compute; reflexivity|]. split; [intro E; apply (f_equal fz) in E; vm_compute in E; discriminate|]. reflexivity.
Qed.
