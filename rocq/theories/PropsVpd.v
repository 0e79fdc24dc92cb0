(** * Properties C32-C37 and C43: the polynomial commitments

    Statements; the proofs are in VpdGroupProofs, VpdRProofs, VpdMaskProofs,
    VpdInputProofs and VpdSound.  All integers are canonical representatives
    ([red]).  [ent l i] is entry [i] of a list as a field element. *)
From Coq Require Import ZArith List Bool Arith Lia Ring.
From Verif Require Import Base Limbs Field FieldProofs Fp ArithProofs MleSpec Count SpecVpd.
From Verif Require Import VpdGroup VpdR VpdMask VpdInput VpdGroupProofs VpdRProofs VpdMaskProofs VpdInputProofs VpdSound.
Import ListNotations.
Open Scope nat_scope.

Lemma red_fz : forall z, red z -> z = fz (ofZ z).
Proof. intros z H. symmetry. apply fz_ofZ_small. exact H. Qed.
Lemma fz_red : forall a, red (fz a).
Proof. intro a. apply fz_range. Qed.
Lemma red_map : forall l, Forall red l -> l = map fz (map ofZ l).
Proof.
  induction l; intro H; [reflexivity|]. inversion H; subst. cbn [map]. rewrite <- (red_fz a) by assumption.
  rewrite <- IHl by assumption. reflexivity.
Qed.
Lemma red_arr : forall l n, Forall red l -> n <= length l -> arr l n (fun i => fz (ent l i)).
Proof.
  intros l n H L. split; [exact L|]. intros i Hi. rewrite (nth_error_nth' l 0%Z) by lia. f_equal. unfold ent.
  apply red_fz. rewrite Forall_forall in H. apply H, nth_In. lia.
Qed.
Lemma red_firstn_arr : forall l n, n <= length l -> (forall i, i < n -> red (nth i l 0%Z)) -> arr l n (fun i => fz (ent l i)).
Proof.
  intros l n L H. split; [exact L|]. intros i Hi. rewrite (nth_error_nth' l 0%Z) by lia. f_equal. unfold ent.
  apply red_fz, H, Hi.
Qed.

(** ** C32 *)
(** Key generation, commitment, commitment check, opening and verification all
    succeed and the opened value is the value of the polynomial. *)
Theorem C32_vpdR_complete : forall a s0 s1 s2 input r_f t0 t1 r0 r1,
  red a -> red s0 -> red s1 -> red s2 -> length input = 6 -> Forall red input -> red r_f ->
  red t0 -> red t1 -> red r0 -> red r1 ->
  exists K d da ans w wa,
    R_keygen a s0 s1 s2 = Ok K /\ R_commit K input r_f = Ok (d, da) /\ R_check_commit K d da = true /\
    R_prove K [r0; r1] input r_f t0 t1 = Ok (ans, w, wa) /\
    red ans /\ ofZ ans = poly_R (ent input) (ofZ r0) (ofZ r1) /\
    R_verify K [r0; r1] d ans w wa = Ok true.
Proof.
  intros a s0 s1 s2 input r_f t0 t1 r0 r1 Ha H0 H1 H2 Li Hi Hf Ht0 Ht1 Hr0 Hr1.
  do 7 (destruct input as [|?c input]; try discriminate Li).
  rewrite (red_map _ Hi). cbn [map].
  destruct (R_complete (ofZ a) (ofZ s0) (ofZ s1) (ofZ s2) (ofZ c) (ofZ c0) (ofZ c1) (ofZ c2) (ofZ c3) (ofZ c4) (ofZ r_f)
    (ofZ t0) (ofZ t1) (ofZ r0) (ofZ r1)) as (d & da & w & wa & E1 & E2 & E3 & E4).
  rewrite <- !red_fz in * by assumption. cbn [map] in E1, E3, E4.
  exists (keyR_of (ofZ a) (ofZ s0) (ofZ s1) (ofZ s2)), d, da. eexists. exists w, wa.
  split; [rewrite (red_fz a), (red_fz s0), (red_fz s1), (red_fz s2) by assumption; rewrite R_keygen_ok, !ofZ_fz; reflexivity|].
  split; [exact E1|]. split; [exact E2|]. split; [exact E3|]. split; [apply fz_red|]. split; [|exact E4].
  rewrite ofZ_fz. unfold poly_R, valR, ent. cbn [nth]. rewrite !ofZ_fz. reflexivity.
Qed.
Print Assumptions C32_vpdR_complete.
(** For given proof elements at most one canonical value is accepted. *)
Theorem C32_vpdR_value_unique : forall a s0 s1 s2 K r0 r1 d ans ans' w wa w' wa',
  red a -> red s0 -> red s1 -> red s2 -> red r0 -> red r1 -> red ans -> red ans' ->
  R_keygen a s0 s1 s2 = Ok K -> length w = 3 -> length wa = 3 -> w' = w -> length wa' = 3 ->
  R_verify K [r0; r1] d ans w wa = Ok true -> R_verify K [r0; r1] d ans' w' wa' = Ok true -> ans = ans'.
Proof.
  intros a s0 s1 s2 K r0 r1 d ans ans' w wa w' wa' Ha H0 H1 H2 Hr0 Hr1 Hn Hn' EK Lw Lwa -> Lwa' V V'.
  do 4 (destruct w as [|?w w]; try discriminate Lw). do 4 (destruct wa as [|?wa wa]; try discriminate Lwa).
  do 4 (destruct wa' as [|?wa' wa']; try discriminate Lwa').
  rewrite (red_fz a), (red_fz s0), (red_fz s1), (red_fz s2), R_keygen_ok in EK by assumption. injection EK as <-.
  rewrite (red_fz r0), (red_fz r1), (red_fz ans), R_verify_eq in V by assumption.
  rewrite (red_fz r0), (red_fz r1), (red_fz ans'), R_verify_eq in V' by assumption.
  injection V as V. injection V' as V'. apply andb_true_iff in V, V'. destruct V as [_ V], V' as [_ V'].
  apply gt_eqb_true in V, V'. rewrite (red_fz ans), (red_fz ans') by assumption. f_equal.
  rewrite <- V' in V. replace (ofZ ans) with (d - (d - ofZ ans))%F by ring. rewrite V. ring.
Qed.
Print Assumptions C32_vpdR_value_unique.
Lemma red_small : forall z, (0 <= z < 1000)%Z -> red z.
Proof. intros z H. split; [lia|]. apply Z.lt_trans with 1000%Z; [lia|]. vm_compute. reflexivity. Qed.
Example C32_nontrivial : exists K d da ans w wa,
    R_keygen 5 7 11 13 = Ok K /\ R_commit K [1; 2; 3; 4; 5; 6]%Z 17 = Ok (d, da) /\ R_check_commit K d da = true /\
    R_prove K [2; 3]%Z [1; 2; 3; 4; 5; 6]%Z 17 19 23 = Ok (ans, w, wa) /\ ans = 110%Z /\
    R_verify K [2; 3]%Z d ans w wa = Ok true.
Proof.
  pose proof red_small as R.
  destruct (C32_vpdR_complete 5 7 11 13 [1; 2; 3; 4; 5; 6]%Z 17 19 23 2 3) as
    (K & d & da & ans & w & wa & E1 & E2 & E3 & E4 & E5 & E6 & E7); try (apply R; lia).
  - reflexivity.
  - repeat constructor; apply R; lia.
  - exists K, d, da, ans, w, wa. split; [exact E1|]. split; [exact E2|]. split; [exact E3|]. split; [exact E4|].
    split; [|exact E7]. rewrite (red_fz ans E5), E6. vm_compute. reflexivity.
Qed.

(** ** C33 *)
(** At least three variables; [d] is an [int] in the code. *)
Theorem C33_mask_complete : forall d a s input r_f t r,
  3 <= d -> (Z.of_nat d < 2 ^ 31)%Z -> red a -> length s = d + 1 -> Forall red s ->
  length input = 2 * d + 7 -> Forall red input -> red r_f -> length t = d -> Forall red t -> length r = d -> Forall red r ->
  exists K g ga ans w wa,
    M_keygen d a s = Ok K /\ M_commit K input r_f = Ok (g, ga) /\ M_check_commit K g ga = true /\
    M_prove K r input r_f t = Ok (ans, w, wa) /\
    red ans /\ ofZ ans = mask_poly d (ent input) (ent r) /\
    M_verify K r g ans w wa = Ok true.
Proof.
  intros d a s input r_f t r Hd Hbig Ha Ls Hs Li Hi Hf Lt Ht Lr Hr.
  assert (As := red_arr s (d + 1) Hs ltac:(lia)). assert (At := red_arr t d Ht ltac:(lia)).
  assert (Ar := red_arr r d Hr ltac:(lia)).
  assert (Ac : arr (input ++ [fz (ofZ r_f)]) (2 * d + 8) (fun i => fz (ent (input ++ [r_f]) i))).
  { rewrite <- red_fz by exact Hf. apply red_arr; [apply Forall_app; split; [exact Hi|constructor; [exact Hf|constructor]]|].
    rewrite app_length. simpl. lia. }
  destruct (M_keygen_ok d (ofZ a) s (ent s) Hd As) as (K & EK & HK).
  pose proof (M_commit_ok d (ofZ a) (ent s) K input _ (ofZ r_f) Hd HK Ac) as EC. cbv zeta in EC.
  destruct (M_prove_ok d (ofZ a) (ent s) _ K input r t (ent r) (ent t) (ofZ r_f) Hd HK Ac Ar At) as (((ans & w) & wa) & EP & E1 & E2 & E3 & E4).
  { eapply Z.lt_le_trans; [exact Hbig|]. apply Z.pow_le_mono_r; lia. }
  rewrite <- red_fz in EK, EC, EP by assumption.
  exists K. do 2 eexists. exists ans, w, wa. split; [exact EK|]. split; [exact EC|]. split.
  { apply gt_eqb_refl. destruct HK as (_ & _ & _ & _ & -> & _). unfold pairing, gen2. rewrite mul_1_l. ring. }
  split; [exact EP|]. split; [rewrite E1; apply fz_red|]. split.
  - rewrite E1, ofZ_fz, partM_mask by exact Hd. unfold mask_poly.
    assert (IN : forall i, i < 2 * d + 7 -> ent (input ++ [r_f]) i = ent input i).
    { intros i Li'. unfold ent. rewrite app_nth1 by lia. reflexivity. }
    rewrite !IN by lia. rewrite (sumn_ext d _ (fun i => ent input (2 * i) * (ent r i * ent r i) + ent input (2 * i + 1) * ent r i)%F); [reflexivity|].
    intros i Hi'. rewrite !IN by lia. reflexivity.
  - rewrite E1, E4. eapply M_verify_ok; [exact Hd|exact HK|exact Ar|exact Lr|exact E3|reflexivity].
Qed.
Print Assumptions C33_mask_complete.
Example C33_nontrivial : exists K g ga ans w wa,
    let input := [1; 2; 3; 4; 5; 6; 7; 8; 9; 10; 11; 12; 13]%Z in
    M_keygen 3 5 [7; 11; 13; 17]%Z = Ok K /\ M_commit K input 19 = Ok (g, ga) /\ M_check_commit K g ga = true /\
    M_prove K [2; 3; 4]%Z input 19 [20; 21; 22]%Z = Ok (ans, w, wa) /\ ans = 4634%Z /\
    M_verify K [2; 3; 4]%Z g ans w wa = Ok true.
Proof.
  pose proof red_small as R.
  destruct (C33_mask_complete 3 5 [7; 11; 13; 17]%Z [1; 2; 3; 4; 5; 6; 7; 8; 9; 10; 11; 12; 13]%Z 19 [20; 21; 22]%Z [2; 3; 4]%Z)
    as (K & d & da & ans & w & wa & E1 & E2 & E3 & E4 & E5 & E6 & E7);
    try reflexivity; try (apply R; lia); try (repeat constructor; apply R; lia); try lia.
  exists K, d, da, ans, w, wa. split; [exact E1|]. split; [exact E2|]. split; [exact E3|]. split; [exact E4|].
  split; [|exact E7]. rewrite (red_fz ans E5), E6. vm_compute. reflexivity.
Qed.
(** With two variables the code uses variable 0 for both groups of high-degree
    terms and the witness of the first group is overwritten: an honest opening
    is rejected. *)
Theorem C33_two_variables_refuted : exists a s input r_f t r K g ga ans w wa,
  red a /\ length s = 3 /\ Forall red s /\ length input = 11 /\ Forall red input /\ red r_f /\
  length t = 2 /\ Forall red t /\ length r = 2 /\ Forall red r /\
  M_keygen 2 a s = Ok K /\ M_commit K input r_f = Ok (g, ga) /\ M_prove K r input r_f t = Ok (ans, w, wa) /\
  M_verify K r g ans w wa = Ok false.
Proof.
  assert (V : bind (M_keygen 2 1 [2; 3; 0]%Z) (fun K =>
    bind (M_commit K [0; 0; 0; 0; 0; 1; 0; 0; 0; 0; 0]%Z 0) (fun c =>
    bind (M_prove K [1; 1]%Z [0; 0; 0; 0; 0; 1; 0; 0; 0; 0; 0]%Z 0 [0; 0]%Z) (fun p =>
    M_verify K [1; 1]%Z (fst c) (fst (fst p)) (snd (fst p)) (snd p)))) = Ok false) by (vm_compute; reflexivity).
  apply bind_Ok_inv in V. destruct V as (K & EK & V). apply bind_Ok_inv in V. destruct V as ((g & ga) & EC & V).
  apply bind_Ok_inv in V. destruct V as (((ans & w) & wa) & EP & V).
  pose proof red_small as R.
  exists 1%Z, [2; 3; 0]%Z, [0; 0; 0; 0; 0; 1; 0; 0; 0; 0; 0]%Z, 0%Z, [0; 0]%Z, [1; 1]%Z, K, g, ga, ans, w, wa.
  split; [apply R; lia|]. split; [reflexivity|]. split; [repeat constructor; apply R; lia|]. split; [reflexivity|].
  split; [repeat constructor; apply R; lia|]. split; [apply R; lia|]. split; [reflexivity|].
  split; [repeat constructor; apply R; lia|]. split; [reflexivity|]. split; [repeat constructor; apply R; lia|].
  split; [exact EK|]. split; [exact EC|]. split; [exact EP|exact V].
Qed.
Print Assumptions C33_two_variables_refuted.

(** ** C34 *)
(** [input] has [2^n + 1] entries, the last one is overwritten by the blinding. *)
Theorem C34_input_complete : forall n a s input m0 m1 r_f r_f2 Zv t r,
  1 <= n < 31 -> red a -> length s = n + 1 -> Forall red s ->
  length input = 2 ^ n + 1 -> (forall i, i < 2 ^ n -> red (nth i input 0%Z)) -> red m0 -> red m1 -> red r_f -> red r_f2 ->
  red Zv -> length t = n -> Forall red t -> length r = n -> Forall red r ->
  exists K input' d da d2 d2a ans w wa,
    I_keygen n a s = Ok K /\ I_commit K input [m0; m1] r_f r_f2 = Ok (input', (d, da, d2, d2a)) /\
    I_check_commit K d da d2 d2a = true /\
    I_prove K r input' [m0; m1] r_f r_f2 Zv t = Ok (ans, w, wa) /\
    red ans /\ ofZ ans = (mle (map ofZ r) (ent input) + ofZ Zv * (ofZ m0 + ofZ m1 * ent r (n - 1)))%F /\
    I_verify K r d d2 Zv ans w wa = Ok true.
Proof.
  intros n a s input m0 m1 r_f r_f2 Zv t r Hn Ha Ls Hs Li Hi H0 H1 Hf Hf2 Hz Lt Ht Lr Hr.
  assert (As := red_arr s (n + 1) Hs ltac:(lia)). assert (At := red_arr t n Ht ltac:(lia)).
  assert (Ar := red_arr r n Hr ltac:(lia)).
  assert (Ai := red_firstn_arr input (2 ^ n) ltac:(lia) Hi).
  destruct (I_keygen_ok n (ofZ a) s (ent s) ltac:(lia) As) as (K & EK & HK).
  pose proof (I_commit_ok n (ofZ a) (ent s) K input (ent input) (ofZ m0) (ofZ m1) (ofZ r_f) (ofZ r_f2) Hn HK Li Ai) as EC.
  cbv zeta in EC. destruct EC as ((input' & ((d & da) & d2) & d2a) & EC & L' & A' & ED). cbn [fst snd] in L', A', ED.
  assert (Ac : arr input' (2 ^ n) (fun j => fz (coefT n (ent input) j))).
  { eapply arr_ext; [eapply arr_le; [exact A'|lia]|]. intros i Hi'. cbv beta.
    destruct (Nat.eqb_spec i (2 ^ n)); [lia|reflexivity]. }
  destruct (I_prove_ok n (ofZ a) (ent s) K r (ent r) Hn HK Lr Ar t (ent t) (coefT n (ent input)) input' (ofZ m0) (ofZ m1)
    (ofZ r_f) (ofZ r_f2) (ofZ Zv) At L' Ac) as (((ans & w) & wa) & EP & E1 & E2 & E3 & E4).
  rewrite <- (red_fz m0 H0), <- (red_fz m1 H1), <- (red_fz r_f Hf), <- (red_fz r_f2 Hf2) in EC.
  rewrite <- (red_fz m0 H0), <- (red_fz m1 H1), <- (red_fz r_f Hf), <- (red_fz r_f2 Hf2), <- (red_fz Zv Hz) in EP.
  rewrite <- red_fz in EK by assumption.
  exists K, input', d, da, d2, d2a, ans, w, wa. split; [exact EK|]. split; [exact EC|].
  assert (Ed : (d = polyI n (coefT n (ent input)) (ent s) + ent s n * ofZ r_f /\
    d2 = ofZ m0 + ent s (n - 1) * ofZ m1 + ent s n * ofZ r_f2 /\ da = d * ofZ a /\ d2a = d2 * ofZ a)%F).
  { injection ED as -> -> -> ->. split; [reflexivity|split; [reflexivity|split; reflexivity]]. }
  destruct Ed as (Ed & Ed2 & Eda & Ed2a). split.
  { unfold I_check_commit. destruct HK as (_ & _ & _ & _ & -> & _). apply andb_true_iff.
    split; apply gt_eqb_refl; unfold pairing, gen2; rewrite mul_1_l, ?Eda, ?Ed2a; ring. }
  split; [exact EP|]. split; [rewrite E1; apply fz_red|]. split.
  - rewrite E1, ofZ_fz, polyI_opened by exact Hn.
    assert (EQ : polyI n (coefT n (ent input)) (ent r) = mle (map ofZ r) (ent input)).
    { rewrite <- coefT_mle. rewrite map_length, Lr. unfold polyI. apply sumn_ext. intros j Hj.
      rewrite monol_mono, map_length, Lr. replace (mono n (ent r) j * coefT n (ent input) j)%F with (coefT n (ent input) j * mono n (ent r) j)%F by ring. f_equal. unfold mono. apply prodn_ext. intros i Hi'.
      destruct (Nat.testbit j i); [|reflexivity]. unfold ent. rewrite <- (map_nth ofZ). apply nth_indep. rewrite map_length. lia. }
    rewrite EQ. ring.
  - pose proof (I_verify_ok n (ofZ a) (ent s) K r (ent r) Hn HK Lr Ar (ent t) (coefT n (ent input)) (ofZ m0) (ofZ m1)
      (ofZ r_f) (ofZ r_f2) (ofZ Zv) d d2 w E3 Ed Ed2) as V.
    rewrite <- E1, <- (red_fz Zv Hz), <- E4 in V. exact V.
Qed.
Print Assumptions C34_input_complete.
Example C34_nontrivial : exists K input' d da d2 d2a ans w wa,
    I_keygen 2 5 [7; 11; 13]%Z = Ok K /\ I_commit K [3; 1; 4; 1; 0]%Z [5; 9]%Z 2 6 = Ok (input', (d, da, d2, d2a)) /\
    I_check_commit K d da d2 d2a = true /\
    I_prove K [2; 3]%Z input' [5; 9]%Z 2 6 10 [8; 9]%Z = Ok (ans, w, wa) /\ ans = 316%Z /\
    I_verify K [2; 3]%Z d d2 10 ans w wa = Ok true.
Proof.
  pose proof red_small as R.
  destruct (C34_input_complete 2 5 [7; 11; 13]%Z [3; 1; 4; 1; 0]%Z 5 9 2 6 10 [8; 9]%Z [2; 3]%Z)
    as (K & i' & d & da & d2 & d2a & ans & w & wa & E1 & E2 & E3 & E4 & E5 & E6 & E7);
    try reflexivity; try (apply R; lia); try (repeat constructor; apply R; lia); try lia.
  { intros i Hi. change (2 ^ 2) with 4 in Hi. do 4 (destruct i as [|i]; [apply R; cbn [nth]; lia|]). lia. }
  exists K, i', d, da, d2, d2a, ans, w, wa. split; [exact E1|]. split; [exact E2|]. split; [exact E3|]. split; [exact E4|].
  split; [|exact E7]. rewrite (red_fz ans E5), E6. vm_compute. reflexivity.
Qed.

(** ** C35 *)
(** The result is the coefficient vector of the multilinear extension of the values. *)
Theorem C35_transform : forall n input,
  1 <= n < 31 -> 2 ^ n <= length input -> (forall i, i < 2 ^ n -> red (nth i input 0%Z)) ->
  exists out, pre_input n input = Ok out /\ length out = length input /\
    (forall i, i < 2 ^ n -> red (nth i out 0%Z)) /\ (forall i, 2 ^ n <= i -> nth_error out i = nth_error input i) /\
    forall x, length x = n -> coef_poly n (ent out) (fun i => nth i x 0%F) = mle x (ent input).
Proof.
  intros n input Hn L H.
  destruct (pre_input_ok n (ent input) input Hn L (red_firstn_arr input (2 ^ n) L H)) as (out & E & L' & A & T).
  exists out. split; [exact E|]. split; [exact L'|]. split.
  { intros i Hi. rewrite (nth_arr _ _ _ _ _ _ A Hi). apply fz_red. }
  split; [exact T|]. intros x Lx. rewrite <- coefT_mle. rewrite Lx. unfold coef_poly. apply sumn_ext. intros j Hj.
  f_equal; [|rewrite monol_mono, Lx; reflexivity]. unfold ent at 1. rewrite (nth_arr _ _ _ _ _ _ A Hj). apply ofZ_fz.
Qed.
Print Assumptions C35_transform.
Lemma bitvec_nth : forall n x i, i < n -> nth i (bitvec n x) 0%F = if Nat.testbit x i then 1%F else 0%F.
Proof.
  induction n; intros x i Hi; [lia|]. cbn [bitvec]. destruct i; cbn [nth]; [rewrite Nat.bit0_odd; reflexivity|].
  rewrite IHn by lia. reflexivity.
Qed.
(** At the 0/1 points the polynomial takes the given values. *)
Theorem C35_values : forall n input,
  1 <= n < 31 -> 2 ^ n <= length input -> (forall i, i < 2 ^ n -> red (nth i input 0%Z)) ->
  exists out, pre_input n input = Ok out /\
    (forall x, x < 2 ^ n -> coef_poly n (ent out) (fun i => if Nat.testbit x i then 1%F else 0%F) = ent input x).
Proof.
  intros n input Hn L H. destruct (C35_transform n input Hn L H) as (out & E & _ & _ & _ & M).
  exists out. split; [exact E|]. intros x Hx. rewrite <- (mle_bitvec n x (ent input) Hx).
  rewrite <- M by apply bitvec_length. apply coef_poly_ext. intros i Hi. symmetry. apply bitvec_nth, Hi.
Qed.
Print Assumptions C35_values.
Example C35_nontrivial : exists out, pre_input 2 [3; 1; 4; 1; 77]%Z = Ok out /\ out = [3; P - 2; 1; P - 1; 77]%Z.
Proof. eexists. split; vm_compute; reflexivity. Qed.

(** ** C36 *)
(** Bit by bit, from a table of 512 doublings. *)
Theorem C36_pre_exp : forall g n, (0 <= n < 2 ^ 512)%Z -> pre_exp (precompute g) n = Ok (g * ofZ n)%F.
Proof. exact pre_exp_ok. Qed.
Print Assumptions C36_pre_exp.
(** The range is exact: a larger scalar reads past the table. *)
Theorem C36_pre_exp_overflow : forall g n, (2 ^ 512 <= n)%Z -> pre_exp (precompute g) n = UB.
Proof. exact pre_exp_big. Qed.
Print Assumptions C36_pre_exp_overflow.
(** In base [2^15], from the table of the generator; all reduced scalars are in range. *)
Theorem C36_g1_exp : forall a, (0 <= a < 2 ^ 269)%Z -> g1_exp (baby_steps gen1) a = Ok (gen1 * ofZ a)%F.
Proof. intros a H. rewrite g1_exp_ok by exact H. unfold gen1. rewrite mul_1_l. reflexivity. Qed.
Print Assumptions C36_g1_exp.
Theorem C36_g1_exp_reduced : forall a, red a -> g1_exp (baby_steps gen1) a = Ok (gen1 * ofZ a)%F.
Proof.
  intros a [H0 H1]. apply C36_g1_exp. split; [exact H0|]. eapply Z.lt_trans; [exact H1|]. vm_compute. reflexivity.
Qed.
(** Eight scalars at once, for the block [i] of the key: the sum of the scalar
    multiples of the key elements [8 i .. 8 i + 7], where scalars beyond the used
    length [len] must be zero. *)
Theorem C36_multi_scalar : forall n a s K i len x,
  n < 31 -> red a -> length s = n + 1 -> Forall red s -> I_keygen n a s = Ok K ->
  i <= 2 ^ n / 8 -> len <= 2 ^ n -> length x = 8 -> Forall (fun z => 0 <= z)%Z x ->
  (forall k, k < 8 -> len <= i * 8 + k -> nth k x 0%Z = 0%Z) ->
  multi_scalar_calc K i len x
  = Ok (sumn 8 (fun k => if i * 8 + k <? len then nth (i * 8 + k) (ki_pub_g1 K) 0 * ent x k else 0)%F).
Proof.
  intros n a s K i len x Hn Ha Ls Hs EK Hi Hl Lx Hx Hz.
  destruct (I_keygen_ok n (ofZ a) s (ent s) Hn (red_arr s (n + 1) Hs ltac:(lia))) as (K' & EK' & HK).
  rewrite <- red_fz in EK' by exact Ha. rewrite EK in EK'. injection EK' as <-.
  destruct HK as (_ & _ & _ & _ & _ & A1 & _ & _ & T).
  rewrite (multi_scalar_calc_ok K (2 ^ n) _ i len x (fun k => nth k x 0%Z) A1 T).
  - f_equal. apply sumn_ext. intros k Hk. unfold block_base, ent. destruct (Nat.ltb_spec (i * 8 + k) len) as [L|L].
    + destruct (Nat.leb_spec (2 ^ n) (i * 8 + k)); [lia|]. rewrite (nth_arr _ _ _ _ _ _ A1); [reflexivity|lia].
    + rewrite Hz by assumption. change (ofZ 0) with 0%F. ring.
  - lia.
  - exact Hl.
  - split; [lia|]. intros k Hk. apply nth_error_nth'. lia.
  - intros k Hk. rewrite Forall_forall in Hx. apply Hx, nth_In. lia.
  - exact Hz.
Qed.
Print Assumptions C36_multi_scalar.
Example C36_nontrivial : pre_exp (precompute gen1) (2 ^ 511 + 5) = Ok (gen1 * ofZ (2 ^ 511 + 5))%F /\
  pre_exp (precompute gen1) (2 ^ 512) = UB /\ g1_exp (baby_steps gen1) 100000 = Ok (ofZ 100000).
Proof.
  split; [apply C36_pre_exp; split; [lia|vm_compute; reflexivity]|]. split; [apply C36_pre_exp_overflow; lia|].
  rewrite C36_g1_exp by (split; [lia|vm_compute; reflexivity]). unfold gen1. rewrite mul_1_l. reflexivity.
Qed.

(** ** C37 *)
(** vpdR: the accepted proofs are exactly those whose first two elements are
    consistent and which satisfy the pairing equation. *)
Theorem C37_vpdR_accepts_iff : forall a s0 s1 s2 K r0 r1 d ans w0 w1 w2 wa0 wa1 wa2,
  red a -> red s0 -> red s1 -> red s2 -> red r0 -> red r1 -> red ans -> R_keygen a s0 s1 s2 = Ok K ->
  R_verify K [r0; r1] d ans [w0; w1; w2] [wa0; wa1; wa2] = Ok true <->
  (wa0 = ofZ a * w0 /\ wa1 = ofZ a * w1 /\
   d - ofZ ans = (ofZ s0 - ofZ r0) * w0 + (ofZ s1 - ofZ r1) * w1 + ofZ s2 * w2)%F.
Proof.
  intros a s0 s1 s2 K r0 r1 d ans w0 w1 w2 wa0 wa1 wa2 Ha H0 H1 H2 Hr0 Hr1 Hn EK.
  rewrite (red_fz a), (red_fz s0), (red_fz s1), (red_fz s2), R_keygen_ok in EK by assumption. injection EK as <-.
  rewrite (red_fz r0), (red_fz r1), (red_fz ans), R_verify_eq, !ofZ_fz by assumption.
  rewrite <- !gt_eqb_true. split.
  - intro V. injection V as V. rewrite !andb_true_iff in V. destruct V as [[V1 V2] V3]. auto.
  - intros (V1 & V2 & V3). f_equal. rewrite V1, V2, V3. reflexivity.
Qed.
Print Assumptions C37_vpdR_accepts_iff.
(** So an inconsistent third element is accepted: from any honest opening, with
    any other element in its place. *)
Theorem C37_vpdR_last_refuted : exists a s0 s1 s2 K r0 r1 d ans w0 w1 w2 wa0 wa1 wa2,
  red a /\ R_keygen a s0 s1 s2 = Ok K /\ red r0 /\ red r1 /\ red ans /\
  wa2 <> (ofZ a * w2)%F /\ R_verify K [r0; r1] d ans [w0; w1; w2] [wa0; wa1; wa2] = Ok true.
Proof.
  pose proof red_small as R.
  exists 1%Z, 2%Z, 3%Z, 4%Z. eexists. exists 0%Z, 0%Z, 0%F, 0%Z, 0%F, 0%F, 0%F, 0%F, 0%F, 1%F.
  split; [apply R; lia|]. split.
  { rewrite (red_fz 1), (red_fz 2), (red_fz 3), (red_fz 4) by (apply R; lia). apply R_keygen_ok. }
  split; [apply (R 0%Z); lia|]. split; [apply R; lia|]. split; [apply R; lia|]. split.
  - intro E. apply (f_equal fz) in E. vm_compute in E. discriminate E.
  - apply (C37_vpdR_accepts_iff 1 2 3 4); try (apply R; lia).
    + rewrite (red_fz 1), (red_fz 2), (red_fz 3), (red_fz 4) by (apply R; lia). apply R_keygen_ok.
    + split; [apply F_eq; vm_compute; reflexivity|]. split; apply F_eq; vm_compute; reflexivity.
Qed.
Print Assumptions C37_vpdR_last_refuted.
(** Input commitment: element [n] of [n + 1] is not compared. *)
Theorem C37_input_accepts_iff : forall n a s K r d d2 Zv ans w wa,
  1 <= n < 31 -> red a -> length s = n + 1 -> Forall red s -> I_keygen n a s = Ok K ->
  length r = n -> Forall red r -> red Zv -> red ans -> length w = n + 1 -> length wa = n + 1 ->
  I_verify K r d d2 Zv ans w wa = Ok true <->
  ((forall k, k < n -> nth k wa 0 = ofZ a * nth k w 0) /\
   d + d2 * ofZ Zv - ofZ ans = sumn n (fun i => (ent s i - ent r i) * nth i w 0) + ent s n * nth n w 0)%F.
Proof.
  intros n a s K r d d2 Zv ans w wa Hn Ha Ls Hs EK Lr Hr Hz Hans Lw Lwa.
  destruct (I_keygen_ok n (ofZ a) s (ent s) ltac:(lia) (red_arr s (n + 1) Hs ltac:(lia))) as (K' & EK' & HK).
  rewrite <- red_fz in EK' by exact Ha. rewrite EK in EK'. injection EK' as <-.
  assert (NA : forall (l : list F) m, m <= length l -> arr l m (fun i => nth i l 0%F)).
  { intros l m Lm. split; [exact Lm|]. intros i Hi. apply nth_error_nth'. lia. }
  pose proof (I_verify_eq n (ofZ a) (ent s) K r (ent r) Hn HK Lr (red_arr r n Hr ltac:(lia)) (ofZ Zv) d d2 (ofZ ans) w _ wa _
    (NA w (n + 1) ltac:(lia)) (NA wa n ltac:(lia))) as V.
  rewrite <- (red_fz Zv Hz), <- (red_fz ans Hans) in V. rewrite V. clear V. rewrite <- gt_eqb_true. split.
  - intro V. injection V as V. apply andb_true_iff in V. destruct V as [V1 V2]. split; [|exact V2].
    intros k Hk. rewrite forallb_forall in V1. apply gt_eqb_true, V1, in_seq. lia.
  - intros [V1 V2]. rewrite V2, andb_true_r. f_equal. apply forallb_forall. intros k Hk. apply gt_eqb_true, V1.
    apply in_seq in Hk. lia.
Qed.
Print Assumptions C37_input_accepts_iff.
Theorem C37_input_last_unchecked : forall n a s K r d d2 Zv ans w wa x,
  1 <= n < 31 -> red a -> length s = n + 1 -> Forall red s -> I_keygen n a s = Ok K ->
  length r = n -> Forall red r -> red Zv -> red ans -> length w = n + 1 -> length wa = n + 1 ->
  I_verify K r d d2 Zv ans w wa = Ok true -> I_verify K r d d2 Zv ans w (firstn n wa ++ [x]) = Ok true.
Proof.
  intros n a s K r d d2 Zv ans w wa x Hn Ha Ls Hs EK Lr Hr Hz Hans Lw Lwa V.
  rewrite (C37_input_accepts_iff n a s K r) in V by assumption.
  apply (C37_input_accepts_iff n a s K r); try assumption.
  - rewrite app_length, firstn_length. simpl. lia.
  - destruct V as [V1 V2]. split; [|exact V2]. intros k Hk. rewrite app_nth1 by (rewrite firstn_length; lia).
    rewrite <- (V1 k Hk). rewrite <- (firstn_skipn n wa) at 2. rewrite app_nth1 by (rewrite firstn_length; lia). reflexivity.
Qed.
Print Assumptions C37_input_last_unchecked.
(** An honest opening with its last element replaced: inconsistent and accepted. *)
Theorem C37_input_last_refuted : exists n a s K r d d2 Zv ans w wa,
  1 <= n < 31 /\ red a /\ length s = n + 1 /\ Forall red s /\ I_keygen n a s = Ok K /\ length r = n /\ Forall red r /\
  length w = n + 1 /\ length wa = n + 1 /\ nth n wa 0%F <> (ofZ a * nth n w 0)%F /\
  I_verify K r d d2 Zv ans w wa = Ok true.
Proof.
  pose proof red_small as R.
  assert (HS : Forall red [2; 3]%Z) by (repeat constructor; apply R; lia).
  destruct (I_keygen_ok 1 (ofZ 1) [2; 3]%Z (ent [2; 3]%Z) ltac:(lia) (red_arr [2; 3]%Z 2 HS ltac:(simpl; lia))) as (K & EK & _).
  rewrite <- red_fz in EK by (apply R; lia).
  exists 1, 1%Z, [2; 3]%Z, K, [0]%Z, 0%F, 0%F, 0%Z, 0%Z, [0; 0]%F, [0; 1]%F.
  split; [lia|]. split; [apply R; lia|]. split; [reflexivity|]. split; [exact HS|]. split; [exact EK|].
  split; [reflexivity|]. split; [repeat constructor; apply R; lia|]. split; [reflexivity|]. split; [reflexivity|]. split.
  - intro E. apply (f_equal fz) in E. vm_compute in E. discriminate E.
  - apply (C37_input_accepts_iff 1 1 [2; 3]%Z); try assumption; try reflexivity; try (apply R; lia); try lia.
    + repeat constructor; apply R; lia.
    + split; [|apply F_eq; vm_compute; reflexivity]. intros k Hk. replace k with 0 by lia. apply F_eq. vm_compute. reflexivity.
Qed.
Print Assumptions C37_input_last_refuted.
(** The mask commitment compares all elements. *)
Theorem C37_mask_accepts_iff : forall d a s K r g ans w wa,
  3 <= d -> red a -> length s = d + 1 -> Forall red s -> M_keygen d a s = Ok K ->
  length r = d -> Forall red r -> red ans -> length w = d + 1 -> length wa = d + 1 ->
  M_verify K r g ans w wa = Ok true <->
  ((forall k, k <= d -> nth k wa 0 = ofZ a * nth k w 0) /\
   g - ofZ ans = sumn d (fun i => (ent s i - ent r i) * nth i w 0) + ent s d * nth d w 0)%F.
Proof.
  intros n a s K r g ans w wa Hn Ha Ls Hs EK Lr Hr Hans Lw Lwa.
  destruct (M_keygen_ok n (ofZ a) s (ent s) ltac:(lia) (red_arr s (n + 1) Hs ltac:(lia))) as (K' & EK' & HK).
  rewrite <- red_fz in EK' by exact Ha. rewrite EK in EK'. injection EK' as <-.
  assert (NA : forall (l : list F) m, m <= length l -> arr l m (fun i => nth i l 0%F)).
  { intros l m Lm. split; [exact Lm|]. intros i Hi. apply nth_error_nth'. lia. }
  pose proof (M_verify_eq n (ofZ a) (ent s) K r (ent r) g (ofZ ans) w _ wa _ HK Lr (red_arr r n Hr ltac:(lia))
    (NA w (n + 1) ltac:(lia)) (NA wa (n + 1) ltac:(lia))) as V.
  rewrite <- (red_fz ans Hans) in V. rewrite V. clear V. rewrite <- gt_eqb_true. split.
  - intro V. injection V as V. apply andb_true_iff in V. destruct V as [V1 V2]. split; [|exact V2].
    intros k Hk. rewrite forallb_forall in V1. apply gt_eqb_true, V1, in_seq. lia.
  - intros [V1 V2]. rewrite V2, andb_true_r. f_equal. apply forallb_forall. intros k Hk. apply gt_eqb_true, V1.
    apply in_seq in Hk. lia.
Qed.
Print Assumptions C37_mask_accepts_iff.
Example C37_nontrivial : exists K, M_keygen 3 5 [7; 11; 13; 17]%Z = Ok K /\
  M_verify K [2; 3; 4]%Z (ofZ 17) 0 [0; 0; 0; 1]%F [0; 0; 0; 1]%F <> Ok true.
Proof.
  pose proof red_small as R.
  assert (HS : Forall red [7; 11; 13; 17]%Z) by (repeat constructor; apply R; lia).
  destruct (M_keygen_ok 3 (ofZ 5) [7; 11; 13; 17]%Z (ent [7; 11; 13; 17]%Z) ltac:(lia)
    (red_arr [7; 11; 13; 17]%Z 4 HS ltac:(simpl; lia))) as (K & EK & _).
  rewrite <- red_fz in EK by (apply R; lia). exists K. split; [exact EK|]. intro V.
  rewrite (C37_mask_accepts_iff 3 5 [7; 11; 13; 17]%Z) in V; try reflexivity; try assumption; try (apply R; lia); try lia;
    try (repeat constructor; apply R; lia).
  destruct V as [V _]. specialize (V 3 (le_n 3)). apply (f_equal fz) in V. vm_compute in V. discriminate V.
Qed.

(** ** C43 *)
(** A prover that forms all its elements as combinations [span] of the key
    elements, with coefficients chosen without knowledge of the secret point [s],
    gets a wrong value accepted for at most a fraction [k/P] of the secret points. *)
Theorem C43_vpdR : forall a r0 r1 ans c (w : nat -> nat -> F),
  red a -> red r0 -> red r1 -> red ans -> poly_R c (ofZ r0) (ofZ r1) <> ofZ ans ->
  few 3 9 (fun s => exists K wa0 wa1 wa2,
    R_keygen a (fz (nth 0 s 0%F)) (fz (nth 1 s 0%F)) (fz (nth 2 s 0%F)) = Ok K /\
    R_verify K [r0; r1] (span 7 (kr_pub_g1 K) c) ans
      [span 7 (kr_pub_g1 K) (w 0); span 7 (kr_pub_g1 K) (w 1); span 7 (kr_pub_g1 K) (w 2)] [wa0; wa1; wa2] = Ok true).
Proof.
  intros a r0 r1 ans c w Ha H0 H1 Hn N. pose proof (R_sound (ofZ a) (ofZ r0) (ofZ r1) (ofZ ans) c w N) as S.
  rewrite <- (red_fz a Ha), <- (red_fz r0 H0), <- (red_fz r1 H1), <- (red_fz ans Hn) in S. exact S.
Qed.
Print Assumptions C43_vpdR.
Theorem C43_mask : forall d a r ans c (w : nat -> nat -> F),
  3 <= d -> length r = d -> Forall red r -> red a -> red ans -> mask_poly d c (ent r) <> ofZ ans ->
  few (d + 1) (6 * (d + 1)) (fun s => exists K wa, M_keygen d a (map fz s) = Ok K /\ length wa = d + 1 /\
    M_verify K r (span (2 * d + 8) (km_pub_g1 K) c) ans
      (map (fun k => span (2 * d + 8) (km_pub_g1 K) (w k)) (seq 0 (d + 1))) wa = Ok true).
Proof.
  intros d a r ans c w Hd Lr Hr Ha Hn N.
  assert (L : length (map ofZ r) = d) by (rewrite map_length; exact Lr).
  pose proof (M_sound d (ofZ a) (map ofZ r) (ofZ ans) c w Hd L) as S.
  rewrite <- (red_map r Hr), <- (red_fz a Ha), <- (red_fz ans Hn) in S. apply S.
  intro E. apply N. rewrite <- E. apply mask_poly_ext; [exact Hd|]. intros i Hi. unfold ent.
  change 0%F with (ofZ 0). rewrite (map_nth ofZ). reflexivity.
Qed.
Print Assumptions C43_mask.
Theorem C43_input : forall n a r Zv ans c c2 (w : nat -> nat -> F),
  1 <= n < 31 -> length r = n -> Forall red r -> red a -> red Zv -> red ans ->
  coef_poly n (fun j => c j + ofZ Zv * c2 j)%F (ent r) <> ofZ ans ->
  few (n + 1) (2 * (n + 1)) (fun s => exists K wa, I_keygen n a (map fz s) = Ok K /\ length wa = n + 1 /\
    I_verify K r (span (2 ^ n + 1) (ki_pub_g1 K) c) (span (2 ^ n + 1) (ki_pub_g1 K) c2) Zv ans
      (map (fun k => span (2 ^ n + 1) (ki_pub_g1 K) (w k)) (seq 0 (n + 1))) wa = Ok true).
Proof.
  intros n a r Zv ans c c2 w Hd Lr Hr Ha Hz Hn N.
  assert (L : length (map ofZ r) = n) by (rewrite map_length; exact Lr).
  pose proof (I_sound n (ofZ a) (map ofZ r) (ofZ Zv) (ofZ ans) c c2 w Hd L) as S.
  rewrite <- (red_map r Hr), <- (red_fz a Ha), <- (red_fz Zv Hz), <- (red_fz ans Hn) in S. apply S.
  intro E. apply N. rewrite <- E. apply coef_poly_ext. intros i Hi. unfold ent.
  change 0%F with (ofZ 0). rewrite (map_nth ofZ). reflexivity.
Qed.
Print Assumptions C43_input.
Example C43_nontrivial : few 3 9 (fun s => exists K wa0 wa1 wa2,
    R_keygen 5 (fz (nth 0 s 0%F)) (fz (nth 1 s 0%F)) (fz (nth 2 s 0%F)) = Ok K /\
    R_verify K [2; 3]%Z (span 7 (kr_pub_g1 K) (fun _ => 1%F)) 20
      [span 7 (kr_pub_g1 K) (fun _ => (ofZ 4)); span 7 (kr_pub_g1 K) (fun _ => (ofZ 5)); span 7 (kr_pub_g1 K) (fun _ => (ofZ 6))]
      [wa0; wa1; wa2] = Ok true).
Proof.
  pose proof red_small as R. apply (C43_vpdR 5 2 3 20 (fun _ => 1%F) (fun i _ => match i with 0 => ofZ 4 | 1 => ofZ 5 | _ => ofZ 6 end)); try (apply R; lia).
  intro E. apply (f_equal fz) in E. vm_compute in E. discriminate E.
Qed.
