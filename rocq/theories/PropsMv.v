(** * Properties C65-C66: the stand-alone commitment of multivariate_test.cpp

    Statements; the proofs are in MvTestProofs and MvTestOpen.  [mle r f] is
    the multilinear extension of [f] at [r]; [ent l i] is entry [i] of an
    integer list as a field element, zero past its end. *)
From Coq Require Import ZArith List Bool Arith Lia Ring.
From Verif Require Import Base Limbs Field FieldProofs Fp ArithProofs MleSpec Count SpecVpd.
From Verif Require Import VpdGroup VpdGroupProofs VpdSound PropsVpd MvTest MvTestProofs MvTestOpen.
Import ListNotations.
Open Scope nat_scope.

Lemma keygen_some : forall a s, red a -> Forall red s -> length s < 31 ->
  exists K, V_keygen (length s) a s = Ok K /\ key_ok (map ofZ s) (ofZ a) K.
Proof.
  intros a s Ha Hs L. destruct (V_keygen_ok (map ofZ s) (ofZ a)) as (K & E & H); [rewrite map_length; exact L|].
  exists K. split; [|exact H]. rewrite <- red_map, <- red_fz, map_length in E by assumption. exact E.
Qed.
Lemma keygen_any : forall a s K, red a -> Forall red s -> length s < 31 -> V_keygen (length s) a s = Ok K ->
  key_ok (map ofZ s) (ofZ a) K.
Proof.
  intros a s K Ha Hs L E. destruct (keygen_some a s Ha Hs L) as (K' & E' & H). rewrite E in E'. injection E' as <-. exact H.
Qed.
Lemma nth_map_ofZ : forall l i, nth i (map ofZ l) 0%F = ent l i.
Proof. intros l i. unfold ent. change 0%F with (ofZ 0). apply map_nth. Qed.

(** The honest run, before the last comparison. *)
Lemma honest_run : forall a s input r,
  length s < 31 -> red a -> Forall red s -> 1 <= length r <= length s -> Forall red r ->
  2 ^ (length r - 1) < length input <= 2 ^ length r -> Forall (fun z => - P <= z < 2 ^ 254)%Z input ->
  let S := skipn (length s - length r) (map ofZ s) in
  let c := sumn (2 * (length input / 2)) (fun x => eqw S x * ent input x)%F in
  exists K ans w wa, V_keygen (length s) a s = Ok K /\ V_commit K input = Ok (c, (ofZ a * c)%F) /\
    V_check_commit K c (ofZ a * c)%F = true /\ V_prove K r input = Ok (ans, w, wa) /\ red ans /\
    ofZ ans = mle (map ofZ r) (ent input) /\
    V_verify K r c ans w wa = Ok (gt_eqb c (mle S (ent input))).
Proof.
  intros a s input r Hs Ha Fs Hr Fr Hl Fi S c.
  destruct (keygen_some a s Ha Fs Hs) as (K & EK & HK).
  set (R := map ofZ r). assert (LR : length R = length r) by apply map_length.
  assert (LS : length (map ofZ s) = length s) by apply map_length.
  assert (LG : Nat.log2_up (length input) = length r) by (apply Nat.log2_up_unique; [lia|]; rewrite <- Nat.sub_1_r; exact Hl).
  assert (Rr : map fz R = r) by (symmetry; apply red_map, Fr).
  destruct (V_prove_ok (map ofZ s) (ofZ a) K R HK ltac:(lia) input ltac:(lia) ltac:(rewrite LR; lia)) as (((ans & w) & wa) & EP & A1 & A2 & A3 & A4 & A5).
  rewrite Rr in EP. exists K, ans, w, wa. split; [exact EK|]. split.
  { pose proof (V_commit_ok (map ofZ s) (ofZ a) K HK input) as C. cbv zeta in C. rewrite LG in C. rewrite C; [|lia|exact Fi].
    unfold c, S, wt. rewrite LS. reflexivity. }
  split. { apply gt_eqb_refl. rewrite (ko_ga _ _ _ HK). unfold pairing, gen2. change F1 with 1%F. ring. }
  split; [exact EP|]. split; [rewrite A1; apply fz_red|]. split; [rewrite A1, ofZ_fz; reflexivity|].
  assert (ET : tailp (map ofZ s) R = S) by (unfold tailp, S; rewrite LS, LR; reflexivity).
  rewrite <- Rr, A1, (V_verify_eq (map ofZ s) (ofZ a) K R HK) by lia.
  replace (forallb _ _) with true.
  2:{ symmetry. apply forallb_forall. intros i Hi. apply in_seq in Hi. apply gt_eqb_refl.
      rewrite (nth_error_nth _ _ 0%F (A5 i ltac:(lia))), (nth_error_nth _ _ 0%F (A4 i ltac:(lia))). reflexivity. }
  cbn [andb]. rewrite ET.
  rewrite (sumn_ext _ _ (fun i => (nth i S 0 - nth i R 0) * mle (skipn (i + 1) S) (quo R (ent input) i))%F).
  2:{ intros i Hi. rewrite (nth_error_nth _ _ 0%F (A4 i Hi)). unfold welem. rewrite ET. reflexivity. }
  rewrite <- mle_quotients.
  2:{ unfold S. rewrite skipn_length. lia. }
  f_equal. destruct (gt_eqb c (mle S (ent input))) eqn:E.
  - apply gt_eqb_true in E. apply gt_eqb_refl. rewrite E. reflexivity.
  - destruct (gt_eqb (c - _)%F _) eqn:E'; [|reflexivity]. apply gt_eqb_true in E'. rewrite <- E. symmetry. apply gt_eqb_refl.
    replace c with (c - mle R (ent input) + mle R (ent input))%F by ring. rewrite E'. ring.
Qed.
Lemma mle_input : forall S input, length input <= 2 ^ length S ->
  mle S (ent input) = sumn (length input) (fun x => eqw S x * ent input x)%F.
Proof.
  intros S input L. unfold mle. replace (2 ^ length S) with (length input + (2 ^ length S - length input)) by lia.
  rewrite sumn_app, (sumn_zero' (2 ^ length S - length input)); [ring|]. intros i _. rewrite ent_over by lia. ring.
Qed.

(** ** C65 *)
(** The honest run, for inputs of any even length. *)
Theorem C65_complete : forall a s input r,
  length s < 31 -> red a -> Forall red s -> 1 <= length r <= length s -> Forall red r ->
  2 ^ (length r - 1) < length input <= 2 ^ length r -> Nat.even (length input) = true ->
  Forall (fun z => - P <= z < 2 ^ 254)%Z input ->
  exists K d da ans w wa,
    V_keygen (length s) a s = Ok K /\ V_commit K input = Ok (d, da) /\ V_check_commit K d da = true /\
    V_prove K r input = Ok (ans, w, wa) /\ red ans /\ ofZ ans = mle (map ofZ r) (ent input) /\
    V_verify K r d ans w wa = Ok true.
Proof.
  intros a s input r Hs Ha Fs Hr Fr Hl Ev Fi.
  destruct (honest_run a s input r Hs Ha Fs Hr Fr Hl Fi) as (K & ans & w & wa & E1 & E2 & E3 & E4 & E5 & E6 & E7).
  exists K. do 2 eexists. exists ans, w, wa. split; [exact E1|]. split; [exact E2|]. split; [exact E3|]. split; [exact E4|].
  split; [exact E5|]. split; [exact E6|]. rewrite E7. f_equal. apply gt_eqb_refl.
  rewrite mle_input by (rewrite skipn_length, map_length; replace (length s - (length s - length r)) with (length r) by lia; lia).
  apply Nat.even_spec in Ev. destruct Ev as [h ->]. rewrite (Nat.mul_comm 2 h), Nat.div_mul by lia. rewrite Nat.mul_comm. reflexivity.
Qed.
Print Assumptions C65_complete.
(** With an odd number of inputs the commitment leaves out the last one, and the
    honest run is accepted only if that makes no difference. *)
Theorem C65_odd_accepts_iff : forall a s input r,
  length s < 31 -> red a -> Forall red s -> 1 <= length r <= length s -> Forall red r ->
  2 ^ (length r - 1) < length input <= 2 ^ length r -> Nat.odd (length input) = true ->
  Forall (fun z => - P <= z < 2 ^ 254)%Z input ->
  exists K d da ans w wa b,
    V_keygen (length s) a s = Ok K /\ V_commit K input = Ok (d, da) /\ V_prove K r input = Ok (ans, w, wa) /\
    V_verify K r d ans w wa = Ok b /\
    (b = true <-> eqw (skipn (length s - length r) (map ofZ s)) (length input - 1) * ent input (length input - 1) = 0)%F.
Proof.
  intros a s input r Hs Ha Fs Hr Fr Hl Od Fi.
  destruct (honest_run a s input r Hs Ha Fs Hr Fr Hl Fi) as (K & ans & w & wa & E1 & E2 & E3 & E4 & E5 & E6 & E7).
  exists K. do 2 eexists. exists ans, w, wa. eexists. split; [exact E1|]. split; [exact E2|]. split; [exact E4|].
  split; [exact E7|]. rewrite gt_eqb_true. set (S := skipn _ _).
  rewrite mle_input by (unfold S; rewrite skipn_length, map_length; replace (length s - (length s - length r)) with (length r) by lia; lia).
  apply Nat.odd_spec in Od. destruct Od as [h Eh]. rewrite Eh.
  replace ((2 * h + 1) / 2) with h by (apply Nat.div_unique with 1; lia). rewrite Nat.add_sub, sumn_app. cbn [sumn].
  rewrite Nat.add_0_r. set (x := sumn (2 * h) _). set (y := (eqw S (2 * h) * ent input (2 * h))%F). split; intro H.
  - replace y with (x + (0 + y) - x)%F by ring. rewrite <- H. ring.
  - rewrite H. ring.
Qed.
Print Assumptions C65_odd_accepts_iff.
Theorem C65_odd_refuted : exists a s input r K d da ans w wa,
  red a /\ Forall red s /\ Forall red r /\ length r = length s /\
  2 ^ (length r - 1) < length input <= 2 ^ length r /\ Forall red input /\
  V_keygen (length s) a s = Ok K /\ V_commit K input = Ok (d, da) /\ V_prove K r input = Ok (ans, w, wa) /\
  V_verify K r d ans w wa = Ok false.
Proof.
  pose proof red_small as R.
  assert (F1 : Forall red [7; 11]%Z) by (repeat constructor; apply R; lia).
  assert (F2 : Forall red [2; 3]%Z) by (repeat constructor; apply R; lia).
  assert (F3 : Forall red [1; 2; 3]%Z) by (repeat constructor; apply R; lia).
  destruct (C65_odd_accepts_iff 5 [7; 11]%Z [1; 2; 3]%Z [2; 3]%Z) as (K & d & da & ans & w & wa & b & E1 & E2 & E3 & E4 & E5).
  - simpl; lia.
  - apply R; lia.
  - exact F1.
  - simpl; lia.
  - exact F2.
  - simpl; lia.
  - reflexivity.
  - repeat constructor; pose proof P_pos; lia.
  - destruct b.
    + exfalso. pose proof (proj1 E5 eq_refl) as Z. apply (f_equal fz) in Z. vm_compute in Z. discriminate Z.
    + exists 5%Z, [7; 11]%Z, [1; 2; 3]%Z, [2; 3]%Z, K, d, da, ans, w, wa. split; [apply R; lia|]. split; [exact F1|]. split; [exact F2|].
      split; [reflexivity|]. split; [simpl; lia|]. split; [exact F3|]. split; [exact E1|]. split; [exact E2|]. split; [exact E3|exact E4].
Qed.
Print Assumptions C65_odd_refuted.
(** Two inputs that differ in an unpaired last entry have the same commitment. *)
Theorem C65_odd_not_binding : forall a s K l x y,
  length s < 31 -> red a -> Forall red s -> V_keygen (length s) a s = Ok K ->
  Nat.even (length l) = true -> 2 <= length l < 2 ^ length s ->
  Forall (fun z => - P <= z < 2 ^ 254)%Z (x :: y :: l) -> V_commit K (l ++ [x]) = V_commit K (l ++ [y]).
Proof.
  intros a s K l x y Hs Ha Fs EK Ev Hl Fl. pose proof (keygen_any a s K Ha Fs Hs EK) as HK.
  inversion Fl as [|? ? Fx Fl1]; subst. inversion Fl1 as [|? ? Fy Fl2]; subst.
  assert (LS : length (map ofZ s) = length s) by apply map_length.
  assert (LA : forall z : Z, length (l ++ [z]) = length l + 1) by (intro z; apply app_length).
  assert (LG : 1 <= Nat.log2_up (length l + 1) <= length s).
  { split; [change 1 with (Nat.log2_up 2); apply Nat.log2_up_le_mono; lia|].
    rewrite <- (Nat.log2_up_pow2 (length s)) by lia. apply Nat.log2_up_le_mono. lia. }
  assert (H2 : 2 * ((length l + 1) / 2) = length l).
  { apply Nat.even_spec in Ev. destruct Ev as [h ->]. replace ((2 * h + 1) / 2) with h by (apply Nat.div_unique with 1; lia). reflexivity. }
  assert (G : forall z, fits254 z -> V_commit K (l ++ [z]) =
    let c := sumn (length l) (fun i => wt (map ofZ s) (Nat.log2_up (length l + 1)) i * ent l i)%F in Ok (c, (ofZ a * c)%F)).
  { intros z Fz. pose proof (V_commit_ok (map ofZ s) (ofZ a) K HK (l ++ [z])) as C. cbv zeta in C. rewrite LA, H2, LS in C.
    rewrite C; [|exact LG|apply Forall_app; split; [exact Fl2|constructor; [exact Fz|constructor]]].
    cbv zeta. rewrite (sumn_ext _ _ (fun i => wt (map ofZ s) (Nat.log2_up (length l + 1)) i * ent l i)%F); [reflexivity|].
    intros i Hi. unfold ent. rewrite app_nth1 by exact Hi. reflexivity. }
  rewrite (G x Fx), (G y Fy). reflexivity.
Qed.
Print Assumptions C65_odd_not_binding.
(** Without variables the prover is undefined. *)
Theorem C65_no_variables : forall K input, V_prove K [] input = UB.
Proof.
  intros K input. unfold V_prove. cbn [length]. change (pow2_int 0) with (Ok 1). cbn [bind].
  assert (A : (exists z, V_answer [] input = Ok z) \/ V_answer [] input = UB).
  { unfold V_answer. change (V_products []) with (Ok [1%Z]). cbn [bind].
    assert (G : forall m i z, (exists v, for_ m i (fun i ans => x <- rd [1%Z] i ;; c <- rd input i ;; Ok (ans + x * c)%Z) z = Ok v) \/
      for_ m i (fun i ans => x <- rd [1%Z] i ;; c <- rd input i ;; Ok (ans + x * c)%Z) z = UB).
    { assert (RD : forall (l : list Z) i, (exists x, rd l i = Ok x) \/ rd l i = UB).
      { intros l i. unfold rd. destruct (nth_error l i); eauto. }
      induction m; intros i z; [left; exists z; reflexivity|]. cbn [for_].
      destruct (RD [1%Z] i) as [[x ->]| ->]; [|right; reflexivity]. cbn [bind].
      destruct (RD input i) as [[y ->]| ->]; [|right; reflexivity]. cbn [bind]. apply IHm. }
    destruct (G (length input) 0 0%Z) as [[v ->]| ->]; [left; eexists; reflexivity|right; reflexivity]. }
  destruct A as [[z ->]| ->]; reflexivity.
Qed.
Print Assumptions C65_no_variables.
Example C65_nontrivial : exists K d da ans w wa,
  V_keygen 2 5 [7; 11]%Z = Ok K /\ V_commit K [3; 1; -4; 2 ^ 31]%Z = Ok (d, da) /\ V_check_commit K d da = true /\
  V_prove K [2; 3]%Z [3; 1; -4; 2 ^ 31]%Z = Ok (ans, w, wa) /\ ans = (6 * 2 ^ 31 + 14)%Z /\ V_verify K [2; 3]%Z d ans w wa = Ok true.
Proof.
  pose proof red_small as R.
  destruct (C65_complete 5 [7; 11]%Z [3; 1; -4; 2 ^ 31]%Z [2; 3]%Z) as (K & d & da & ans & w & wa & E1 & E2 & E3 & E4 & E5 & E6 & E7).
  - simpl; lia.
  - apply R; lia.
  - repeat constructor; apply R; lia.
  - simpl; lia.
  - repeat constructor; apply R; lia.
  - simpl; lia.
  - reflexivity.
  - assert (4 < P)%Z by (vm_compute; reflexivity). repeat constructor; lia.
  - exists K, d, da, ans, w, wa. split; [exact E1|]. split; [exact E2|]. split; [exact E3|]. split; [exact E4|].
    split; [|exact E7]. rewrite (red_fz ans E5), E6. vm_compute. reflexivity.
Qed.

(** ** C66 *)
(** What verification checks: the second elements from number 1 on, and the opening equation. *)
Theorem C66_accepts_iff : forall a s K r d ans w wa,
  length s < 31 -> red a -> Forall red s -> V_keygen (length s) a s = Ok K ->
  1 <= length r <= length s -> Forall red r -> red ans -> length w = length r -> length wa = length r ->
  V_verify K r d ans w wa = Ok true <->
  ((forall i, 1 <= i < length r -> nth i wa 0 = ofZ a * nth i w 0) /\
   d - ofZ ans = sumn (length r) (fun i => (ent s (length s - length r + i) - ent r i) * nth i w 0))%F.
Proof.
  intros a s K r d ans w wa Hs Ha Fs EK Hr Fr Hans Lw Lwa. pose proof (keygen_any a s K Ha Fs Hs EK) as HK.
  set (R := map ofZ r). assert (LR : length R = length r) by apply map_length.
  assert (LS : length (map ofZ s) = length s) by apply map_length.
  assert (Rr : map fz R = r) by (symmetry; apply red_map, Fr).
  rewrite <- Rr at 1. rewrite (red_fz ans Hans) at 1.
  rewrite (V_verify_eq (map ofZ s) (ofZ a) K R HK) by lia. rewrite LR.
  rewrite (sumn_ext _ (fun i => (nth i (tailp (map ofZ s) R) 0 - nth i R 0) * nth i w 0)%F
    (fun i => (ent s (length s - length r + i) - ent r i) * nth i w 0)%F).
  2:{ intros i _. rewrite (tailp_nth (map ofZ s) R), LS, LR. unfold R. rewrite !nth_map_ofZ. reflexivity. }
  rewrite <- gt_eqb_true. split.
  - intro V. injection V as V. apply andb_true_iff in V. destruct V as [V1 V2]. split; [|exact V2].
    intros i Hi. rewrite forallb_forall in V1. apply gt_eqb_true, V1, in_seq. lia.
  - intros [V1 V2]. rewrite V2, andb_true_r. f_equal. apply forallb_forall. intros i Hi. apply in_seq in Hi.
    apply gt_eqb_true, V1. lia.
Qed.
Print Assumptions C66_accepts_iff.
(** The first second element is never looked at. *)
Theorem C66_first_unchecked_refuted : exists a s K r d ans w wa,
  red a /\ Forall red s /\ V_keygen (length s) a s = Ok K /\ length r = length s /\ Forall red r /\ red ans /\
  length w = length r /\ length wa = length r /\ nth 0 wa 0%F <> (ofZ a * nth 0 w 0)%F /\
  V_verify K r d ans w wa = Ok true.
Proof.
  pose proof red_small as R.
  assert (F1 : Forall red [7; 11]%Z) by (repeat constructor; apply R; lia).
  assert (F2 : Forall red [2; 3]%Z) by (repeat constructor; apply R; lia).
  destruct (keygen_some 5 [7; 11]%Z (R 5%Z ltac:(lia)) F1 ltac:(simpl; lia)) as (K & EK & _).
  exists 5%Z, [7; 11]%Z, K, [2; 3]%Z, (ofZ 26), 5%Z, [ofZ 1; ofZ 2], [ofZ 0; ofZ 10].
  split; [apply R; lia|]. split; [exact F1|]. split; [exact EK|]. split; [reflexivity|]. split; [exact F2|]. split; [apply R; lia|].
  split; [reflexivity|]. split; [reflexivity|]. split.
  - cbn [nth]. intro E. apply (f_equal fz) in E. vm_compute in E. discriminate E.
  - apply (C66_accepts_iff 5 [7; 11]%Z); try assumption; try reflexivity; try (simpl; lia); try (apply R; lia).
    split; [|apply F_eq; vm_compute; reflexivity]. intros i Hi. cbn [length] in Hi. replace i with 1 by lia. apply F_eq. vm_compute. reflexivity.
Qed.
Print Assumptions C66_first_unchecked_refuted.

(** A linear combination of all the elements of the key. *)
Definition key_span (K : keyV) (c : nat -> nat -> F) : F :=
  sumn (kv_D K + 1) (fun i => span (2 ^ i) (nth i (kv_g1 K) []) (c i)).
(** The polynomial it stands for: for each [i] a multilinear extension in the last [i] variables. *)
Definition span_poly (D : nat) (c : nat -> nat -> F) (x : list F) : F :=
  sumn (D + 1) (fun i => mle (skipn (D - i) x) (c i)).
Lemma key_span_eq : forall s a K c, key_ok s a K -> key_span K c = span_poly (length s) c s.
Proof.
  intros s a K c HK. unfold key_span, span_poly. rewrite (ko_D _ _ _ HK). apply sumn_ext. intros i Hi.
  destruct (ko_g1 _ _ _ HK) as [_ [_ A]]. destruct (A i ltac:(lia)) as (row & E & Lr & Ar). apply arrp_arr in Ar.
  rewrite (nth_error_nth _ _ [] E). unfold span, mle. rewrite skipn_length.
  replace (length s - (length s - i)) with i by lia. apply sumn_ext. intros x Hx.
  rewrite (nth_arr _ _ _ _ _ 0%F Ar Hx). unfold lev, wt. ring.
Qed.
Lemma polyvar_eqw : forall n d x, d <= n -> polyvar n 1 (fun v => eqw (skipn (n - d) v) x).
Proof.
  intros n d x Hd v i Lv Hi.
  assert (G : forall (v : list F) k i t, i < length v ->
    skipn k (upd v i t) = if i <? k then skipn k v else upd (skipn k v) (i - k) t).
  { clear. induction v as [|b v IH]; intros k i t H; [simpl in H; lia|]. destruct k.
    - cbn [skipn]. destruct (Nat.ltb_spec i 0); [lia|]. rewrite Nat.sub_0_r. reflexivity.
    - destruct i; [reflexivity|]. simpl in H. cbn [upd skipn]. rewrite IH by lia.
      change (S i <? S k) with (i <? k). reflexivity. }
  apply (polyfun_ext _ (fun t => eqw (if i <? n - d then skipn (n - d) v else upd (skipn (n - d) v) (i - (n - d)) t) x)).
  { intro t. rewrite G by lia. reflexivity. }
  destruct (Nat.ltb_spec i (n - d)); [apply polyfun_const|].
  assert (L : i - (n - d) < length (skipn (n - d) v)) by (rewrite skipn_length; lia).
  revert L. generalize (i - (n - d)) as k, (skipn (n - d) v) as u. clear. intros k u. revert k x.
  induction u as [|b u IH]; intros k x L; [simpl in L; lia|]. unfold eqw in *. destruct k; cbn [upd point map eqg].
  - apply (polyfun_ext _ (fun t => eqg (point u) (Nat.div2 x) * (if Nat.odd x then t else 1 - t))%F).
    { intro t. unfold point. ring. }
    apply polyfun_scal. destruct (Nat.odd x); [apply polyfun_id|].
    apply (polyfun_sub 1 (fun _ => 1%F) (fun t => t)); [apply polyfun_const|apply polyfun_id].
  - simpl in L. apply (polyfun_scal 1 _ (fun t => eqg (map (fun a => (a, (1 - a)%F)) (upd u k t)) (Nat.div2 x))). apply IH. lia.
Qed.
Lemma polyvar_span : forall D c, polyvar D 1 (span_poly D c).
Proof.
  intros D c. unfold span_poly. apply (polyvar_sumn _ D 1 (fun i v => mle (skipn (D - i) v) (c i))). intros i Hi.
  apply (polyvar_ext _ _ (fun v => sumn (2 ^ i) (fun x => eqw (skipn (D - i) v) x * c i x)%F)).
  - intros v Lv. unfold mle. rewrite skipn_length, Lv. replace (D - (D - i)) with i by lia. reflexivity.
  - apply (polyvar_sumn _ D 1 (fun x v => (eqw (skipn (D - i) v) x * c i x)%F)). intros x Hx.
    apply (polyvar_mul D 1 0 _ (fun _ => c i x)); [apply polyvar_eqw; lia|apply polyvar_const].
Qed.
(** For any combination of key elements as commitment and any as proof, a wrong
    value is accepted for at most the fraction [2 D / P] of the secrets. *)
Theorem C66_sound : forall a r ans c (w : nat -> nat -> nat -> F), let D := length r in
  1 <= D < 31 -> red a -> Forall red r -> red ans -> span_poly D c (map ofZ r) <> ofZ ans ->
  few D (2 * D) (fun s => exists K wa, V_keygen D a (map fz s) = Ok K /\ length wa = D /\
    V_verify K r (key_span K c) ans (map (fun k => key_span K (w k)) (seq 0 D)) wa = Ok true).
Proof.
  intros a r ans c w D HD Ha Fr Hans N.
  set (f := fun s : list F => (span_poly D c s - ofZ ans - sumn D (fun i => (nth i s 0 - nth i (map ofZ r) 0) * span_poly D (w i) s))%F).
  apply (few_weaken D (D * 2) (2 * D) (fun s => f s = 0%F)).
  - apply polyvar_few.
    + unfold f. apply (polyvar_sub D 2 (fun s => span_poly D c s - ofZ ans)%F).
      * apply (polyvar_sub D 2 (span_poly D c) (fun _ => ofZ ans)); [|apply polyvar_const].
        apply (polyvar_le D 1); [lia|]. apply polyvar_span.
      * apply (polyvar_sumn D D 2 (fun i s => ((nth i s 0 - nth i (map ofZ r) 0) * span_poly D (w i) s)%F)). intros i Hi.
        apply (polyvar_mul D 1 1 (fun s => nth i s 0 - nth i (map ofZ r) 0)%F); [|apply polyvar_span].
        apply (polyvar_sub D 1 (fun s => nth i s 0%F) (fun _ => nth i (map ofZ r) 0%F)); [apply polyvar_coord|apply polyvar_const].
    + exists (map ofZ r). split; [apply map_length|]. unfold f. rewrite sumn_zero'; [|intros i _; ring].
      intro E. apply N. replace (span_poly D c (map ofZ r)) with (span_poly D c (map ofZ r) - ofZ ans - 0 + ofZ ans)%F by ring.
      rewrite E. ring.
  - lia.
  - intros s Ls (K & wa & EK & Lwa & V).
    assert (LM : length (map fz s) = D) by (rewrite map_length; exact Ls).
    assert (FM : Forall red (map fz s)) by (apply Forall_map, Forall_forall; intros x _; apply fz_red).
    rewrite <- LM in EK at 1. pose proof (keygen_any a (map fz s) K Ha FM ltac:(lia) EK) as HK.
    rewrite map_map in HK. rewrite (map_ext _ (fun x => x)), map_id in HK by (intro x; apply ofZ_fz).
    rewrite (C66_accepts_iff a (map fz s) K r) in V; try assumption; try lia.
    2:{ rewrite map_length, seq_length. reflexivity. }
    destruct V as [_ V]. unfold f. rewrite LM in V. fold D in V. rewrite Nat.sub_diag in V.
    rewrite <- Ls at 1. rewrite <- (key_span_eq s (ofZ a) K c HK), V.
    rewrite (sumn_ext _ _ (fun i => (nth i s 0 - nth i (map ofZ r) 0) * span_poly D (w i) s)%F); [ring|].
    intros i Hi. cbn [Nat.add]. rewrite (nth_indep _ 0%F (key_span K (w 0))) by (rewrite map_length, seq_length; exact Hi).
    rewrite (map_nth (fun k => key_span K (w k)) (seq 0 D) 0 i), seq_nth by exact Hi. cbn [Nat.add].
    rewrite (key_span_eq s (ofZ a) K (w i) HK), Ls. unfold ent.
    rewrite (nth_map_ofZ r i). unfold ent. change 0%Z with (fz 0%F). rewrite (map_nth fz), ofZ_fz. reflexivity.
Qed.
Print Assumptions C66_sound.
(** In particular a commitment made by [commit] opens to the multilinear extension only. *)
Theorem C66_commit_sound : forall a r ans input (w : nat -> nat -> nat -> F), let D := length r in
  1 <= D < 31 -> red a -> Forall red r -> red ans -> 2 ^ (D - 1) < length input <= 2 ^ D ->
  Nat.even (length input) = true -> Forall (fun z => - P <= z < 2 ^ 254)%Z input ->
  mle (map ofZ r) (ent input) <> ofZ ans ->
  few D (2 * D) (fun s => exists K d da wa, V_keygen D a (map fz s) = Ok K /\ V_commit K input = Ok (d, da) /\ length wa = D /\
    V_verify K r d ans (map (fun k => key_span K (w k)) (seq 0 D)) wa = Ok true).
Proof.
  intros a r ans input w D HD Ha Fr Hans Hl Ev Fi N.
  set (c := fun i x => if i =? D then ent input x else 0%F).
  assert (SP : forall x, length x = D -> span_poly D c x = mle x (ent input)).
  { intros x Lx. unfold span_poly. rewrite sumn_app, (sumn_zero' D).
    - cbn [sumn]. rewrite Nat.add_0_r, Nat.sub_diag. cbn [skipn]. unfold c. rewrite Nat.eqb_refl.
      replace (mle x (fun x0 => ent input x0)) with (mle x (ent input)) by reflexivity. ring.
    - intros i Hi. rewrite (mle_ext _ (c i) (fun _ => 0%F)); [apply mle_zero|]. intros k _. unfold c.
      destruct (Nat.eqb_spec i D); [lia|reflexivity]. }
  eapply few_weaken; [apply (C66_sound a r ans c w HD Ha Fr Hans)|lia|].
  - rewrite SP by apply map_length. exact N.
  - intros s Ls (K & d & da & wa & EK & EC & Lwa & V). exists K, wa. split; [exact EK|]. split; [exact Lwa|].
    assert (LM : length (map fz s) = D) by (rewrite map_length; exact Ls).
    assert (FM : Forall red (map fz s)) by (apply Forall_map, Forall_forall; intros x _; apply fz_red).
    rewrite <- LM in EK at 1. pose proof (keygen_any a (map fz s) K Ha FM ltac:(lia) EK) as HK.
    rewrite map_map in HK. rewrite (map_ext _ (fun x => x)), map_id in HK by (intro x; apply ofZ_fz).
    assert (LG : Nat.log2_up (length input) = D) by (apply Nat.log2_up_unique; [lia|]; rewrite <- Nat.sub_1_r; exact Hl).
    pose proof (V_commit_ok s (ofZ a) K HK input) as C. cbv zeta in C. rewrite LG in C.
    rewrite C in EC; [|lia|exact Fi]. clear C.
    assert (EC' : sumn (2 * (length input / 2)) (fun x => wt s D x * ent input x)%F = d) by congruence.
    replace (key_span K c) with d; [exact V|]. rewrite <- EC', (key_span_eq s (ofZ a) K c HK), Ls, SP by exact Ls.
    rewrite mle_input by (rewrite Ls; lia). apply Nat.even_spec in Ev. destruct Ev as [h ->].
    rewrite (Nat.mul_comm 2 h), Nat.div_mul by lia. rewrite Nat.mul_comm. apply sumn_ext. intros x _.
    unfold wt. rewrite Ls, Nat.sub_diag. reflexivity.
Qed.
Print Assumptions C66_commit_sound.
Example C66_nontrivial : few 2 4 (fun s => exists K d da wa, V_keygen 2 5 (map fz s) = Ok K /\
  V_commit K [3; 1; -4; 2 ^ 31]%Z = Ok (d, da) /\ length wa = 2 /\
  V_verify K [2; 3]%Z d 99 (map (fun k => key_span K (fun i x => ofZ (Z.of_nat (k + i + x)))) (seq 0 2)) wa = Ok true).
Proof.
  pose proof red_small as R.
  apply (C66_commit_sound 5 [2; 3]%Z 99 [3; 1; -4; 2 ^ 31]%Z (fun k i x => ofZ (Z.of_nat (k + i + x)))).
  - simpl; lia.
  - apply R; lia.
  - repeat constructor; apply R; lia.
  - apply R; lia.
  - simpl; lia.
  - reflexivity.
  - assert (4 < P)%Z by (vm_compute; reflexivity). repeat constructor; lia.
  - intro E. apply (f_equal fz) in E. vm_compute in E. discriminate E.
Qed.
