(** * Two runs with the same numbers *)
From Coq Require Import ZArith List Bool Arith Lia Ring.
From Verif Require Import Limbs Field FieldProofs Fp Base ArithProofs MleSpec GkrMath Poly PolyProofs Circuit
  FastProver FastVerifier Lazy TablesProofs FastProverProofs PhaseProofs FastVerifierProofs SpecGkr SpecVpd SpecZk
  SoundProofs SumGame ZkPhaseProofs ZkMaskProofs ZkRoundProofs ZkOpenProofs ZkVerifierProofs ZkComplete ZkFacts ZkTarget
  TranscriptProofs ZkHide ZkView ZkViewProofs.
Import ListNotations.
Open Scope nat_scope.

(** ** Adding to a list *)
Definition lshift (l : list F) (f : nat -> F) : list F := map (fun k => nth k l 0 + f k)%F (seq 0 (length l)).
Lemma lshift_length : forall l f, length (lshift l f) = length l.
Proof. intros. unfold lshift. rewrite map_length, seq_length. reflexivity. Qed.
Lemma lshift_nth : forall l f k, k < length l -> nth k (lshift l f) 0%F = (nth k l 0 + f k)%F.
Proof.
  intros l f k H. unfold lshift. rewrite (nth_indep _ 0%F (nth 0 l 0 + f 0%nat)%F) by (rewrite map_length, seq_length; exact H).
  rewrite (map_nth (fun k => nth k l 0 + f k)%F), seq_nth by exact H. reflexivity.
Qed.
Lemma lshift_back : forall l f g, (forall k, (f k + g k = 0)%F) -> lshift (lshift l f) g = l.
Proof.
  intros l f g H. apply nth_ext with (d := 0%F) (d' := 0%F); [rewrite !lshift_length; reflexivity|].
  rewrite !lshift_length. intros k Hk. rewrite lshift_nth by (rewrite lshift_length; exact Hk). rewrite lshift_nth by exact Hk.
  transitivity (nth k l 0 + (f k + g k))%F; [ring|]. rewrite H. ring.
Qed.

(** ** The corrections are opposite when the two sides are exchanged *)
Lemma Sc_zero : forall b j, Sc (fun _ => 0%F) b j = 0%F.
Proof.
  intros b j. unfold Sc. rewrite (sumn_ext _ _ (fun _ => 0%F)); [rewrite sumn_zero; ring|]. intros. unfold qv, lo, hi. ring.
Qed.
Lemma dl_opp : forall b e1 e2 e3 e4 e5 f1 f2 f3 f4 f5,
  (forall j, (e1 j + f1 j = 0)%F) -> (forall j, (e2 j + f2 j = 0)%F) -> (forall j, (e3 j + f3 j = 0)%F) ->
  (forall j, (e4 j + f4 j = 0)%F) -> (forall j, (e5 j + f5 j = 0)%F) ->
  forall k, (dl b e1 e2 e3 e4 e5 k + dl b f1 f2 f3 f4 f5 k = 0)%F.
Proof.
  intros b e1 e2 e3 e4 e5 f1 f2 f3 f4 f5 H1 H2 H3 H4 H5.
  assert (HH : forall k j, (high e3 e4 e5 k j + high f3 f4 f5 k j = 0)%F).
  { intros [|[|k]] j; cbn [high]; auto. }
  assert (H0 : forall k, (dl0 b e1 e2 e3 e4 e5 k + dl0 b f1 f2 f3 f4 f5 k = 0)%F).
  { intro k. unfold dl0. destruct (k <? 4 * b + 2).
    - destruct (Nat.odd k).
      + transitivity (Fpow half (2 * b - k / 2) * (e1 (k / 2)%nat + f1 (k / 2)%nat))%F; [ring|]. rewrite H1. ring.
      + transitivity (Fpow half (2 * b - k / 2) * (e2 (k / 2)%nat + f2 (k / 2)%nat))%F; [ring|]. rewrite H2. ring.
    - destruct (k <? 4 * b + 3); [ring|]. destruct (k <? 4 * b + 6).
      + set (x := high e3 _ _ _ _). set (y := high f3 _ _ _ _). assert (E : (x + y = 0)%F) by apply HH.
        transitivity (Fpow half (2 * b - (b - 1)) * (x + y))%F; [ring|]. rewrite E. ring.
      + set (x := high e3 _ _ _ _). set (y := high f3 _ _ _ _). assert (E : (x + y = 0)%F) by apply HH.
        transitivity (Fpow half (2 * b - (2 * b - 1)) * (x + y))%F; [ring|]. rewrite E. ring. }
  intro k. unfold dl. destruct (k =? 4 * b + 2); [|apply H0]. unfold dlc.
  transitivity (0 - Fpow half (2 * b + 1) * (Sc (dl0 b e1 e2 e3 e4 e5) b 0 + Sc (dl0 b f1 f2 f3 f4 f5) b 0))%F; [ring|].
  rewrite <- Sc_add. rewrite (Sc_ext _ (fun _ => 0%F)) by (intros; apply H0). rewrite Sc_zero. ring.
Qed.
Lemma zshift_opp : forall b ru rv X Y k, (zshift b ru rv X Y k + zshift b ru rv Y X k = 0)%F.
Proof.
  intros b ru rv X Y k. unfold zshift. apply dl_opp; intro j; unfold de1, de2, dlast; destruct (is_last b j); ring.
Qed.
Lemma value_mask_opp : forall u v c s s' t t', (s + t = 0)%F -> (s' + t' = 0)%F ->
  forall k, (nth k (value_mask u v c s s') 0 + nth k (value_mask u v c t t') 0 = 0)%F.
Proof.
  intros u v c s s' t t' H H' k. 
  assert (E : t = (0 - s)%F) by (transitivity ((s + t) - s)%F; [ring|]; rewrite H; reflexivity).
  assert (E' : t' = (0 - s')%F) by (transitivity ((s' + t') - s')%F; [ring|]; rewrite H'; reflexivity).
  subst t t'. unfold value_mask. cbv zeta. generalize (Finv (1 - (c + c))) (Finv (u - v)). intros x y.
  do 6 (destruct k as [|k]; cbn [nth]; [ring|]). destruct k; cbn [nth]; ring.
Qed.

(** ** The mask coefficients of the second run *)
(** The difference of the values at [r], over [r (1 - r)]. *)
Definition vdiff (C C' : layered_circuit) (j : nat) (r : list F) : F := ((mle r (vals C j) - mle r (vals C' j)) * Finv (zp r))%F.
Lemma vdiff_opp : forall C C' j r, (vdiff C C' j r + vdiff C' C j r = 0)%F.
Proof. intros. unfold vdiff. ring. Qed.
Lemma vdiff_ok : forall C C' j r x, zp r <> 0%F -> (mle r (vals C' j) + zp r * (x + vdiff C C' j r) = mle r (vals C j) + zp r * x)%F.
Proof.
  intros C C' j r x H. unfold vdiff. pose proof (Finv_ok _ H) as E. set (y := Finv (zp r)) in *.
  transitivity (mle r (vals C' j) + zp r * x + (zp r * y) * (mle r (vals C j) - mle r (vals C' j)))%F; [ring|]. rewrite E. ring.
Qed.
(** The mask of the values of layer [j], whose opening point is [c]. *)
Definition remask (C C' : layered_circuit) (j : nat) (ru rv : list F) (c : F) (mk : list F) : list F :=
  lshift mk (fun k => nth k (value_mask (last ru 0%F) (last rv 0%F) c (vdiff C C' j ru) (vdiff C C' j rv)) 0%F).
Lemma remask_back : forall C C' j ru rv c mk, remask C' C j ru rv c (remask C C' j ru rv c mk) = mk.
Proof. intros. unfold remask. apply lshift_back. apply value_mask_opp; apply vdiff_opp. Qed.
(** The coefficients of the round mask. *)
Definition reround (b : nat) (ru rv : list F) (rh : F) (X Y : zdata) (c : list F) : list F :=
  lshift c (fun k => zshift b ru rv X Y k * Finv rh)%F.
Lemma reround_back : forall b ru rv rh X Y c, reround b ru rv rh Y X (reround b ru rv rh X Y c) = c.
Proof.
  intros. unfold reround. apply lshift_back. intro k.
  transitivity ((zshift b ru rv X Y k + zshift b ru rv Y X k) * Finv rh)%F; [ring|]. rewrite zshift_opp. ring.
Qed.

Fixpoint relayers (C C' : layered_circuit) (v : list F) (x0 x1 y0 y1 : F) (i q : nat) (a be : F) (R0 R1 mk nk : list F) (zu zv pu pv : F)
    (w : list F) : list F :=
  match i with
  | O => []
  | S j =>
    let b := lbits C j in let e := if i =? 1 then 0 else 6 in let q' := q + (2 * b + 4) in
    let ru := ch_u v q b in let rv := ch_v i v q b in let rh := ch_rho v q in
    let mk' := firstn e w in let c0 := firstn (4 * b + 9) (skipn e w) in
    let nk' := remask C C' j ru rv (ch_c j v q' (lbits C (j - 1))) mk' in
    let X := layer_zdata C i a be R0 R1 ru rv mk mk' x0 x1 zu zv pu pv in
    let Y := layer_zdata C' i a be R0 R1 ru rv nk nk' y0 y1 zu zv pu pv in
    nk' ++ reround b ru rv rh X Y c0 ++
    relayers C C' v x0 x1 y0 y1 j q' (nth (q + (2 * b + 2)) v 0%F) (nth (q + (2 * b + 3)) v 0%F) ru rv mk' nk' (zp ru) (zp rv) (last ru 0%F) (last rv 0%F)
      (skipn (e + (4 * b + 9)) w)
  end.
(** The number of challenges drawn before layer 1. *)
Fixpoint before_first (C : layered_circuit) (q i : nat) : nat :=
  match i with O => q | S j => if i =? 1 then q else before_first C (q + (2 * lbits C j + 4)) j end.
Definition first_diff (C C' : layered_circuit) (v : list F) (q i : nat) : F := vdiff C C' 0 (ch_u v (before_first C q i) (lbits C 0)).
(** All coefficients of the second run. *)
Definition remasks (C C' : layered_circuit) (v ms : list F) : list F :=
  let d := total_depth C in let b := lbits C (d - 1) in
  let x0 := nth 0 ms 0%F in let x1 := nth 1 ms 0%F in let y0 := (x0 + first_diff C C' v (b + b) (d - 1))%F in
  [y0; x1] ++ relayers C C' v x0 x1 y0 x1 (d - 1) (b + b) 1%F 0%F (at_tape v 0 b) (at_tape v b b) (repeat 0%F 6) (repeat 0%F 6) 0%F 0%F 0%F 0%F (skipn 2 ms).

Lemma relayers_length : forall C C' v x0 x1 y0 y1 i q a be R0 R1 mk nk zu zv pu pv w, length w = layer_masks C i ->
  length (relayers C C' v x0 x1 y0 y1 i q a be R0 R1 mk nk zu zv pu pv w) = layer_masks C i.
Proof.
  intros C C' v x0 x1 y0 y1 i. induction i as [|i IH]; intros q a be R0 R1 mk nk zu zv pu pv w H; [reflexivity|].
  cbn [relayers]. cbv zeta. rewrite !app_length. unfold remask, reround. rewrite !lshift_length, !firstn_length, skipn_length.
  cbn [layer_masks] in H |- *. set (e := if S i =? 1 then 0 else 6) in *. rewrite IH by (rewrite skipn_length; lia). lia.
Qed.

Section Twins.
Variables C C' : layered_circuit.
Hypothesis CC : zcomplete_circuit C.
Hypothesis CC' : zcomplete_circuit C'.
Hypothesis TW : twins C C'.
Lemma tw_lbits : forall i, i < total_depth C -> lbits C' i = lbits C i.
Proof.
  intros i H. unfold lbits. destruct i as [|i]; [symmetry; apply (tw_bits _ _ TW)|]. rewrite (tw_layers _ _ TW) by lia. reflexivity.
Qed.
Lemma tw_masks : forall i, i < total_depth C -> layer_masks C' i = layer_masks C i.
Proof. induction i as [|i IH]; intro H; [reflexivity|]. cbn [layer_masks]. rewrite tw_lbits, IH by lia. reflexivity. Qed.
Lemma tw_before : forall i q, i < total_depth C -> before_first C' q i = before_first C q i.
Proof.
  induction i as [|i IH]; intros q H; [reflexivity|]. cbn [before_first]. rewrite tw_lbits by lia. destruct (S i =? 1); [reflexivity|]. apply IH. lia.
Qed.

Lemma relayers_back : forall v x0 x1 y0 y1 i q a be R0 R1 mk nk zu zv pu pv w, i < total_depth C -> length w = layer_masks C i ->
  relayers C' C v y0 y1 x0 x1 i q a be R0 R1 nk mk zu zv pu pv (relayers C C' v x0 x1 y0 y1 i q a be R0 R1 mk nk zu zv pu pv w) = w.
Proof.
  intros v x0 x1 y0 y1 i. induction i as [|i IH]; intros q a be R0 R1 mk nk zu zv pu pv w Hi H.
  - cbn [layer_masks] in H. destruct w; [reflexivity|discriminate].
  - cbn [relayers]. cbv zeta. cbn [layer_masks] in H. rewrite !tw_lbits by lia. set (b := lbits C i) in *. set (e := if S i =? 1 then 0 else 6) in *.
    set (ru := ch_u v q b). set (rv := ch_v (S i) v q b). set (rc := ch_c i v (q + (2 * b + 4)) (lbits C (i - 1))).
    set (mk' := firstn e w) in *. set (nk' := remask C C' i ru rv rc mk').
    assert (Lmk : length mk' = e) by (unfold mk'; rewrite firstn_length; lia).
    assert (Lnk : length nk' = e) by (unfold nk', remask; rewrite lshift_length; exact Lmk).
    set (X := layer_zdata C _ _ _ _ _ _ _ mk mk' _ _ _ _ _ _). set (Y := layer_zdata C' _ _ _ _ _ _ _ nk nk' _ _ _ _ _ _).
    set (c0 := firstn (4 * b + 9) (skipn e w)). set (d0 := reround b ru rv (ch_rho v q) X Y c0).
    assert (Lc : length c0 = 4 * b + 9) by (unfold c0; rewrite firstn_length, skipn_length; lia).
    assert (Ld : length d0 = 4 * b + 9) by (unfold d0, reround; rewrite lshift_length; exact Lc).
    set (rest := relayers C C' _ _ _ _ _ _ _ _ _ _ _ _ _ _ _ _ _ _).
    assert (E1 : firstn e (nk' ++ d0 ++ rest) = nk') by (rewrite <- Lnk; rewrite firstn_app, Nat.sub_diag, firstn_O, app_nil_r; apply firstn_all).
    assert (E2 : skipn e (nk' ++ d0 ++ rest) = d0 ++ rest) by (rewrite <- Lnk at 1; rewrite skipn_app, Nat.sub_diag, skipn_all; reflexivity).
    assert (E3 : firstn (4 * b + 9) (d0 ++ rest) = d0) by (rewrite <- Ld; rewrite firstn_app, Nat.sub_diag, firstn_O, app_nil_r; apply firstn_all).
    assert (E4 : skipn (e + (4 * b + 9)) (nk' ++ d0 ++ rest) = rest).
    { rewrite app_assoc. replace (e + (4 * b + 9)) with (length (nk' ++ d0)) by (rewrite app_length; lia).
      rewrite skipn_app, Nat.sub_diag, skipn_all. reflexivity. }
    rewrite E1, E2, E3, E4.
    assert (E5 : remask C' C i ru rv rc nk' = mk') by apply remask_back. rewrite E5. fold X. fold Y.
    unfold d0. rewrite reround_back. unfold rest. rewrite IH; [|lia|rewrite skipn_length; lia].
    unfold mk', c0. rewrite <- (firstn_skipn e w) at 4. f_equal.
    rewrite <- (firstn_skipn (4 * b + 9) (skipn e w)) at 2. f_equal. rewrite skipn_skipn'. reflexivity.
Qed.

(** ** A layer in the two runs *)
Section OneLayer.
Variables (i : nat) (a be : F) (R0 R1 ru rv mk nk mk' nk' : list F) (x0 x1 y0 y1 zu zv pu pv rc rh : F).
Hypothesis Hi : 0 < i < total_depth C.
Let b := lbits C (i - 1).
Hypothesis L0 : length R0 = lbits C i.
Hypothesis L1 : length R1 = lbits C i.
Hypothesis Lu : length ru = b.
Hypothesis Lv : length rv = b.
Let X := layer_zdata C i a be R0 R1 ru rv mk mk' x0 x1 zu zv pu pv.
Let Y := layer_zdata C' i a be R0 R1 ru rv nk nk' y0 y1 zu zv pu pv.
Hypothesis Evu : zd_vu ru X = zd_vu ru Y.
Hypothesis Evv : zd_vv rv X = zd_vv rv Y.
Hypothesis I0 : (mle R0 (vals C i) + zu * RS mk pu = mle R0 (vals C' i) + zu * RS nk pu)%F.
Hypothesis I1 : (mle R1 (vals C i) + zv * RS mk pv = mle R1 (vals C' i) + zv * RS nk pv)%F.
Let R := poly_R (fun j => nth j mk 0%F).
Let R' := poly_R (fun j => nth j nk 0%F).
Hypothesis O0 : R pu rc = R' pu rc.
Hypothesis O1 : R pv rc = R' pv rc.
Hypothesis Hrh : rh <> 0%F.
Variable c0 : list F.
Hypothesis Lc : length c0 = 4 * b + 9.
Let d0 := reround b ru rv rh X Y c0.
Let d := relay_at i a be R0 R1 ru.

Lemma ol_bits : 1 <= b /\ lbits C' (i - 1) = b /\ layer_at C' i = layer_at C i /\ 0 < i < total_depth C'.
Proof.
  pose proof (tw_depth _ _ TW). split; [apply (zc_bits C CC); lia|]. split; [apply tw_lbits; lia|]. split; [symmetry; apply (tw_layers _ _ TW); lia|lia].
Qed.
Lemma ol_X : zconsistent b ru rv d X /\ (psum b (zd_V X) (zd_M1 X) (zd_A1 X) = a * mle R0 (vals C i) + be * mle R1 (vals C i))%F.
Proof.
  destruct (zphase1_tables' C 0 i CC Hi a be R0 R1 L0 L1) as (_ & Start & Link). split; [|exact Start]. constructor.
  - exact (Link ru (zd_vu ru X) Lu).
  - unfold X at 1 2. rewrite !layer_G. fold X. 
    change (zd_k X) with (a * zu * RS mk pu + be * zv * RS mk pv)%F. unfold RS. ring.
Qed.
Lemma ol_Y : zconsistent b ru rv d Y /\ (psum b (zd_V Y) (zd_M1 Y) (zd_A1 Y) = a * mle R0 (vals C' i) + be * mle R1 (vals C' i))%F.
Proof.
  destruct ol_bits as (Hb & Eb & EL & Hi'). assert (El : lbits C' i = lbits C i) by (unfold lbits; rewrite EL; reflexivity).
  destruct (zphase1_tables' C' 0 i CC' Hi' a be R0 R1 ltac:(rewrite L0; symmetry; exact El) ltac:(rewrite L1; symmetry; exact El)) as (_ & Start & Link).
  change (bit_length (layer_at C' (i - 1))) with (lbits C' (i - 1)) in Start, Link. rewrite Eb in Start, Link. split; [|exact Start]. constructor.
  - exact (Link ru (zd_vu ru Y) Lu).
  - unfold Y at 1 2. rewrite !layer_G. fold Y. 
    change (zd_k Y) with (a * zu * RS nk pu + be * zv * RS nk pv)%F. unfold RS. ring.
Qed.
Lemma ol_coef : forall k, k < 4 * b + 9 -> (nth k d0 0 * rh = nth k c0 0 * rh + zshift b ru rv X Y k)%F.
Proof.
  intros k Hk. unfold d0, reround. rewrite lshift_nth by lia. pose proof (Finv_ok rh Hrh) as E.
  transitivity (nth k c0 0 * rh + zshift b ru rv X Y k * (rh * Finv rh))%F; [ring|]. rewrite E. ring.
Qed.
Lemma ol_msgs : forall j t, j <= 2 * b ->
  zmsgs b ru rv (fun k => nth k d0 0 * rh)%F Y j t = zmsgs b ru rv (fun k => nth k c0 0 * rh)%F X j t.
Proof.
  intros j t Hj. destruct ol_bits as (Hb & _). destruct ol_X as [CX SX]. destruct ol_Y as [CY SY].
  rewrite <- (zshift_rounds b Hb ru rv Lu Lv X Y d CX CY Evu) by
    (exact Hj || (rewrite SX, SY; change (zd_k X) with (a * zu * RS mk pu + be * zv * RS mk pv)%F; change (zd_k Y) with (a * zu * RS nk pu + be * zv * RS nk pv)%F;
      transitivity (a * (mle R0 (vals C i) + zu * RS mk pu) + be * (mle R1 (vals C i) + zv * RS mk pv))%F; [ring|]; rewrite I0, I1; ring)).
  rewrite (zmsgs_split b Hb ru rv Lu Lv (fun k => nth k d0 0 * rh)%F) by exact Hj.
  rewrite (zmsgs_split b Hb ru rv Lu Lv (fun k => nth k c0 0 * rh + zshift b ru rv X Y k)%F) by exact Hj. f_equal.
  apply mround_ext; [exact ol_coef|]. rewrite firstn_length. lia.
Qed.
Lemma ol_sum : Sc (fun k => nth k d0 0 * rh)%F b 0 = Sc (fun k => nth k c0 0 * rh)%F b 0.
Proof.
  destruct ol_bits as (Hb & _). rewrite <- (zshift_sum b Hb ru rv X Y (fun k => nth k c0 0 * rh)%F). apply Sc_ext. exact ol_coef.
Qed.
Lemma ol_G : zd_G X rc = zd_G Y rc.
Proof.
  destruct ol_bits as (_ & _ & EL & _). unfold X, Y. rewrite !layer_G. fold X Y R R'. rewrite O0, O1.
  assert (EM : zd_M2 X = zd_M2 Y /\ zd_A2 X = zd_A2 Y).
  { assert (MX : zd_M2 X = scat (2 ^ bit_length (layer_at C i)) (tM2 (gate_at (layer_at C i)) (gw a be R0 R1) (zd_vu ru X) (eqw ru))) by reflexivity.
    assert (MY : zd_M2 Y = scat (2 ^ bit_length (layer_at C' i)) (tM2 (gate_at (layer_at C' i)) (gw a be R0 R1) (zd_vu ru Y) (eqw ru))) by reflexivity.
    assert (AX : zd_A2 X = scat (2 ^ bit_length (layer_at C i)) (tA2 (gate_at (layer_at C i)) (gw a be R0 R1) (zd_vu ru X) (eqw ru))) by reflexivity.
    assert (AY : zd_A2 Y = scat (2 ^ bit_length (layer_at C' i)) (tA2 (gate_at (layer_at C' i)) (gw a be R0 R1) (zd_vu ru Y) (eqw ru))) by reflexivity.
    rewrite MX, MY, AX, AY, EL, Evu. split; reflexivity. }
  destruct EM as [-> ->]. rewrite Evv. reflexivity.
Qed.
Lemma ol_open : mask_poly (2 * b + 1) (fun j => nth j d0 0%F) (fun j => nth j (ru ++ rv ++ [rc]) 0%F) =
  mask_poly (2 * b + 1) (fun j => nth j c0 0%F) (fun j => nth j (ru ++ rv ++ [rc]) 0%F).
Proof.
  destruct ol_bits as (Hb & _).
  assert (Luv : length (ru ++ rv) = 2 * b) by (rewrite app_length; lia).
  assert (EM : forall c, mround (fun k => nth k c 0 * rh)%F b (ru ++ rv) rc = (rh * mask_poly (2 * b + 1) (fun j => nth j c 0%F) (fun j => nth j (ru ++ rv ++ [rc]) 0%F))%F).
  { intro c. rewrite mround_next by lia. rewrite Mk_end by (rewrite ?app_length; cbn [length]; lia). rewrite <- app_assoc. apply mask_poly_scal. }
  pose proof (ol_msgs (2 * b) rc (le_n _)) as E. unfold zmsgs in E.
  destruct (Nat.ltb_spec (2 * b) b); [lia|]. destruct (Nat.ltb_spec (2 * b) (2 * b)); [lia|]. unfold zpart3 in E.
  rewrite ol_G, !EM in E. set (p := mask_poly _ _ _) in *. set (p' := mask_poly _ (fun j => nth j c0 0%F) _) in *.
  assert (Z : (rh * (p - p') = 0)%F).
  { transitivity ((zd_G Y rc + rh * p) - (zd_G Y rc + rh * p'))%F; [ring|]. rewrite E. ring. }
  apply F_integral in Z. destruct Z as [Z|Z]; [contradiction|]. transitivity ((p - p') + p')%F; [ring|]. rewrite Z. ring.
Qed.
Lemma ol_nums : forall q1 q3 p1 p3,
  rlog b 0 (2 * b) (zmsgs b ru rv (fun k => nth k c0 0 * rh)%F X) q1 -> rlog b (2 * b) 1 (zmsgs b ru rv (fun k => nth k c0 0 * rh)%F X) q3 ->
  rlog b 0 (2 * b) (zmsgs b ru rv (fun k => nth k d0 0 * rh)%F Y) p1 -> rlog b (2 * b) 1 (zmsgs b ru rv (fun k => nth k d0 0 * rh)%F Y) p3 ->
  layer_nums b ru rv rc rh c0 mk X zu zv pu pv q1 q3 = layer_nums b ru rv rc rh d0 nk Y zu zv pu pv p1 p3.
Proof.
  intros q1 q3 p1 p3 H1 H3 G1 G3.
  assert (E1 : q1 = p1).
  { eapply rlog_fun; [exact H1|]. eapply rlog_ext; [exact G1|]. intros. apply ol_msgs. lia. }
  assert (E3 : q3 = p3).
  { eapply rlog_fun; [exact H3|]. eapply rlog_ext; [exact G3|]. intros. apply ol_msgs. lia. }
  unfold layer_nums. cbv zeta. fold R R'. rewrite <- E1, <- E3, ol_sum, ol_open, Evu, Evv, O0, O1. reflexivity.
Qed.
End OneLayer.

(** ** The whole run *)
Lemma zp_zeros : forall n, 1 <= n -> zp (repeat 0%F n) = 0%F.
Proof. intros [|n] H; [lia|]. cbn [repeat zp]. ring. Qed.
Lemma mle_repeat0 : forall n V, mle (repeat 0%F n) V = V 0%nat.
Proof.
  intros n V. rewrite <- (mle_zeros (repeat 0%F n) V). f_equal. induction n as [|n IH]; [reflexivity|]. cbn [repeat map]. rewrite <- IH. reflexivity.
Qed.
Hypothesis H00 : vals C 0 0 = vals C' 0 0.

Lemma poly_R_shift : forall mk f x y, length mk = 6 ->
  poly_R (fun j => nth j (lshift mk f) 0%F) x y = (poly_R (fun j => nth j mk 0%F) x y + poly_R f x y)%F.
Proof. intros mk f x y H. unfold poly_R. rewrite !lshift_nth by lia. ring. Qed.

Lemma remask_ok : forall j ru rv c mk, length mk = 6 -> last ru 0%F <> last rv 0%F -> (1 - (c + c) <> 0)%F -> zp ru <> 0%F -> zp rv <> 0%F ->
  let nk := remask C C' j ru rv c mk in let u := last ru 0%F in let v := last rv 0%F in
  (mle ru (vals C j) + zp ru * RS mk u = mle ru (vals C' j) + zp ru * RS nk u)%F /\
  (mle rv (vals C j) + zp rv * RS mk v = mle rv (vals C' j) + zp rv * RS nk v)%F /\
  poly_R (fun k => nth k mk 0%F) u c = poly_R (fun k => nth k nk 0%F) u c /\
  poly_R (fun k => nth k mk 0%F) v c = poly_R (fun k => nth k nk 0%F) v c.
Proof.
  intros j ru rv c mk Lm Huv Hc Zu Zv. cbv zeta. unfold remask. set (f := fun k => nth k (value_mask _ _ _ _ _) 0%F).
  destruct (value_mask_ok (last ru 0%F) (last rv 0%F) c (vdiff C C' j ru) (vdiff C C' j rv) Huv Hc) as (A & B & D & E).
  fold f in D, E. unfold RSum in A, B. fold f in A, B.
  assert (RSf : forall x, RS (lshift mk f) x = (RS mk x + (poly_R f x 0 + poly_R f x 1))%F).
  { intro x. unfold RS. rewrite !poly_R_shift by exact Lm. ring. }
  rewrite !RSf, !poly_R_shift by exact Lm. rewrite A, B, D, E. rewrite !vdiff_ok by assumption.
  split; [reflexivity|]. split; [reflexivity|]. split; ring.
Qed.

Lemma vnums_same : forall v x0 x1 y0 i q a be R0 R1 mk nk zu zv pu pv w l l', i < total_depth C -> length w = layer_masks C i ->
  length R0 = lbits C i -> length R1 = lbits C i -> good_layers C v q i ->
  (i <> 0 -> y0 = (x0 + first_diff C C' v q i)%F) ->
  (i = 0 -> (mle R0 (vals C 0) + zu * (x0 + x1 * last R0 0) = mle R0 (vals C' 0) + zu * (y0 + x1 * last R0 0))%F) ->
  (i <> 0 -> (mle R0 (vals C i) + zu * RS mk pu = mle R0 (vals C' i) + zu * RS nk pu)%F /\
             (mle R1 (vals C i) + zv * RS mk pv = mle R1 (vals C' i) + zv * RS nk pv)%F /\
             let c := ch_c i v q (lbits C (i - 1)) in
             poly_R (fun j => nth j mk 0%F) pu c = poly_R (fun j => nth j nk 0%F) pu c /\
             poly_R (fun j => nth j mk 0%F) pv c = poly_R (fun j => nth j nk 0%F) pv c) ->
  vnums C v x0 x1 i q a be R0 R1 mk zu zv pu pv w l ->
  vnums C' v y0 x1 i q a be R0 R1 nk zu zv pu pv (relayers C C' v x0 x1 y0 x1 i q a be R0 R1 mk nk zu zv pu pv w) l' -> l = l'.
Proof.
  intros v x0 x1 y0 i. induction i as [|i IH]; intros q a be R0 R1 mk nk zu zv pu pv w l l' Hi Lw L0 L1 GC Hy E0 IV VN VN'.
  - cbn [vnums] in VN, VN'. rewrite VN, VN', (E0 eq_refl). reflexivity.
  - cbn [vnums] in VN. destruct VN as (q1 & q3 & l1 & RL1 & RL3 & El & VN).
    cbn [vnums relayers] in VN'. cbv zeta in VN'. rewrite !tw_lbits in VN' by lia.
    cbn [layer_masks] in Lw. set (b := lbits C i) in *. set (e := if S i =? 1 then 0 else 6) in *.
    set (ru := ch_u v q b) in *. set (rv := ch_v (S i) v q b) in *. set (rc := ch_c i v (q + (2 * b + 4)) (lbits C (i - 1))) in *.
    set (mk' := firstn e w) in *. set (nk' := remask C C' i ru rv rc mk') in *.
    assert (Lmk : length mk' = e) by (unfold mk'; rewrite firstn_length; lia).
    assert (Lnk : length nk' = e) by (unfold nk', remask; rewrite lshift_length; exact Lmk).
    set (X := layer_zdata C _ _ _ _ _ _ _ mk mk' _ _ _ _ _ _) in *. set (Y := layer_zdata C' _ _ _ _ _ _ _ nk nk' _ _ _ _ _ _) in *.
    set (c0 := firstn (4 * b + 9) (skipn e w)) in *. set (d0 := reround b ru rv (ch_rho v q) X Y c0) in *.
    assert (Lc : length c0 = 4 * b + 9) by (unfold c0; rewrite firstn_length, skipn_length; lia).
    assert (Ld : length d0 = 4 * b + 9) by (unfold d0, reround; rewrite lshift_length; exact Lc).
    set (rest := relayers C C' _ _ _ _ _ _ _ _ _ _ _ _ _ _ _ _ _ _) in *.
    assert (F1 : firstn e (nk' ++ d0 ++ rest) = nk') by (rewrite <- Lnk; rewrite firstn_app, Nat.sub_diag, firstn_O, app_nil_r; apply firstn_all).
    assert (F2 : skipn e (nk' ++ d0 ++ rest) = d0 ++ rest) by (rewrite <- Lnk at 1; rewrite skipn_app, Nat.sub_diag, skipn_all; reflexivity).
    assert (F3 : firstn (4 * b + 9) (d0 ++ rest) = d0) by (rewrite <- Ld; rewrite firstn_app, Nat.sub_diag, firstn_O, app_nil_r; apply firstn_all).
    assert (F4 : skipn (e + (4 * b + 9)) (nk' ++ d0 ++ rest) = rest).
    { rewrite app_assoc. replace (e + (4 * b + 9)) with (length (nk' ++ d0)) by (rewrite app_length; lia).
      rewrite skipn_app, Nat.sub_diag, skipn_all. reflexivity. }
    rewrite F1, F2, F3, F4 in VN'. fold Y in VN'. destruct VN' as (p1 & p3 & l2 & PL1 & PL3 & El' & VN').
    specialize (Hy ltac:(lia)). destruct (IV ltac:(lia)) as (I0 & I1 & O0 & O1). replace (S i - 1) with i in O0, O1 by lia. fold b in O0, O1.
    cbn [good_layers] in GC. cbv zeta in GC. fold b in GC. fold ru rv rc in GC. destruct GC as (Grh & Gu & Gv & GC).
    rewrite <- zp_vanishing in Gu.
    assert (Lu : length ru = b) by apply at_tape_length.
    assert (Lv : length rv = b) by (unfold rv, ch_v; destruct (S i =? 1); [apply repeat_length|apply at_tape_length]).
    assert (Hb : 1 <= b) by (apply (zc_bits C CC); lia).
    (* the claims about the layer below *)
    assert (KEY : zd_vu ru X = zd_vu ru Y /\ zd_vv rv X = zd_vv rv Y /\
      (i <> 0 -> y0 = (x0 + first_diff C C' v (q + (2 * b + 4)) i)%F) /\
      (i = 0 -> (mle ru (vals C 0) + zp ru * (x0 + x1 * last ru 0) = mle ru (vals C' 0) + zp ru * (y0 + x1 * last ru 0))%F) /\
      (i <> 0 -> (mle ru (vals C i) + zp ru * RS mk' (last ru 0) = mle ru (vals C' i) + zp ru * RS nk' (last ru 0))%F /\
             (mle rv (vals C i) + zp rv * RS mk' (last rv 0) = mle rv (vals C' i) + zp rv * RS nk' (last rv 0))%F /\
             poly_R (fun j => nth j mk' 0%F) (last ru 0%F) rc = poly_R (fun j => nth j nk' 0%F) (last ru 0%F) rc /\
             poly_R (fun j => nth j mk' 0%F) (last rv 0%F) rc = poly_R (fun j => nth j nk' 0%F) (last rv 0%F) rc)).
    { destruct (Nat.eq_dec i 0) as [Ei|Ni].
      - unfold first_diff in Hy. cbn [before_first] in Hy. rewrite Ei in Hy. cbn [Nat.eqb] in Hy. 
        assert (Eb : lbits C 0 = b) by (unfold b; rewrite Ei; reflexivity). rewrite Eb in Hy. fold ru in Hy.
        assert (K0 : (mle ru (vals C 0) + zp ru * (x0 + x1 * last ru 0) = mle ru (vals C' 0) + zp ru * (y0 + x1 * last ru 0))%F).
        { rewrite <- (vdiff_ok C C' 0 ru (x0 + x1 * last ru 0)%F Gu), Hy. ring. }
        assert (Erv : rv = repeat 0%F b) by (unfold rv, ch_v; rewrite Ei; reflexivity).
        assert (VU : forall D n n' z0 z1, zd_vu ru (layer_zdata D (S i) a be R0 R1 ru rv n n' z0 z1 zu zv pu pv) = (mle ru (vals D 0) + zp ru * (z0 + z1 * last ru 0))%F).
        { intros. rewrite Ei. unfold zd_vu, zd_S, layer_zdata. cbn [Nat.eqb zd_s0 zd_s1 zd_s2 zd_V Nat.sub]. ring. }
        assert (VV : forall D n n' z0 z1, zd_vv rv (layer_zdata D (S i) a be R0 R1 ru rv n n' z0 z1 zu zv pu pv) = vals D 0 0).
        { intros. rewrite Ei. unfold zd_vv, zd_S, layer_zdata. cbn [Nat.eqb zd_s0 zd_s1 zd_s2 zd_V Nat.sub].
          rewrite Erv, zp_zeros, mle_repeat0 by exact Hb. ring. }
        unfold X, Y. rewrite !VU, !VV. split; [exact K0|]. split; [exact H00|]. split; [intro; lia|]. split; [intro; exact K0|]. intro; lia.
      - destruct (Gv ltac:(lia)) as (Gzv & Guv & Gc). rewrite <- zp_vanishing in Gzv.
        assert (E1 : (S i =? 1) = false) by (apply Nat.eqb_neq; lia).
        assert (Ee : e = 6) by (unfold e; rewrite E1; reflexivity).
        destruct (remask_ok i ru rv rc mk' ltac:(lia) Guv Gc Gu Gzv) as (A & B & D & E). fold nk' in A, B, D, E.
        assert (VS : forall D n n' z0 z1 t, zd_S (layer_zdata D (S i) a be R0 R1 ru rv n n' z0 z1 zu zv pu pv) t = RS n' t).
        { intros. unfold zd_S, layer_zdata. rewrite E1. cbn [zd_s0 zd_s1 zd_s2]. unfold RS, poly_R. ring. }
        assert (VU : forall D n n' z0 z1, zd_vu ru (layer_zdata D (S i) a be R0 R1 ru rv n n' z0 z1 zu zv pu pv) = (mle ru (vals D i) + zp ru * RS n' (last ru 0))%F).
        { intros. unfold zd_vu. rewrite VS. unfold layer_zdata. cbn [zd_V]. replace (S i - 1) with i by lia. reflexivity. }
        assert (VV : forall D n n' z0 z1, zd_vv rv (layer_zdata D (S i) a be R0 R1 ru rv n n' z0 z1 zu zv pu pv) = (mle rv (vals D i) + zp rv * RS n' (last rv 0))%F).
        { intros. unfold zd_vv. rewrite VS. unfold layer_zdata. cbn [zd_V]. replace (S i - 1) with i by lia. reflexivity. }
        unfold X, Y. rewrite !VU, !VV. split; [exact A|]. split; [exact B|]. split.
        { intros _. rewrite Hy. unfold first_diff. cbn [before_first]. rewrite E1. reflexivity. }
        split; [intro; lia|]. intros _. split; [exact A|]. split; [exact B|]. split; [exact D|exact E]. }
    destruct KEY as (Evu & Evv & Hy' & E0' & IV').
    assert (EN : layer_nums b ru rv (ch_c (S i) v q b) (ch_rho v q) c0 mk X zu zv pu pv q1 q3 =
                 layer_nums b ru rv (ch_c (S i) v q b) (ch_rho v q) d0 nk Y zu zv pu pv p1 p3).
    { assert (Eb : lbits C (S i - 1) = b) by (unfold b; f_equal; lia).
      unfold d0. rewrite <- Eb in RL1, RL3, PL1, PL3, Lu, Lv, Lc |- *. unfold X, Y in *.
      pose proof (ol_nums (S i) a be R0 R1 ru rv mk nk mk' nk' x0 x1 y0 x1 zu zv pu pv (ch_c (S i) v q b) (ch_rho v q) ltac:(lia) L0 L1 Lu Lv Evu Evv I0 I1 O0 O1 Grh c0 Lc q1 q3 p1 p3) as ON.
      rewrite Eb in ON. unfold d0 in *. rewrite Eb in *. apply ON; assumption. }
    rewrite El, El', EN. f_equal.
    eapply (IH (q + (2 * b + 4)) _ _ ru rv mk' nk'); [lia| |exact Lu|exact Lv|exact GC|exact Hy'|exact E0'|exact IV'|exact VN|exact VN'].
    rewrite skipn_length. lia.
Qed.

Lemma run_nums_same : forall v ms l l', length ms = mask_count C -> good_challenges C v ->
  (forall g, g < 2 ^ lbits C (total_depth C - 1) -> vals C (total_depth C - 1) g = vals C' (total_depth C - 1) g) ->
  run_nums C v ms l -> run_nums C' v (remasks C C' v ms) l' -> l = l'.
Proof.
  intros v ms l l' Lm GC Ho (l1 & -> & V1) (l2 & -> & V2). pose proof (zc_pos C CC) as Dp.
  rewrite <- (tw_depth _ _ TW) in *. set (d := total_depth C) in *. rewrite !(tw_lbits (d - 1)) in * by (fold d; lia).
  set (b := lbits C (d - 1)) in *.
  assert (ER : forall R, length R = b -> mle R (vals C (d - 1)) = mle R (vals C' (d - 1))).
  { intros R LR. apply mle_ext. rewrite LR. exact Ho. }
  f_equal; [apply map_ext_in; intros g Hg; apply in_seq in Hg; apply Ho; lia|].
  rewrite ER by apply at_tape_length. f_equal.
  unfold remasks in V2. cbv zeta in V2. fold d b in V2. cbn [app nth skipn] in V2.
  eapply (vnums_same v (nth 0 ms 0%F) (nth 1 ms 0%F) _ (d - 1)); [fold d; lia| | | | | | | |exact V1|exact V2].
  - rewrite skipn_length, Lm. unfold mask_count. fold d. lia.
  - apply at_tape_length.
  - apply at_tape_length.
  - unfold good_challenges in GC. fold d b in GC. replace (b + b) with (2 * b) by lia. exact GC.
  - reflexivity.
  - intro E. pose proof (ER (at_tape v 0 b) (at_tape_length v 0 b)) as E'. rewrite E in E'. rewrite E'. ring.
  - intros _. split; [rewrite ER by apply at_tape_length; ring|]. split; [rewrite ER by apply at_tape_length; ring|]. split; reflexivity.
Qed.
Lemma remasks_length : forall v ms, length ms = mask_count C -> length (remasks C C' v ms) = mask_count C.
Proof.
  intros v ms H. unfold remasks. cbv zeta. rewrite app_length, relayers_length; [reflexivity|]. rewrite skipn_length, H. unfold mask_count. lia.
Qed.
Lemma remasks_back : forall v ms, length ms = mask_count C -> remasks C' C v (remasks C C' v ms) = ms.
Proof.
  intros v ms H. pose proof (zc_pos C CC) as Dp. unfold mask_count in H. destruct ms as [|x0 [|x1 ms]]; cbn [length] in H; try lia. unfold remasks. cbv zeta. rewrite <- (tw_depth _ _ TW). set (d := total_depth C) in *.
  rewrite !tw_lbits by (fold d; lia). set (b := lbits C (d - 1)). cbn [app nth skipn].
  assert (E0 : (x0 + first_diff C C' v (b + b) (d - 1) + first_diff C' C v (b + b) (d - 1))%F = x0).
  { unfold first_diff. rewrite tw_before, tw_lbits by (fold d; lia). set (r := ch_u _ _ _).
    transitivity (x0 + (vdiff C C' 0 r + vdiff C' C 0 r))%F; [ring|]. rewrite vdiff_opp. ring. }
  rewrite E0, relayers_back; [|fold d; lia|fold d in H; lia]. reflexivity.
Qed.
End Twins.
