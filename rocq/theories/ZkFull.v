(** * Blinding of the group elements of a zk run

    Every commitment and every witness of a run but the last one of an opening is a
    value plus an exponent of the prover times the blinding exponent of the key, and
    that prover's exponent is used for nothing else.  So exponents can be found that
    give another run the same group elements. *)
From Coq Require Import ZArith List Bool Arith Lia Ring.
From Verif Require Import Limbs Field FieldProofs Fp Base ArithProofs MleSpec GkrMath Poly PolyProofs Circuit
  FastProver FastVerifier Lazy TablesProofs FastProverProofs PhaseProofs FastVerifierProofs SpecGkr SpecVpd SpecZk SpecTranscript VpdGroup VpdR VpdMask VpdInput VpdRProofs VpdMaskProofs VpdInputProofs VpdSound
  SoundProofs ZkMaskProofs ZkRoundProofs ZkProver ZkVerifier ZkOpenProofs ZkVerifierProofs ZkComplete ZkFacts ZkIdeal ZkTarget
  TranscriptProofs ZkHide ZkView ZkGroup ZkViewProofs ZkHideProofs.
Import ListNotations.
Open Scope nat_scope.

Lemma cancel_l : forall a x y : F, a <> 0%F -> (a * x = a * y)%F -> x = y.
Proof.
  intros a x y Ha H. assert (Z : (a * (x - y) = 0)%F) by (transitivity (a * x - a * y)%F; [ring|rewrite H; ring]).
  apply F_integral in Z. destruct Z as [Z|Z]; [contradiction|]. transitivity ((x - y) + y)%F; [ring|]. rewrite Z. ring.
Qed.
(** The last witness is determined by the others, the digest and the opened value. *)
Lemma last_same : forall d (s r Q Q' t t' : nat -> F) (rf rf' sd : F), sd <> 0%F ->
  (forall i, i < d -> (Q i + sd * t i = Q' i + sd * t' i)%F) ->
  (sumn d (fun i => (s i - r i) * Q i) + sd * rf = sumn d (fun i => (s i - r i) * Q' i) + sd * rf')%F ->
  (rf + sumn d (fun i => t i * r i) - sumn d (fun i => s i * t i) = rf' + sumn d (fun i => t' i * r i) - sumn d (fun i => s i * t' i))%F.
Proof.
  intros d s r Q Q' t t' rf rf' sd Hs HQ HS. apply (cancel_l sd); [exact Hs|].
  assert (K : forall Q t rf, (sd * (rf + sumn d (fun i => t i * r i) - sumn d (fun i => s i * t i)) =
     sumn d (fun i => (s i - r i) * Q i) + sd * rf - sumn d (fun i => (s i - r i) * (Q i + sd * t i)))%F).
  { intros q u x. rewrite (sumn_ext d (fun i => (s i - r i) * (q i + sd * u i))%F (fun i => (s i - r i) * q i + sd * (s i * u i - u i * r i))%F) by (intros; ring).
    rewrite sumn_add, sumn_scal, sumn_sub. ring. }
  rewrite (K Q t rf), (K Q' t' rf'), HS. f_equal. apply sumn_ext. intros i Hi. rewrite HQ by exact Hi. reflexivity.
Qed.

(** ** One key *)
Section Keys.
Variables zf zf' : nat -> F.
(** vpdR *)
Definition visR (q : nat) (mk : list F) : F :=
  let m := fun j => nth j mk 0%F in valR (m 0) (m 1) (m 2) (m 3) (m 4) (m 5) (zf (q + 1)) (zf (q + 2)).
Definition visR0 (q : nat) (mk : list F) (r0 : F) : F :=
  let m := fun j => nth j mk 0%F in (m 2%nat * r0 + m 1%nat + zf (q + 1)%nat * m 2%nat + zf (q + 2)%nat * m 5%nat)%F.
Definition visR1 (q : nat) (mk : list F) (r0 r1 : F) : F :=
  let m := fun j => nth j mk 0%F in (m 5%nat * r0 + m 4%nat * r1 + m 3%nat + zf (q + 2)%nat * m 4%nat)%F.
Definition visM (n q : nat) (c0 : list F) : F := valM n (fun i => nth i c0 0%F) (skey zf q).
Definition visMw (n q : nat) (c0 r : list F) (i : nat) : F := quoM n (fun i => nth i c0 0%F) i (nth i r 0%F) (skey zf q i).
Definition visI (n q : nat) (V : nat -> F) : F := polyI n (coefT n V) (skey zf q).
Definition visI2 (n q : nat) (x0 x1 : F) : F := (x0 + zf (q + 1 + (n - 1))%nat * x1)%F.
Definition visIw (n q : nat) (V : nat -> F) (x0 x1 zu : F) (r : list F) (k : nat) : F :=
  sumn (2 ^ k) (fun j => mono k (skey zf q) j * quoI n (fun i => nth i r 0) (opened n (coefT n V) x0 x1 zu) k j)%F.
End Keys.

Section Same.
Variables zf zf' : nat -> F.
Lemma openR_same : forall q qt mk nk r0 r1, (forall j, j < 4 -> zf' (q + j) = zf (q + j)) -> zf (q + 3) <> 0%F ->
  (visR zf q mk + zf (q + 3)%nat * zf (q + 4)%nat = visR zf q nk + zf (q + 3)%nat * zf' (q + 4)%nat)%F ->
  (visR0 zf q mk r0 + zf (q + 3)%nat * zf qt = visR0 zf q nk r0 + zf (q + 3)%nat * zf' qt)%F ->
  (visR1 zf q mk r0 r1 + zf (q + 3)%nat * zf (qt + 1)%nat = visR1 zf q nk r0 r1 + zf (q + 3)%nat * zf' (qt + 1)%nat)%F ->
  poly_R (fun j => nth j mk 0%F) r0 r1 = poly_R (fun j => nth j nk 0%F) r0 r1 ->
  openR_group zf q qt mk r0 r1 = openR_group zf' q qt nk r0 r1.
Proof.
  intros q qt mk nk r0 r1 K Hs H H0 H1 HO. pose proof (K 0 ltac:(lia)) as K0. rewrite Nat.add_0_r in K0.
  unfold openR_group. rewrite K0, (K 1), (K 2), (K 3) by lia. f_equal. unfold witR.
  unfold visR, valR in H. unfold visR0 in H0. unfold visR1 in H1. unfold poly_R in HO.
  set (s0 := zf (q + 1)) in *. set (s1 := zf (q + 2)) in *. set (s2 := zf (q + 3)) in *.
  f_equal; [exact H0|f_equal; [exact H1|]].
  f_equal. apply (cancel_l s2); [exact Hs|].
  match type of H with (?x + _ = ?y + _)%F => set (V := x) in *; set (V' := y) in * end.
  match type of H0 with (?x + _ = ?y + _)%F => set (Q0 := x) in *; set (Q0' := y) in * end.
  match type of H1 with (?x + _ = ?y + _)%F => set (Q1 := x) in *; set (Q1' := y) in * end.
  match type of HO with ?x = ?y => set (O := x) in *; set (O' := y) in * end.
  assert (E : (V - O = (s0 - r0) * Q0 + (s1 - r1) * Q1)%F) by (unfold V, O, Q0, Q1; ring).
  assert (E' : (V' - O' = (s0 - r0) * Q0' + (s1 - r1) * Q1')%F) by (unfold V', O', Q0', Q1'; ring).
  clearbody Q0 Q0' Q1 Q1' V V' O O'.
  assert (KK : forall V O Q0 Q1 t0 t1 rf, (V - O = (s0 - r0) * Q0 + (s1 - r1) * Q1)%F ->
    (s2 * (rf + r0 * t0 + r1 * t1 - s0 * t0 - s1 * t1) = (V + s2 * rf) - O - (s0 - r0) * (Q0 + s2 * t0) - (s1 - r1) * (Q1 + s2 * t1))%F).
  { intros V0 O0 q0 q1 t0 t1 rf HE.
    transitivity ((V0 + s2 * rf) - O0 - (s0 - r0) * (q0 + s2 * t0) - (s1 - r1) * (q1 + s2 * t1) - ((V0 - O0) - ((s0 - r0) * q0 + (s1 - r1) * q1)))%F; [ring|].
    rewrite HE. ring. }
  rewrite (KK _ _ _ _ _ _ _ E), (KK _ _ _ _ _ _ _ E'), H, H0, H1, HO. reflexivity.
Qed.
Lemma comR_same : forall q mk nk, (forall j, j < 4 -> zf' (q + j) = zf (q + j)) ->
  (visR zf q mk + zf (q + 3)%nat * zf (q + 4)%nat = visR zf q nk + zf (q + 3)%nat * zf' (q + 4)%nat)%F ->
  maskR_group zf q mk = maskR_group zf' q nk.
Proof.
  intros q mk nk K H. pose proof (K 0 ltac:(lia)) as K0. rewrite Nat.add_0_r in K0.
  assert (E : comR zf q mk = comR zf' q nk).
  { unfold comR. rewrite (K 1), (K 2), (K 3) by lia. unfold visR in H. cbv zeta in H |- *.
    transitivity (valR (nth 0 mk 0%F) (nth 1 mk 0%F) (nth 2 mk 0%F) (nth 3 mk 0%F) (nth 4 mk 0%F) (nth 5 mk 0%F) (zf (q + 1)) (zf (q + 2)) + zf (q + 3)%nat * zf (q + 4)%nat)%F; [ring|].
    rewrite H. ring. }
  unfold maskR_group. rewrite E, K0, (K 1), (K 2), (K 3) by lia. reflexivity.
Qed.

Lemma skey_same : forall n q, (forall j, j < n + 2 -> zf' (q + j) = zf (q + j)) -> forall i, i <= n -> skey zf' q i = skey zf q i.
Proof. intros n q K i Hi. unfold skey. rewrite <- !Nat.add_assoc. apply K. lia. Qed.
Lemma exps_same : forall n q, (forall j, j < n + 2 -> zf' (q + j) = zf (q + j)) -> exps zf' (q + 1) (n + 1) = exps zf (q + 1) (n + 1).
Proof.
  intros n q K. unfold exps. apply map_ext_in. intros i Hi. apply in_seq in Hi. rewrite <- !Nat.add_assoc, K by lia. reflexivity.
Qed.
Lemma valM_at : forall n c x y, (forall i, i < n -> x i = y i) -> valM n c x = valM n c y.
Proof. intros n c x y H. unfold valM. f_equal. apply sumn_ext. intros i Hi. rewrite H by exact Hi. reflexivity. Qed.
Lemma comM_same : forall n q c0 d0, (forall j, j < n + 2 -> zf' (q + j) = zf (q + j)) ->
  (visM zf n q c0 + zf (q + 1 + n)%nat * zf (q + n + 2)%nat = visM zf n q d0 + zf (q + 1 + n)%nat * zf' (q + n + 2)%nat)%F ->
  maskM_group zf n q c0 = maskM_group zf' n q d0.
Proof.
  intros n q c0 d0 K H. pose proof (K 0 ltac:(lia)) as K0. rewrite Nat.add_0_r in K0.
  assert (E : comM zf n q c0 = comM zf' n q d0).
  { unfold comM. unfold visM in H. rewrite (valM_at n (fun i => nth i d0 0%F) (skey zf' q) (skey zf q)) by (intros; apply (skey_same n); [exact K|lia]).
    change (zf' (q + 1 + n)) with (skey zf' q n). rewrite (skey_same n q K n (le_n n)). change (skey zf q n) with (zf (q + 1 + n)).
    transitivity (valM n (fun i => nth i c0 0%F) (skey zf q) + zf (q + 1 + n)%nat * zf (q + n + 2)%nat)%F; [ring|]. rewrite H. ring. }
  unfold maskM_group. rewrite E, K0, (exps_same n q K). reflexivity.
Qed.
Lemma quoM_ext : forall n c c' i r x, 3 <= n -> i < n -> (forall j, j < 2 * n + 7 -> c j = c' j) -> quoM n c i r x = quoM n c' i r x.
Proof.
  intros n c c' i r x Hn Hi H. unfold quoM, quo5.
  rewrite !(H (2 * i)), !(H (2 * i + 1)), !(H (2 * n + 4)), !(H (2 * n + 4 + 1)), !(H (2 * n + 4 + 2)), !(H (2 * n + 1)), !(H (2 * n + 1 + 1)), !(H (2 * n + 1 + 2)) by lia. reflexivity.
Qed.
Lemma sum_quoM : forall n c r s, 3 <= n -> (sumn n (fun i => (s i - r i) * quoM n c i (r i) (s i)) = valM n c s - valM n c r)%F.
Proof.
  intros n c r s Hn. rewrite (sumn_ext n _ (fun i => partM n c i (s i) - partM n c i (r i))%F) by (intros; rewrite quoM_ok by exact Hn; reflexivity).
  rewrite sumn_sub. unfold valM. ring.
Qed.
Lemma openM_same : forall n q qt c0 d0 r, 3 <= n -> (forall j, j < n + 2 -> zf' (q + j) = zf (q + j)) -> zf (q + 1 + n) <> 0%F ->
  (visM zf n q c0 + zf (q + 1 + n)%nat * zf (q + n + 2)%nat = visM zf n q d0 + zf (q + 1 + n)%nat * zf' (q + n + 2)%nat)%F ->
  (forall i, i < n -> (visMw zf n q c0 r i + zf (q + 1 + n)%nat * zf (qt + i)%nat = visMw zf n q d0 r i + zf (q + 1 + n)%nat * zf' (qt + i)%nat)%F) ->
  mask_poly n (fun j => nth j c0 0%F) (fun j => nth j r 0%F) = mask_poly n (fun j => nth j d0 0%F) (fun j => nth j r 0%F) ->
  openM_group zf n q qt c0 r = openM_group zf' n q qt d0 r.
Proof.
  intros n q qt c0 d0 r Hn K Hs H HW HO. pose proof (K 0 ltac:(lia)) as K0. rewrite Nat.add_0_r in K0.
  unfold openM_group. rewrite K0. f_equal. apply map_ext_in. intros i Hi. apply in_seq in Hi.
  unfold visM in H. rewrite <- !partM_mask in HO by exact Hn. change (zf (q + 1 + n)) with (skey zf q n) in *. unfold visMw in HW.
  pose proof (skey_same n q K) as KS.
  set (c := fun i => nth i c0 0%F) in *. set (d := fun i => nth i d0 0%F) in *. set (R := fun i => nth i r 0%F) in *.
  change (nth ?i r 0%F) with (R i) in HW.
  assert (QE : forall c0 rf i x, i < n -> quoM n (coefM n c0 rf) i (R i) x = quoM n (fun i => nth i c0 0%F) i (R i) x).
  { intros. apply quoM_ext; [exact Hn|assumption|]. intros. apply coefM_in. assumption. }
  unfold witM. rewrite !KS by lia. rewrite !coefM_last. destruct (Nat.ltb_spec i n) as [Hl|Hl].
  - rewrite !QE, ?KS by lia. apply HW, Hl.
  - rewrite (sumn_ext n (fun i => skey zf' q i * zf' (qt + i)%nat)%F (fun i => skey zf q i * zf' (qt + i)%nat)%F) by (intros j Hj; rewrite KS by lia; reflexivity).
    apply (last_same n (skey zf q) R (fun i => quoM n c i (R i) (skey zf q i)) (fun i => quoM n d i (R i) (skey zf q i)) _ _ _ _ (skey zf q n)); [exact Hs|exact HW|].
    rewrite !sum_quoM by exact Hn. rewrite HO.
    transitivity ((valM n c (skey zf q) + skey zf q n * zf (q + n + 2)%nat) - valM n d R)%F; [ring|]. rewrite H. ring.
Qed.

(** *** inputvpd *)
Lemma mono_ext : forall k x y j, (forall i, i < k -> x i = y i) -> mono k x j = mono k y j.
Proof. intros k x y j H. unfold mono. apply prodn_ext. intros i Hi. rewrite H by exact Hi. reflexivity. Qed.
Lemma polyI_at : forall n c x y, (forall i, i < n -> x i = y i) -> polyI n c x = polyI n c y.
Proof. intros n c x y H. unfold polyI. apply sumn_ext. intros j Hj. rewrite (mono_ext n x y) by exact H. reflexivity. Qed.
Lemma polyI_mle : forall n V r, length r = n -> polyI n (coefT n V) (fun i => nth i r 0%F) = mle r V.
Proof.
  intros n V r L. rewrite <- (coefT_mle r V), L. unfold polyI. apply sumn_ext. intros j Hj. rewrite monol_mono, L. ring.
Qed.
Lemma commit_same : forall n q V V' x0 x1 y0 y1, 1 <= n -> (forall j, j < n + 2 -> zf' (q + j) = zf (q + j)) ->
  (visI zf n q V + zf (q + 1 + n)%nat * zf (q + n + 2)%nat = visI zf n q V' + zf (q + 1 + n)%nat * zf' (q + n + 2)%nat)%F ->
  (visI2 zf n q x0 x1 + zf (q + 1 + n)%nat * zf (q + n + 2 + 1)%nat = visI2 zf n q y0 y1 + zf (q + 1 + n)%nat * zf' (q + n + 2 + 1)%nat)%F ->
  commit_group zf n q V x0 x1 = commit_group zf' n q V' y0 y1.
Proof.
  intros n q V V' x0 x1 y0 y1 Hn K H H2. pose proof (K 0 ltac:(lia)) as K0. rewrite Nat.add_0_r in K0.
  pose proof (skey_same n q K) as KS. unfold visI, visI2 in *. change (zf (q + 1 + n)) with (skey zf q n) in *.
  change (zf (q + 1 + (n - 1))) with (skey zf q (n - 1)) in *.
  assert (E : comI zf n q V = comI zf' n q V').
  { unfold comI. change (zf (q + 1 + n)) with (skey zf q n). change (zf' (q + 1 + n)) with (skey zf' q n).
    rewrite (polyI_at n _ (skey zf' q) (skey zf q)) by (intros; apply KS; lia). rewrite KS by lia. exact H. }
  assert (E2 : comI2 zf n q x0 x1 = comI2 zf' n q y0 y1).
  { unfold comI2. change (zf (q + 1 + n)) with (skey zf q n). change (zf' (q + 1 + n)) with (skey zf' q n).
    change (zf (q + 1 + (n - 1))) with (skey zf q (n - 1)). change (zf' (q + 1 + (n - 1))) with (skey zf' q (n - 1)).
    rewrite !KS by lia. exact H2. }
  unfold commit_group. rewrite E, E2, K0, (exps_same n q K). reflexivity.
Qed.
Lemma openI_same : forall n q qt V V' x0 x1 y0 y1 zu r, 1 <= n < 31 -> length r = n -> (forall j, j < n + 2 -> zf' (q + j) = zf (q + j)) -> zf (q + 1 + n) <> 0%F ->
  (visI zf n q V + zf (q + 1 + n)%nat * zf (q + n + 2)%nat = visI zf n q V' + zf (q + 1 + n)%nat * zf' (q + n + 2)%nat)%F ->
  (visI2 zf n q x0 x1 + zf (q + 1 + n)%nat * zf (q + n + 2 + 1)%nat = visI2 zf n q y0 y1 + zf (q + 1 + n)%nat * zf' (q + n + 2 + 1)%nat)%F ->
  (forall i, i < n -> (visIw zf n q V x0 x1 zu r i + zf (q + 1 + n)%nat * zf (qt + i)%nat = visIw zf n q V' y0 y1 zu r i + zf (q + 1 + n)%nat * zf' (qt + i)%nat)%F) ->
  (mle r V + zu * (x0 + x1 * last r 0) = mle r V' + zu * (y0 + y1 * last r 0))%F ->
  openI_group zf n q qt V x0 x1 zu r = openI_group zf' n q qt V' y0 y1 zu r.
Proof.
  intros n q qt V V' x0 x1 y0 y1 zu r Hn Lr K Hs H H2 HW HO. pose proof (K 0 ltac:(lia)) as K0. rewrite Nat.add_0_r in K0.
  pose proof (skey_same n q K) as KS. unfold visI, visI2, visIw in *. change (zf (q + 1 + n)) with (skey zf q n) in *.
  change (zf (q + 1 + (n - 1))) with (skey zf q (n - 1)) in *.
  unfold openI_group. rewrite K0. f_equal. apply map_ext_in. intros i Hi. apply in_seq in Hi.
  set (R := fun i => nth i r 0%F) in *.
  unfold witI. rewrite !KS by lia. destruct (Nat.ltb_spec i n) as [Hl|Hl].
  - rewrite HW by exact Hl. f_equal. apply sumn_ext. intros j Hj. f_equal. apply mono_ext. intros k Hk. symmetry. apply KS. lia.
  - rewrite (sumn_ext n (fun i => skey zf' q i * zf' (qt + i)%nat)%F (fun i => skey zf q i * zf' (qt + i)%nat)%F) by (intros j Hj; rewrite KS by lia; reflexivity).
    apply (last_same n (skey zf q) R (fun k => sumn (2 ^ k) (fun j => mono k (skey zf q) j * quoI n R (opened n (coefT n V) x0 x1 zu) k j))%F
      (fun k => sumn (2 ^ k) (fun j => mono k (skey zf q) j * quoI n R (opened n (coefT n V') y0 y1 zu) k j))%F _ _ _ _ (skey zf q n)); [exact Hs|exact HW|].
    rewrite <- !(poly_quotients n (repeat 0%Z n) R Hn (repeat_length 0%Z n)). rewrite !polyI_opened by exact Hn.
    assert (EM : forall W, polyI n (coefT n W) R = mle r W) by (intro W; apply polyI_mle, Lr). rewrite !EM.
    assert (EL : R (n - 1) = last r 0%F) by (unfold R; symmetry; apply last_nth', Lr).
    rewrite EL. set (s := skey zf q) in *.
    transitivity ((polyI n (coefT n V) s + s n * zf (q + n + 2)%nat) + zu * (x0 + s (n - 1)%nat * x1 + s n * zf (q + n + 2 + 1)%nat) - (mle r V + zu * (x0 + x1 * last r 0)))%F; [ring|].
    rewrite H, H2, HO. ring.
Qed.
End Same.

(** ** The exponents of a run: keys and blinders *)
(** Offset [o] in the exponents of a layer is a blinder, not part of a key. *)
Definition lblind (b o : nat) : bool := let n := 2 * b + 1 in (o =? 4) || (o =? 7 + n) || ((8 + n <=? o) && (o <? 12 + 2 * n)).
(** What that blinder hides, and the exponent of the key it is multiplied by. *)
Definition lvis (zf : nat -> F) (b z : nat) (mk c0 r : list F) (rc pu pv : F) (o : nat) : F :=
  let n := 2 * b + 1 in
  if o =? 4 then visR zf z mk else if o =? 7 + n then visM zf n (z + 5) c0
  else if o =? 8 + n then visR0 zf z mk pu else if o =? 9 + n then visR1 zf z mk pu rc
  else if o =? 10 + n then visR0 zf z mk pv else if o =? 11 + n then visR1 zf z mk pv rc
  else visMw zf n (z + 5) c0 r (o - (12 + n)).
Definition lkey (b o : nat) : nat := let n := 2 * b + 1 in if (o =? 4) || ((8 + n <=? o) && (o <? 12 + n)) then 3 else 6 + n.

Fixpoint layers_blind (C : layered_circuit) (i z k : nat) : bool :=
  match i with
  | O => (z <=? k) && (k <? z + lbits C 0)
  | S j => let b := lbits C j in if k <? z + lstep b then (z <=? k) && lblind b (k - z) else layers_blind C j (z + lstep b) k
  end.
Fixpoint layers_key (C : layered_circuit) (i z k : nat) : nat :=
  match i with
  | O => 1 + lbits C 0
  | S j => let b := lbits C j in if k <? z + lstep b then z + lkey b (k - z) else layers_key C j (z + lstep b) k
  end.
Fixpoint layers_vis (C : layered_circuit) (v : list F) (zf : nat -> F) (x0 x1 : F) (i q z : nat) (R0 mk : list F) (zu pu pv : F) (w : list F) (k : nat) : F :=
  match i with
  | O => visIw zf (lbits C 0) 0 (vals C 0) x0 x1 zu R0 (k - z)
  | S j =>
    let b := lbits C j in let e := if i =? 1 then 0 else 6 in
    let ru := ch_u v q b in let rv := ch_v i v q b in let rc := ch_c i v q b in
    let mk' := firstn e w in let c0 := firstn (4 * b + 9) (skipn e w) in
    if k <? z + lstep b then lvis zf b z mk c0 (ru ++ rv ++ [rc]) rc pu pv (k - z)
    else layers_vis C v zf x0 x1 j (q + (2 * b + 4)) (z + lstep b) ru mk' (zp ru) (last ru 0%F) (last rv 0%F) (skipn (e + (4 * b + 9)) w) k
  end.
Fixpoint layers_expos (C : layered_circuit) (i : nat) : nat := match i with O => lbits C 0 | S j => lstep (lbits C j) + layers_expos C j end.
(** The blinding exponents of the keys of the layers are not zero. *)
Fixpoint layers_good (C : layered_circuit) (zf : nat -> F) (i z : nat) : Prop :=
  match i with
  | O => True
  | S j => let b := lbits C j in zf (z + 3) <> 0%F /\ zf (z + (6 + (2 * b + 1))) <> 0%F /\ layers_good C zf j (z + lstep b)
  end.

(** The whole run. *)
Definition run_blind (C : layered_circuit) (k : nat) : bool :=
  let n := lbits C 0 in if k <? n + 4 then n + 2 <=? k else layers_blind C (total_depth C - 1) (n + 4) k.
Definition run_key (C : layered_circuit) (k : nat) : nat :=
  let n := lbits C 0 in if k <? n + 4 then 1 + n else layers_key C (total_depth C - 1) (n + 4) k.
Definition run_vis (C : layered_circuit) (v ms : list F) (zf : nat -> F) (k : nat) : F :=
  let d := total_depth C in let b := lbits C (d - 1) in let n := lbits C 0 in
  let x0 := nth 0 ms 0%F in let x1 := nth 1 ms 0%F in
  if k =? n + 2 then visI zf n 0 (vals C 0) else if k =? n + 3 then visI2 zf n 0 x0 x1
  else layers_vis C v zf x0 x1 (d - 1) (b + b) (n + 4) (at_tape v 0 b) (repeat 0%F 6) 0%F 0%F 0%F (skipn 2 ms) k.
(** The number of exponents the prover draws. *)
Definition expo_count (C : layered_circuit) : nat := lbits C 0 + 4 + layers_expos C (total_depth C - 1).
Definition expo (zs : list F) : nat -> F := fun k => nth k zs 0%F.
(** The blinding exponents of all keys are not zero. *)
Definition good_exponents (C : layered_circuit) (zs : list F) : Prop :=
  expo zs (1 + lbits C 0) <> 0%F /\ layers_good C (expo zs) (total_depth C - 1) (lbits C 0 + 4).

(** The exponents of the second run. *)
Definition eshift (C C' : layered_circuit) (v ms ms' : list F) (zf : nat -> F) (k : nat) : F :=
  if run_blind C k then ((run_vis C v ms zf k - run_vis C' v ms' zf k) * Finv (zf (run_key C k)))%F else 0%F.
Definition rezs (C C' : layered_circuit) (v ms ms' zs : list F) : list F := lshift zs (eshift C C' v ms ms' (expo zs)).

Ltac oo := repeat (match goal with
  | |- context [?x =? ?y] => destruct (Nat.eqb_spec x y); try lia
  | |- context [?x <? ?y] => destruct (Nat.ltb_spec x y); try lia
  | |- context [?x <=? ?y] => destruct (Nat.leb_spec x y); try lia end); cbn [orb andb]; try reflexivity; try lia.

(** *** One layer *)
Lemma lblind_range : forall b o, lblind b o = true -> o < lstep b.
Proof.
  intros b o. unfold lblind, lstep. cbv zeta. rewrite !orb_true_iff, andb_true_iff, !Nat.eqb_eq, Nat.leb_le, Nat.ltb_lt. lia.
Qed.
Section LayerKeys.
Variables (zf zf' : nat -> F) (b z : nat).
Hypothesis HB : forall o, o < lstep b -> lblind b o = false -> zf' (z + o) = zf (z + o).
Let n := 2 * b + 1.
Lemma lk_R : forall j, j < 4 -> zf' (z + j) = zf (z + j).
Proof. intros j Hj. apply HB; [unfold lstep; lia|]. unfold lblind. cbv zeta. oo. Qed.
Lemma lk_M : forall j, j < n + 2 -> zf' (z + 5 + j) = zf (z + 5 + j).
Proof. intros j Hj. rewrite <- Nat.add_assoc. unfold n in Hj. apply HB; [unfold lstep; lia|]. unfold lblind. cbv zeta. oo. Qed.
Lemma lvis_ext : forall mk c0 r rc pu pv o, lblind b o = true -> lvis zf' b z mk c0 r rc pu pv o = lvis zf b z mk c0 r rc pu pv o.
Proof.
  intros mk c0 r rc pu pv o Ho. unfold lvis. cbv zeta. fold n. unfold visR, visR0, visR1, visM, visMw. cbv zeta.
  rewrite (lk_R 1), (lk_R 2) by lia. rewrite (valM_at n _ (skey zf' (z + 5)) (skey zf (z + 5))) by (intros; apply (skey_same zf zf' n); [exact lk_M|lia]).
  destruct (Nat.eqb_spec o 4); [reflexivity|]. destruct (Nat.eqb_spec o (7 + n)); [reflexivity|].
  do 4 (match goal with |- context [?x =? ?y] => destruct (Nat.eqb_spec x y); [reflexivity|] end).
  rewrite (skey_same zf zf' n (z + 5) lk_M); [reflexivity|].
  unfold lblind in Ho. cbv zeta in Ho. fold n in Ho. rewrite !orb_true_iff, andb_true_iff, !Nat.eqb_eq, Nat.leb_le, Nat.ltb_lt in Ho. lia.
Qed.
Hypothesis Hb : 1 <= b.
Lemma layer_same : forall mk nk c0 d0 ru rv rc pu pv, zf (z + 3) <> 0%F -> zf (z + (6 + n)) <> 0%F ->
  (forall o, lblind b o = true -> (lvis zf b z mk c0 (ru ++ rv ++ [rc]) rc pu pv o + zf (z + lkey b o)%nat * zf (z + o)%nat =
    lvis zf b z nk d0 (ru ++ rv ++ [rc]) rc pu pv o + zf (z + lkey b o)%nat * zf' (z + o)%nat)%F) ->
  poly_R (fun j => nth j mk 0%F) pu rc = poly_R (fun j => nth j nk 0%F) pu rc ->
  poly_R (fun j => nth j mk 0%F) pv rc = poly_R (fun j => nth j nk 0%F) pv rc ->
  mask_poly n (fun j => nth j c0 0%F) (fun j => nth j (ru ++ rv ++ [rc]) 0%F) = mask_poly n (fun j => nth j d0 0%F) (fun j => nth j (ru ++ rv ++ [rc]) 0%F) ->
  layer_group zf b z mk c0 ru rv rc pu pv = layer_group zf' b z nk d0 ru rv rc pu pv.
Proof.
  intros mk nk c0 d0 ru rv rc pu pv K3 K6 HV O0 O1 OM. set (r := ru ++ rv ++ [rc]) in *.
  assert (V4 : (visR zf z mk + zf (z + 3)%nat * zf (z + 4)%nat = visR zf z nk + zf (z + 3)%nat * zf' (z + 4)%nat)%F) by (exact (HV 4 eq_refl)).
  assert (L : forall o A B K, lblind b o = true -> (forall mk c0, lvis zf b z mk c0 r rc pu pv o = A mk c0) -> lkey b o = K -> B = z + o ->
    (A mk c0 + zf (z + K)%nat * zf B = A nk d0 + zf (z + K)%nat * zf' B)%F).
  { intros o A B K Ho EA <- ->. rewrite <- !EA. apply HV, Ho. }
  unfold layer_group. cbv zeta. fold n r.
  assert (VM : (visM zf n (z + 5) c0 + zf (z + 5 + 1 + n)%nat * zf (z + 5 + n + 2)%nat = visM zf n (z + 5) d0 + zf (z + 5 + 1 + n)%nat * zf' (z + 5 + n + 2)%nat)%F).
  { replace (z + 5 + 1 + n) with (z + (6 + n)) by lia. apply (L (7 + n) (fun _ c0 => visM zf n (z + 5) c0)); [..|lia].
    - unfold lblind. cbv zeta. fold n. oo.
    - intros. unfold lvis. cbv zeta. fold n. oo.
    - unfold lkey. cbv zeta. fold n. oo. }
  rewrite (comR_same zf zf' z mk nk lk_R V4). f_equal.
  rewrite (comM_same zf zf' n (z + 5) c0 d0 lk_M VM). f_equal.
  f_equal; [|f_equal].
  - apply openR_same; [exact lk_R|exact K3|exact V4| | |exact O0].
    + apply (L (8 + n) (fun mk _ => visR0 zf z mk pu)); [..|lia].
      * unfold lblind. cbv zeta. fold n. oo.
      * intros. unfold lvis. cbv zeta. fold n. oo.
      * unfold lkey. cbv zeta. fold n. oo.
    + apply (L (9 + n) (fun mk _ => visR1 zf z mk pu rc)); [..|lia].
      * unfold lblind. cbv zeta. fold n. oo.
      * intros. unfold lvis. cbv zeta. fold n. oo.
      * unfold lkey. cbv zeta. fold n. oo.
  - apply openR_same; [exact lk_R|exact K3|exact V4| | |exact O1].
    + apply (L (10 + n) (fun mk _ => visR0 zf z mk pv)); [..|lia].
      * unfold lblind. cbv zeta. fold n. oo.
      * intros. unfold lvis. cbv zeta. fold n. oo.
      * unfold lkey. cbv zeta. fold n. oo.
    + apply (L (11 + n) (fun mk _ => visR1 zf z mk pv rc)); [..|lia].
      * unfold lblind. cbv zeta. fold n. oo.
      * intros. unfold lvis. cbv zeta. fold n. oo.
      * unfold lkey. cbv zeta. fold n. oo.
  - apply openM_same; [unfold n; lia|exact lk_M|replace (z + 5 + 1 + n) with (z + (6 + n)) by lia; exact K6|exact VM| |exact OM].
    intros i Hi. replace (z + 5 + 1 + n) with (z + (6 + n)) by lia. apply (L (12 + n + i) (fun _ c0 => visMw zf n (z + 5) c0 r i)); [..|lia].
    + unfold lblind. cbv zeta. fold n. oo.
    + intros. unfold lvis. cbv zeta. fold n. oo. replace (12 + n + i - (12 + n)) with i by lia. reflexivity.
    + unfold lkey. cbv zeta. fold n. oo.
Qed.
End LayerKeys.

(** *** From a layer on *)
Lemma rlog_same_length : forall b k n f g l l', rlog b k n f l -> rlog b k n g l' -> length l = length l'.
Proof.
  intros b k n f g l l' (qs & Lq & Hq & ->) (ps & Lp & Hp & ->).
  assert (H : forall j, j < n -> length (nth j qs []) = length (nth j ps [])).
  { intros j Hj. destruct (Hq j Hj) as [-> _]. destruct (Hp j Hj) as [-> _]. reflexivity. }
  clear Hq Hp. revert ps n Lq Lp H. induction qs as [|q qs IH]; intros ps n Lq Lp H.
  - destruct ps as [|p ps]; [reflexivity|]. cbn [length] in *. lia.
  - destruct ps as [|p ps]; cbn [length] in *; [lia|]. destruct n as [|n]; [lia|]. cbn [concat]. rewrite !app_length.
    f_equal; [exact (H 0 ltac:(lia))|]. apply (IH ps n); [lia|lia|]. intros j Hj. exact (H (S j) ltac:(lia)).
Qed.
Lemma app_split : forall A (a b c d : list A), length a = length c -> a ++ b = c ++ d -> a = c /\ b = d.
Proof.
  intros A a. induction a as [|x a IH]; intros b c d L E; destruct c as [|y c]; cbn [length app] in *; try lia; [auto|].
  injection E as -> E. destruct (IH b c d ltac:(lia) E) as [-> ->]. auto.
Qed.
Lemma layer_nums_split : forall b ru rv rc rh c0 d0 mk nk X Y zu zv pu pv q1 q3 p1 p3 l l', length q1 = length p1 -> length q3 = length p3 ->
  layer_nums b ru rv rc rh c0 mk X zu zv pu pv q1 q3 ++ l = layer_nums b ru rv rc rh d0 nk Y zu zv pu pv p1 p3 ++ l' ->
  poly_R (fun j => nth j mk 0%F) pu rc = poly_R (fun j => nth j nk 0%F) pu rc /\
  poly_R (fun j => nth j mk 0%F) pv rc = poly_R (fun j => nth j nk 0%F) pv rc /\
  mask_poly (2 * b + 1) (fun j => nth j c0 0%F) (fun j => nth j (ru ++ rv ++ [rc]) 0%F) = mask_poly (2 * b + 1) (fun j => nth j d0 0%F) (fun j => nth j (ru ++ rv ++ [rc]) 0%F) /\
  l = l'.
Proof.
  intros b ru rv rc rh c0 d0 mk nk X Y zu zv pu pv q1 q3 p1 p3 l l' L1 L3 E. unfold layer_nums in E. cbv zeta in E.
  rewrite <- !app_assoc in E.
  apply app_split in E; [destruct E as [_ E]|reflexivity]. apply app_split in E; [destruct E as [_ E]|exact L1].
  apply app_split in E; [destruct E as [_ E]|reflexivity]. apply app_split in E; [destruct E as [_ E]|exact L3].
  apply app_split in E; [destruct E as [E El]|reflexivity].
  split; [exact (f_equal (fun l => nth 0 l 0%F) E)|]. split; [exact (f_equal (fun l => nth 1 l 0%F) E)|].
  split; [exact (f_equal (fun l => nth 2 l 0%F) E)|exact El].
Qed.
Lemma blind_ge : forall C i z k, layers_blind C i z k = true -> z <= k.
Proof.
  intros C i. induction i as [|i IH]; intros z k H; cbn [layers_blind] in H.
  - apply andb_true_iff in H. destruct H as [H _]. apply Nat.leb_le, H.
  - cbv zeta in H. destruct (Nat.ltb_spec k (z + lstep (lbits C i))) as [Hk|Hk].
    + apply andb_true_iff in H. destruct H as [H _]. apply Nat.leb_le, H.
    + lia.
Qed.

Section Pair.
Variables C C' : layered_circuit.
Hypothesis CC : zcomplete_circuit C.
Hypothesis TW : twins C C'.
Let TL := tw_lbits C C' TW.
Lemma tw_blind : forall i z k, i < total_depth C -> layers_blind C' i z k = layers_blind C i z k.
Proof.
  induction i as [|i IH]; intros z k Hi; cbn [layers_blind]; rewrite TL by lia; [reflexivity|]. cbv zeta.
  destruct (k <? z + lstep (lbits C i)); [reflexivity|]. apply IH. lia.
Qed.
Lemma tw_key : forall i z k, i < total_depth C -> layers_key C' i z k = layers_key C i z k.
Proof.
  induction i as [|i IH]; intros z k Hi; cbn [layers_key]; rewrite TL by lia; [reflexivity|]. cbv zeta.
  destruct (k <? z + lstep (lbits C i)); [reflexivity|]. apply IH. lia.
Qed.
Lemma tw_good : forall zf i z, i < total_depth C -> layers_good C' zf i z <-> layers_good C zf i z.
Proof.
  intro zf. induction i as [|i IH]; intros z Hi; cbn [layers_good]; [tauto|]. cbv zeta. rewrite TL, IH by lia. tauto.
Qed.
Lemma tw_expos : forall i, i < total_depth C -> layers_expos C' i = layers_expos C i.
Proof. induction i as [|i IH]; intro Hi; cbn [layers_expos]; rewrite TL by lia; [reflexivity|]. rewrite IH by lia. reflexivity. Qed.

Section Exps.
Variables zf zf' : nat -> F.
Hypothesis HI : forall j, j < lbits C 0 + 2 -> zf' j = zf j.

Lemma key_same : forall i z k, i < total_depth C -> (forall k, z <= k -> layers_blind C i z k = false -> zf' k = zf k) ->
  layers_blind C i z k = true -> zf' (layers_key C i z k) = zf (layers_key C i z k).
Proof.
  induction i as [|i IH]; intros z k Hi HB Hk; cbn [layers_key].
  - apply HI. lia.
  - cbn [layers_blind] in HB, Hk. cbv zeta in HB, Hk |- *. set (b := lbits C i) in *.
    destruct (Nat.ltb_spec k (z + lstep b)) as [L|L].
    + assert (HB' : forall o, o < lstep b -> lblind b o = false -> zf' (z + o) = zf (z + o)).
      { intros o Ho Hl. apply HB; [lia|]. destruct (Nat.ltb_spec (z + o) (z + lstep b)); [|lia]. replace (z + o - z) with o by lia. rewrite Hl. apply andb_false_r. }
      unfold lkey. cbv zeta. destruct (_ || _); [apply (lk_R zf zf' b z HB'); lia|].
      replace (z + (6 + (2 * b + 1))) with (z + 5 + (1 + (2 * b + 1))) by lia. apply (lk_M zf zf' b z HB'). lia.
    + apply IH; [lia| |exact Hk]. intros k' Hk' E. apply HB; [lia|]. destruct (Nat.ltb_spec k' (z + lstep b)); [lia|exact E].
Qed.
Lemma good_same : forall i z, i < total_depth C -> (forall k, z <= k -> layers_blind C i z k = false -> zf' k = zf k) ->
  layers_good C zf i z -> layers_good C zf' i z.
Proof.
  induction i as [|i IH]; intros z Hi HB; cbn [layers_good]; [auto|]. cbn [layers_blind] in HB. cbv zeta in HB |- *. set (b := lbits C i) in *.
  assert (HB' : forall o, o < lstep b -> lblind b o = false -> zf' (z + o) = zf (z + o)).
  { intros o Ho Hl. apply HB; [lia|]. destruct (Nat.ltb_spec (z + o) (z + lstep b)); [|lia]. replace (z + o - z) with o by lia. rewrite Hl. apply andb_false_r. }
  intros (K3 & K6 & G). rewrite (lk_R zf zf' b z HB' 3) by lia. split; [exact K3|]. split.
  - replace (z + (6 + (2 * b + 1))) with (z + 5 + (1 + (2 * b + 1))) in * by lia. rewrite (lk_M zf zf' b z HB') by lia. exact K6.
  - apply IH; [lia| |exact G]. intros k' Hk' E. apply HB; [lia|]. destruct (Nat.ltb_spec k' (z + lstep b)); [lia|exact E].
Qed.
Lemma good_key : forall i z k, zf (1 + lbits C 0) <> 0%F -> layers_good C zf i z -> layers_blind C i z k = true -> zf (layers_key C i z k) <> 0%F.
Proof.
  intros i z k K0. revert z. induction i as [|i IH]; intros z G Hk; cbn [layers_key]; [exact K0|].
  cbn [layers_good layers_blind] in G, Hk. cbv zeta in *. destruct G as (K3 & K6 & G). destruct (k <? z + lstep (lbits C i)).
  - unfold lkey. cbv zeta. destruct (_ || _); [exact K3|exact K6].
  - apply IH; assumption.
Qed.
Lemma vis_same : forall D v x0 x1 i q z R0 mk zu pu pv w k, (forall j, j < total_depth C -> lbits D j = lbits C j) -> i < total_depth C ->
  (forall k, z <= k -> layers_blind C i z k = false -> zf' k = zf k) -> layers_blind C i z k = true ->
  layers_vis D v zf' x0 x1 i q z R0 mk zu pu pv w k = layers_vis D v zf x0 x1 i q z R0 mk zu pu pv w k.
Proof.
  intros D v x0 x1 i. induction i as [|i IH]; intros q z R0 mk zu pu pv w k HD Hi HB Hk; cbn [layers_vis]; cbv zeta; rewrite HD by lia.
  - unfold visIw. apply sumn_ext. intros j Hj. f_equal. apply mono_ext. intros m Hm.
    cbn [layers_blind] in Hk. rewrite andb_true_iff, Nat.leb_le, Nat.ltb_lt in Hk.
    apply (skey_same zf zf' (lbits C 0)); [exact HI|lia].
  - cbn [layers_blind] in HB, Hk. cbv zeta in HB, Hk. set (b := lbits C i) in *.
    destruct (Nat.ltb_spec k (z + lstep b)) as [L|L].
    + assert (HB' : forall o, o < lstep b -> lblind b o = false -> zf' (z + o) = zf (z + o)).
      { intros o Ho Hl. apply HB; [lia|]. destruct (Nat.ltb_spec (z + o) (z + lstep b)); [|lia]. replace (z + o - z) with o by lia. rewrite Hl. apply andb_false_r. }
      apply (lvis_ext zf zf' b z HB'). apply andb_true_iff in Hk. apply Hk.
    + apply IH; [exact HD|lia| |exact Hk]. intros k' Hk' E. apply HB; [lia|]. destruct (Nat.ltb_spec k' (z + lstep b)); [lia|exact E].
Qed.

Hypothesis K0 : zf (1 + lbits C 0) <> 0%F.
Lemma layers_group_same : forall v x0 x1 y0 y1 i q a be R0 R1 mk nk zu zv pu pv w w' l z, i < total_depth C -> length R0 = lbits C i ->
  (let n := lbits C 0 in visI zf n 0 (vals C 0) + zf (1 + n)%nat * zf (n + 2)%nat = visI zf n 0 (vals C' 0) + zf (1 + n)%nat * zf' (n + 2)%nat)%F ->
  (let n := lbits C 0 in visI2 zf n 0 x0 x1 + zf (1 + n)%nat * zf (n + 3)%nat = visI2 zf n 0 y0 y1 + zf (1 + n)%nat * zf' (n + 3)%nat)%F ->
  (forall k, z <= k -> layers_blind C i z k = false -> zf' k = zf k) -> layers_good C zf i z ->
  (forall k, layers_blind C i z k = true -> (layers_vis C v zf x0 x1 i q z R0 mk zu pu pv w k + zf (layers_key C i z k) * zf k =
     layers_vis C' v zf y0 y1 i q z R0 nk zu pu pv w' k + zf (layers_key C i z k) * zf' k)%F) ->
  vnums C v x0 x1 i q a be R0 R1 mk zu zv pu pv w l -> vnums C' v y0 y1 i q a be R0 R1 nk zu zv pu pv w' l ->
  layers_group C v zf x0 x1 i q z R0 mk zu pu pv w = layers_group C' v zf' y0 y1 i q z R0 nk zu pu pv w'.
Proof.
  intros v x0 x1 y0 y1 i. induction i as [|i IH]; intros q a be R0 R1 mk nk zu zv pu pv w w' l z Hi L0 H1 H2 HB G HV VN VN'.
  - cbn [layers_group vnums] in *. rewrite TL by lia. set (n := lbits C 0) in *. cbv zeta in H1, H2.
    assert (Hn : 1 <= n < 31) by apply (zc_inbits C CC).
    apply openI_same; [exact Hn|exact L0|exact HI|exact K0|exact H1| | |].
    + replace (0 + n + 2 + 1) with (n + 3) by lia. exact H2.
    + intros i Hik. specialize (HV (z + i)). cbn [layers_blind layers_key layers_vis] in HV. rewrite TL in HV by lia. fold n in HV.
      replace (z + i - z) with i in HV by lia. apply HV. apply andb_true_iff. rewrite Nat.leb_le, Nat.ltb_lt. lia.
    + rewrite VN in VN'. exact (f_equal (fun l => nth 1 l 0%F) VN').
  - cbn [layers_group]. cbn [vnums] in VN, VN'. cbv zeta in VN, VN' |- *. rewrite TL in VN' |- * by lia.
    cbn [layers_blind] in HB. cbn [layers_good] in G. cbv zeta in HB, G. set (b := lbits C i) in *.
    assert (Hb : 1 <= b) by (apply (zc_bits C CC); lia).
    destruct VN as (q1 & q3 & l1 & RL1 & RL3 & El & VN). destruct VN' as (p1 & p3 & l2 & PL1 & PL3 & El' & VN').
    rewrite El in El'. apply layer_nums_split in El'; [|eapply rlog_same_length; eassumption|eapply rlog_same_length; eassumption].
    destruct El' as (O0 & O1 & OM & <-). destruct G as (K3 & K6 & G).
    assert (HB' : forall o, o < lstep b -> lblind b o = false -> zf' (z + o) = zf (z + o)).
    { intros o Ho Hl. apply HB; [lia|]. destruct (Nat.ltb_spec (z + o) (z + lstep b)); [|lia]. replace (z + o - z) with o by lia. rewrite Hl. apply andb_false_r. }
    f_equal.
    + apply (layer_same zf zf' b z HB' Hb); [exact K3|exact K6| |exact O0|exact O1|exact OM].
      intros o Ho. pose proof (lblind_range b o Ho) as Hr. specialize (HV (z + o)). cbn [layers_blind layers_key layers_vis] in HV. cbv zeta in HV.
      rewrite TL in HV by lia. fold b in HV. destruct (Nat.ltb_spec (z + o) (z + lstep b)); [|lia]. replace (z + o - z) with o in HV by lia.
      apply HV. rewrite Ho. apply andb_true_iff. split; [apply Nat.leb_le; lia|reflexivity].
    + eapply (IH (q + (2 * b + 4))); [lia|unfold ch_u; apply at_tape_length|exact H1|exact H2| |exact G| |exact VN|exact VN'].
      * intros k' Hk' E. apply HB; [lia|]. destruct (Nat.ltb_spec k' (z + lstep b)); [lia|exact E].
      * intros k Hk. pose proof (blind_ge _ _ _ _ Hk) as Hg. specialize (HV k). cbn [layers_blind layers_key layers_vis] in HV. cbv zeta in HV.
        rewrite TL in HV by lia. fold b in HV. destruct (Nat.ltb_spec k (z + lstep b)); [lia|]. apply HV, Hk.
Qed.
End Exps.

(** *** The whole run *)
Lemma blind_lt : forall i z k, layers_blind C i z k = true -> k < z + layers_expos C i.
Proof.
  induction i as [|i IH]; intros z k H; cbn [layers_blind layers_expos] in *; cbv zeta in *.
  - rewrite andb_true_iff, Nat.ltb_lt in H. lia.
  - destruct (Nat.ltb_spec k (z + lstep (lbits C i))); [lia|]. specialize (IH _ _ H). lia.
Qed.
Lemma run_blind_lt : forall k, run_blind C k = true -> k < expo_count C.
Proof.
  intros k H. unfold run_blind in H. cbv zeta in H. unfold expo_count. destruct (Nat.ltb_spec k (lbits C 0 + 4)); [lia|].
  apply blind_lt in H. exact H.
Qed.
Let Dp := zc_pos C CC.
Lemma tw_run_blind : forall k, run_blind C' k = run_blind C k.
Proof. intro k. unfold run_blind. rewrite <- (tw_depth _ _ TW), TL, tw_blind by lia. reflexivity. Qed.
Lemma tw_run_key : forall k, run_key C' k = run_key C k.
Proof. intro k. unfold run_key. rewrite <- (tw_depth _ _ TW), TL, tw_key by lia. reflexivity. Qed.
Lemma tw_expo_count : expo_count C' = expo_count C.
Proof. unfold expo_count. rewrite <- (tw_depth _ _ TW), TL, tw_expos by lia. reflexivity. Qed.
Lemma tw_good_exponents : forall zs, good_exponents C' zs <-> good_exponents C zs.
Proof. intro zs. unfold good_exponents. rewrite <- (tw_depth _ _ TW), TL, tw_good by lia. reflexivity. Qed.

Section Streams.
Variables zf zf' : nat -> F.
Hypothesis HU : forall k, run_blind C k = false -> zf' k = zf k.
Lemma ru_I : forall j, j < lbits C 0 + 2 -> zf' j = zf j.
Proof. intros j Hj. apply HU. unfold run_blind. cbv zeta. destruct (Nat.ltb_spec j (lbits C 0 + 4)); [|lia]. apply Nat.leb_gt. exact Hj. Qed.
Lemma ru_L : forall k, lbits C 0 + 4 <= k -> layers_blind C (total_depth C - 1) (lbits C 0 + 4) k = false -> zf' k = zf k.
Proof. intros k Hk H. apply HU. unfold run_blind. cbv zeta. destruct (Nat.ltb_spec k (lbits C 0 + 4)); [lia|exact H]. Qed.
Lemma run_key_same : forall k, run_blind C k = true -> zf' (run_key C k) = zf (run_key C k).
Proof.
  intros k Hk. unfold run_blind in Hk. unfold run_key. cbv zeta in *. destruct (k <? lbits C 0 + 4).
  - apply ru_I. lia.
  - apply key_same; [exact ru_I|lia|exact ru_L|exact Hk].
Qed.
Lemma run_vis_same : forall D v ms k, total_depth D = total_depth C -> (forall j, j < total_depth C -> lbits D j = lbits C j) -> run_blind C k = true ->
  run_vis D v ms zf' k = run_vis D v ms zf k.
Proof.
  intros D v ms k ED HD Hk. assert (Hn : 1 <= lbits C 0) by apply (zc_inbits C CC).
  unfold run_vis. cbv zeta. rewrite ED, !HD by lia. unfold run_blind in Hk. cbv zeta in Hk.
  destruct (Nat.eqb_spec k (lbits C 0 + 2)).
  - unfold visI. apply polyI_at. intros i Hi. apply (skey_same zf zf' (lbits C 0)); [exact ru_I|lia].
  - destruct (Nat.eqb_spec k (lbits C 0 + 3)).
    + unfold visI2. rewrite ru_I by lia. reflexivity.
    + destruct (Nat.ltb_spec k (lbits C 0 + 4)) as [L|L]; [apply Nat.leb_le in Hk; lia|].
      apply vis_same; [exact ru_I|exact HD|lia|exact ru_L|exact Hk].
Qed.
End Streams.

Lemma rezs_length : forall D D' v ms ms' zs, length (rezs D D' v ms ms' zs) = length zs.
Proof. intros. apply lshift_length. Qed.
Lemma rezs_unblind : forall D v ms ms' zs k, run_blind C k = false -> expo (rezs C D v ms ms' zs) k = expo zs k.
Proof.
  intros D v ms ms' zs k Hk. unfold expo, rezs. destruct (Nat.lt_ge_cases k (length zs)) as [L|L].
  - rewrite lshift_nth by exact L. unfold eshift. rewrite Hk. ring.
  - rewrite !nth_overflow by (rewrite ?lshift_length; exact L). reflexivity.
Qed.
Lemma good_run_key : forall zs k, good_exponents C zs -> run_blind C k = true -> expo zs (run_key C k) <> 0%F.
Proof.
  intros zs k (G0 & G) Hk. unfold run_key. unfold run_blind in Hk. cbv zeta in *. destruct (k <? lbits C 0 + 4); [exact G0|].
  apply good_key; assumption.
Qed.
Lemma rezs_good : forall v ms ms' zs, good_exponents C zs -> good_exponents C (rezs C C' v ms ms' zs).
Proof.
  intros v ms ms' zs (G0 & G). pose proof (rezs_unblind C' v ms ms' zs) as HU. split.
  - rewrite (ru_I _ _ HU) by lia. exact G0.
  - apply (good_same (expo zs)); [lia|exact (ru_L _ _ HU)|exact G].
Qed.
Lemma rezs_eq : forall v ms ms' zs k, length zs = expo_count C -> good_exponents C zs -> run_blind C k = true ->
  (run_vis C v ms (expo zs) k + expo zs (run_key C k) * expo zs k = run_vis C' v ms' (expo zs) k + expo zs (run_key C k) * expo (rezs C C' v ms ms' zs) k)%F.
Proof.
  intros v ms ms' zs k Lz G Hk. pose proof (good_run_key zs k G Hk) as K. pose proof (run_blind_lt k Hk) as Hl.
  change (expo (rezs C C' v ms ms' zs) k) with (nth k (rezs C C' v ms ms' zs) 0%F). unfold rezs. rewrite lshift_nth by lia. unfold eshift. rewrite Hk. change (nth k zs 0%F) with (expo zs k).
  pose proof (Finv_ok _ K) as E. set (s := expo zs (run_key C k)) in *. set (A := run_vis C v ms (expo zs) k). set (B := run_vis C' v ms' (expo zs) k).
  transitivity (B + s * expo zs k + (s * Finv s) * (A - B))%F; [rewrite E; ring|ring].
Qed.
Lemma run_group_gen : forall v ms ms' zf zf' l, (forall k, run_blind C k = false -> zf' k = zf k) ->
  (forall k, run_blind C k = true -> (run_vis C v ms zf k + zf (run_key C k) * zf k = run_vis C' v ms' zf k + zf (run_key C k) * zf' k)%F) ->
  zf (1 + lbits C 0) <> 0%F -> layers_good C zf (total_depth C - 1) (lbits C 0 + 4) -> run_nums C v ms l -> run_nums C' v ms' l ->
  run_group C v ms zf = run_group C' v ms' zf'.
Proof.
  intros v ms ms' zf zf' l HU HE G0 G (l1 & El & V1) (l2 & El' & V2).
  rewrite <- (tw_depth _ _ TW) in V2, El'. rewrite !TL in V2, El' by lia. rewrite El in El'.
  apply app_split in El'; [destruct El' as [_ El']|rewrite !map_length; reflexivity]. apply app_split in El'; [destruct El' as [_ <-]|reflexivity].
  assert (Hn : 1 <= lbits C 0 < 31) by apply (zc_inbits C CC).
  unfold run_group. cbv zeta. rewrite <- (tw_depth _ _ TW). rewrite !TL by lia. set (n := lbits C 0) in *. set (d := total_depth C) in *. set (b := lbits C (d - 1)) in *.
  set (x0 := nth 0 ms 0%F) in *. set (x1 := nth 1 ms 0%F) in *. set (y0 := nth 0 ms' 0%F) in *. set (y1 := nth 1 ms' 0%F) in *.
  assert (E2 : (visI zf n 0 (vals C 0) + zf (1 + n)%nat * zf (n + 2)%nat = visI zf n 0 (vals C' 0) + zf (1 + n)%nat * zf' (n + 2)%nat)%F).
  { specialize (HE (n + 2)). unfold run_blind, run_vis, run_key in HE. cbv zeta in HE. rewrite <- (tw_depth _ _ TW) in HE. rewrite !TL in HE by lia. fold n in HE.
    rewrite Nat.eqb_refl in HE. destruct (Nat.ltb_spec (n + 2) (n + 4)); [|lia]. apply HE. apply Nat.leb_le. lia. }
  assert (E3 : (visI2 zf n 0 x0 x1 + zf (1 + n)%nat * zf (n + 3)%nat = visI2 zf n 0 y0 y1 + zf (1 + n)%nat * zf' (n + 3)%nat)%F).
  { specialize (HE (n + 3)). unfold run_blind, run_vis, run_key in HE. cbv zeta in HE. rewrite <- (tw_depth _ _ TW) in HE. rewrite !TL in HE by lia. fold n in HE.
    rewrite Nat.eqb_refl in HE. destruct (Nat.eqb_spec (n + 3) (n + 2)); [lia|]. destruct (Nat.ltb_spec (n + 3) (n + 4)); [|lia]. apply HE. apply Nat.leb_le. lia. }
  f_equal.
  - apply commit_same; [lia|exact (ru_I _ _ HU)|exact E2|]. replace (0 + n + 2 + 1) with (n + 3) by lia. exact E3.
  - eapply (layers_group_same zf zf' (ru_I _ _ HU) G0 v x0 x1 y0 y1 (d - 1)); [fold d; lia|apply at_tape_length|exact E2|exact E3|exact (ru_L _ _ HU)|exact G| |exact V1|exact V2].
    intros k Hk. pose proof (blind_ge _ _ _ _ Hk) as Hg. specialize (HE k). unfold run_blind, run_vis, run_key in HE. cbv zeta in HE.
    rewrite <- (tw_depth _ _ TW) in HE. rewrite !TL in HE by lia. fold n d b in HE.
    destruct (Nat.eqb_spec k (n + 2)); [lia|]. destruct (Nat.eqb_spec k (n + 3)); [lia|]. destruct (Nat.ltb_spec k (n + 4)); [lia|].
    apply HE. exact Hk.
Qed.
(** With the exponents as the numbers the code keeps. *)
Lemma run_group_same : forall v ms ms' zs l, length zs = expo_count C -> good_exponents C zs -> run_nums C v ms l -> run_nums C' v ms' l ->
  run_group C v ms (fun k => ofZ (fz (expo zs k))) = run_group C' v ms' (fun k => ofZ (fz (expo (rezs C C' v ms ms' zs) k))).
Proof.
  intros v ms ms' zs l Lz G N1 N2. set (zf := fun k => ofZ (fz (expo zs k))).
  assert (E : forall k, zf k = expo zs k) by (intro k; apply ofZ_fz). destruct G as (G0 & G).
  apply (run_group_gen v ms ms' _ _ l); [| | | |exact N1|exact N2].
  - intros k Hk. rewrite ofZ_fz, rezs_unblind by exact Hk. symmetry. apply E.
  - intros k Hk. rewrite ofZ_fz, !E.
    rewrite (run_vis_same (expo zs) zf (fun k _ => E k) C v ms k) by (reflexivity || exact Hk).
    rewrite (run_vis_same (expo zs) zf (fun k _ => E k) C' v ms' k) by (first [symmetry; apply (tw_depth _ _ TW)|intros j Hj; apply TL, Hj|exact Hk]).
    apply rezs_eq; [exact Lz|split; assumption|exact Hk].
  - rewrite E. exact G0.
  - apply (good_same (expo zs)); [lia|intros; apply E|exact G].
Qed.
End Pair.

Lemma rezs_back : forall C C' v ms ms' zs, zcomplete_circuit C -> twins C C' -> rezs C' C v ms' ms (rezs C C' v ms ms' zs) = zs.
Proof.
  intros C C' v ms ms' zs CC TW. pose proof (zc_pos C CC) as Dp. pose proof (rezs_unblind C C' v ms ms' zs) as HU.
  unfold rezs at 1. unfold rezs at 1. apply lshift_back. intro k. unfold eshift. rewrite (tw_run_blind C C' CC TW).
  destruct (run_blind C k) eqn:Hk; [|ring]. rewrite (tw_run_key C C' CC TW), (run_key_same C CC _ _ HU k Hk).
  rewrite (run_vis_same C CC _ _ HU C' v ms' k) by (first [symmetry; apply (tw_depth _ _ TW)|intros j Hj; apply (tw_lbits C C' TW), Hj|exact Hk]).
  rewrite (run_vis_same C CC _ _ HU C v ms k) by (reflexivity || exact Hk). ring.
Qed.
