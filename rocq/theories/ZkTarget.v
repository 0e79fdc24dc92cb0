(** * The polynomial the zk sum-check of a layer is about

    [target] gives, for any number of challenges, the sum that remains; it is the
    value an honest verifier's running sum has at this point. *)
From Coq Require Import ZArith List Bool Arith Lia Ring.
From Verif Require Import Fp Base ArithProofs MleSpec GkrMath PolyProofs Count SoundProofs SumGame
  SpecVpd SpecZk ZkMaskProofs ZkRoundProofs ZkLayerProofs ZkOpenProofs ZkFacts.
Import ListNotations.
Open Scope nat_scope.

(** ** Functions that are polynomials of bounded degree *)
Definition polyd (d : nat) (f : F -> F) : Prop := exists q, length q = S d /\ forall t, f t = peval q t.
Lemma polyd_ext : forall d f g, polyd d f -> (forall t, g t = f t) -> polyd d g.
Proof. intros d f g (q & L & H) E. exists q. split; [exact L|]. intro t. rewrite E. apply H. Qed.
Lemma polyd_up : forall d d' f, polyd d f -> d <= d' -> polyd d' f.
Proof.
  intros d d' f H Hd. induction Hd as [|d' Hd IH]; [exact H|]. destruct IH as (q & L & E).
  exists (0%F :: q). split; [cbn [length]; lia|]. intro t. rewrite E. cbn [peval]. ring.
Qed.
Lemma polyd_add : forall d f g, polyd d f -> polyd d g -> polyd d (fun t => f t + g t)%F.
Proof.
  intros d f g (q & L & E) (r & L' & E'). exists (zipadd q r). split.
  - clear E E'. revert d r L L'. induction q as [|a q IH]; intros d [|b r] L L'; try discriminate.
    cbn [zipadd length]. injection L as L. injection L' as L'. destruct d as [|d].
    + destruct q; [|discriminate]. destruct r; [|discriminate]. reflexivity.
    + f_equal. apply IH; assumption.
  - intro t. rewrite peval_zipadd by lia. rewrite E, E'. reflexivity.
Qed.
Lemma polyd_scal : forall d k f, polyd d f -> polyd d (fun t => k * f t)%F.
Proof.
  intros d k f (q & L & E). exists (map (fun x => k * x)%F q). split; [rewrite map_length; exact L|].
  intro t. rewrite E. clear. induction q as [|a q IH]; cbn [map peval]; [ring|]. rewrite <- IH, map_length. ring.
Qed.
Lemma polyd_const : forall d k, polyd d (fun _ => k).
Proof. intros d k. apply (polyd_up 0); [|lia]. exists [k]. split; [reflexivity|]. intro t. cbn [peval length Fpow]. ring. Qed.
Lemma polyd2 : forall d a b c f, 2 <= d -> (forall t, f t = (a * t * t + b * t + c)%F) -> polyd d f.
Proof.
  intros d a b c f Hd E. apply (polyd_up 2); [|exact Hd]. exists [a; b; c]. split; [reflexivity|]. intro t. rewrite E.
  cbn [peval length Fpow]. ring.
Qed.
Lemma polyd5 : forall d a5 a4 a3 a b c f, 5 <= d ->
  (forall t, f t = (a5 * Fpow t 5 + a4 * Fpow t 4 + a3 * Fpow t 3 + a * (t * t) + b * t + c)%F) -> polyd d f.
Proof.
  intros d a5 a4 a3 a b c f Hd E. apply (polyd_up 5); [|exact Hd]. exists [a5; a4; a3; a; b; c]. split; [reflexivity|]. intro t.
  rewrite E. cbn [peval length Fpow]. ring.
Qed.

(** Degree of round [j]: 5 in the last round of a phase of [n] rounds, else 2. *)
Definition zdeg (n j : nat) : nat := if (j =? n - 1) || (j =? 2 * n - 1) then 5 else 2.
Lemma zdeg_ge : forall n j, 2 <= zdeg n j.
Proof. intros n j. unfold zdeg. destruct (_ || _); lia. Qed.

Lemma mround_polyd : forall c n rs, polyd (zdeg n (length rs)) (mround c n rs).
Proof.
  intros c n rs. unfold mround.
  apply (polyd_add _ (fun t => Fpow two (2 * n - length rs) * (qv c n (length rs) t + qsum c n rs))%F (fun _ => Sc c n (S (length rs)))); [|apply polyd_const].
  apply polyd_scal. apply polyd_add; [|apply polyd_const]. unfold qv, zdeg, lo, hi.
  destruct (length rs =? n - 1), (length rs =? 2 * n - 1); cbn [orb ind].
  - eapply polyd5 with (a := c (2 * length rs)%nat) (b := c (2 * length rs + 1)%nat) (c := 0%F); [lia|]. intro t. cbn [Fpow].
    instantiate (3 := (c ((2 * n + 1) * 2 + 1)%nat + c ((2 * n + 1) * 2 + 4)%nat)%F).
    instantiate (2 := (c ((2 * n + 1) * 2 + 1 + 1)%nat + c ((2 * n + 1) * 2 + 4 + 1)%nat)%F).
    instantiate (1 := (c ((2 * n + 1) * 2 + 1 + 2)%nat + c ((2 * n + 1) * 2 + 4 + 2)%nat)%F). ring.
  - eapply polyd5 with (a := c (2 * length rs)%nat) (b := c (2 * length rs + 1)%nat) (c := 0%F); [lia|]. intro t. cbn [Fpow].
    instantiate (3 := c ((2 * n + 1) * 2 + 1)%nat). instantiate (2 := c ((2 * n + 1) * 2 + 1 + 1)%nat).
    instantiate (1 := c ((2 * n + 1) * 2 + 1 + 2)%nat). ring.
  - eapply polyd5 with (a := c (2 * length rs)%nat) (b := c (2 * length rs + 1)%nat) (c := 0%F); [lia|]. intro t. cbn [Fpow].
    instantiate (3 := c ((2 * n + 1) * 2 + 4)%nat). instantiate (2 := c ((2 * n + 1) * 2 + 4 + 1)%nat).
    instantiate (1 := c ((2 * n + 1) * 2 + 4 + 2)%nat). ring.
  - eapply polyd2 with (a := c (2 * length rs)%nat) (b := c (2 * length rs + 1)%nat) (c := 0%F); [lia|]. intro t. ring.
Qed.
Lemma zround_polyd : forall n c k V M A pre R, polyd (zdeg n (length (pre ++ R))) (zround n c k V M A pre R).
Proof.
  intros. unfold zround. apply polyd_add; [|apply mround_polyd]. apply polyd_add.
  - destruct (round_quadratic (n - S (length R)) (folds R V) (folds R M) (folds R A)) as (a & b & c' & E).
    eapply polyd2; [apply zdeg_ge|exact E].
  - eapply polyd2 with (a := 0%F) (b := (0 - k * op (pre ++ R))%F) (c := (k * op (pre ++ R))%F); [apply zdeg_ge|]. intro t. ring.
Qed.
Lemma zlast_polyd : forall d Mt z mk, 5 <= d -> polyd d (zlast Mt z (mask_sum mk)).
Proof.
  intros d Mt z mk Hd.
  set (m := fun i => nth i mk 0%F).
  set (s2 := (m 2%nat + m 2%nat)%F). set (s1 := (m 1%nat + m 1%nat + m 5%nat)%F).
  set (s0 := (m 0%nat + m 0%nat + m 3%nat + m 4%nat)%F). set (p := (Mt 1%nat - Mt 0%nat)%F). set (q := Mt 0%nat).
  eapply polyd5 with (a5 := (0 - z * p * s2)%F) (a4 := (z * (p * s2 - q * s2 - p * s1))%F)
    (a3 := (z * (q * s2 + p * s1 - q * s1 - p * s0))%F) (a := (z * (q * s1 + p * s0 - q * s0))%F) (b := (z * (q * s0))%F) (c := 0%F); [exact Hd|].
  intro t. unfold zlast, mask_sum, poly_R, fold1. subst s2 s1 s0 p q m. cbv beta. cbn [Fpow Nat.mul Nat.add]. ring.
Qed.

(** ** The target *)
Section Target.
Variables (b : nat) (c : nat -> F) (V M1 A1 : nat -> F) (M2 A2 : F -> list F -> nat -> F).
Variables (mk mk' : list F) (a be zu zv pu pv : F).
Hypothesis Hb : 1 <= b.
Hypothesis Link : forall ru vu, length ru = b ->
  (mle ru M1 * vu + mle ru A1)%F = psum b V (M2 vu ru) (A2 vu ru).
Let mv := masked_value V mk'.
Let G1 := poly_R (fun j => nth j mk 0%F) pu.
Let G2 := poly_R (fun j => nth j mk 0%F) pv.
(** What the value masks of layer [i] add to the first sum. *)
Definition kmask : F := (a * zu * RS mk pu + be * zv * RS mk pv)%F.
Definition gval (vu vv : F) (ru rv : list F) : F := (mle rv (M2 vu ru) * vv + mle rv (A2 vu ru))%F.

Definition target (R : list F) : F :=
  let ru := firstn b R in
  let rv := firstn b (skipn b R) in
  if length R <? b then zsum b c kmask V M1 A1 [] R
  else if length R <? 2 * b then zsum b c kmask V (M2 (mv ru) ru) (A2 (mv ru) ru) ru (skipn b R)
  else if length R =? 2 * b then
    (gval (mv ru) (mv rv) ru rv + kmask * op (ru ++ rv) + Mk c b (ru ++ rv))%F
  else let x := nth (2 * b) R 0%F in
    (op (ru ++ rv) * (a * zu * G1 x + be * zv * G2 x) + gval (mv ru) (mv rv) ru rv * x + Mk c b R)%F.

Lemma target_1 : forall R, length R < b -> target R = zsum b c kmask V M1 A1 [] R.
Proof. intros R H. unfold target. destruct (Nat.ltb_spec (length R) b); [reflexivity|lia]. Qed.
Lemma firstn_len_app : forall (ru R : list F), length ru = b -> firstn b (ru ++ R) = ru /\ skipn b (ru ++ R) = R.
Proof.
  intros ru R H. rewrite firstn_app, skipn_app, H, Nat.sub_diag, firstn_all2, skipn_all2 by lia.
  cbn [firstn skipn app]. rewrite app_nil_r. split; reflexivity.
Qed.
Lemma target_2 : forall ru R, length ru = b -> length R < b ->
  target (ru ++ R) = zsum b c kmask V (M2 (mv ru) ru) (A2 (mv ru) ru) ru R.
Proof.
  intros ru R H H'. unfold target. destruct (firstn_len_app ru R H) as [-> ->]. rewrite app_length, H.
  destruct (Nat.ltb_spec (b + length R) b); [lia|]. destruct (Nat.ltb_spec (b + length R) (2 * b)); [reflexivity|lia].
Qed.
Lemma target_3 : forall ru rv, length ru = b -> length rv = b ->
  target (ru ++ rv) = (gval (mv ru) (mv rv) ru rv + kmask * op (ru ++ rv) + Mk c b (ru ++ rv))%F.
Proof.
  intros ru rv H H'. unfold target. destruct (firstn_len_app ru rv H) as [-> ->].
  rewrite (firstn_all2 rv) by lia. rewrite app_length, H, H'.
  destruct (Nat.ltb_spec (b + b) b); [lia|]. destruct (Nat.ltb_spec (b + b) (2 * b)); [lia|].
  destruct (Nat.eqb_spec (b + b) (2 * b)); [reflexivity|lia].
Qed.
Lemma target_4 : forall ru rv x, length ru = b -> length rv = b ->
  target ((ru ++ rv) ++ [x]) = (op (ru ++ rv) * (a * zu * G1 x + be * zv * G2 x) + gval (mv ru) (mv rv) ru rv * x
    + Mk c b ((ru ++ rv) ++ [x]))%F.
Proof.
  intros ru rv x H H'. unfold target. rewrite <- app_assoc. destruct (firstn_len_app ru (rv ++ [x]) H) as [-> ->].
  destruct (firstn_len_app rv [x] H') as [-> _]. rewrite !app_length, H, H'. cbn [length].
  destruct (Nat.ltb_spec (b + (b + 1)) b); [lia|]. destruct (Nat.ltb_spec (b + (b + 1)) (2 * b)); [lia|].
  destruct (Nat.eqb_spec (b + (b + 1)) (2 * b)); [lia|]. cbv zeta.
  rewrite app_assoc, app_nth2 by (rewrite app_length; lia). rewrite app_length, H, H'.
  replace (2 * b - (b + b)) with 0 by lia. reflexivity.
Qed.

(** The end of a phase. *)
Lemma zsum_full : forall k M A pre R, length R = b ->
  zsum b c k V M A pre R = (mle R V * mle R M + mle R A + k * op (pre ++ R) + Mk c b (pre ++ R))%F.
Proof.
  intros k M A pre R H. unfold zsum. rewrite H, Nat.sub_diag. unfold psum. cbn [Nat.pow sumn]. rewrite !mle_folds. ring.
Qed.
Lemma phase_last : forall k M A pre R t, S (length R) = b -> length pre <= b ->
  (mle (R ++ [t]) M * mv (R ++ [t]) + mle (R ++ [t]) A + k * op (pre ++ R ++ [t]) + Mk c b (pre ++ R ++ [t]))%F =
  (zround b c k V M A pre R t + zlast (folds R M) (zp R) (mask_sum mk') t)%F.
Proof.
  intros k M A pre R t H Hp. rewrite zround_next by lia. rewrite zsum_full by (rewrite app_length; cbn [length]; lia).
  rewrite zlast_end. unfold mv, masked_value. rewrite <- zp_vanishing, last_last. ring.
Qed.

Lemma split_at : forall (R : list F), b <= length R -> exists ru R', R = ru ++ R' /\ length ru = b /\ length R' = length R - b.
Proof.
  intros R H. exists (firstn b R), (skipn b R). rewrite firstn_skipn, firstn_length, skipn_length.
  split; [reflexivity|]. split; lia.
Qed.

Lemma target_next : forall pre, length pre < 2 * b + 1 ->
  exists f, (forall t, target (pre ++ [t]) = f t) /\ polyd (zdeg b (length pre)) f /\ (f 0%F + f 1%F)%F = target pre.
Proof.
  intros pre Hl. destruct (Nat.lt_ge_cases (length pre) b) as [H1|H1].
  - destruct (Nat.lt_ge_cases (S (length pre)) b) as [H2|H2].
    + exists (zround b c kmask V M1 A1 [] pre). split; [|split].
      * intro t. rewrite target_1 by (rewrite app_length; cbn [length]; lia). symmetry. apply zround_next; cbn [length]; lia.
      * exact (zround_polyd b c kmask V M1 A1 [] pre).
      * rewrite target_1 by lia. apply zround_01; cbn [length]; lia.
    + exists (fun t => zround b c kmask V M1 A1 [] pre t + zlast (folds pre M1) (zp pre) (mask_sum mk') t)%F. split; [|split].
      * intro t. set (ru := pre ++ [t]). assert (Lr : length ru = b) by (unfold ru; rewrite app_length; cbn [length]; lia).
        rewrite <- (app_nil_r ru). rewrite target_2 by (cbn [length]; lia).
        unfold zsum. cbn [length folds]. rewrite Nat.sub_0_r, app_nil_r, <- (Link ru (mv ru) Lr).
        unfold ru. rewrite <- (phase_last kmask M1 A1 [] pre t) by (cbn [length]; lia). reflexivity.
      * apply polyd_add; [exact (zround_polyd b c kmask V M1 A1 [] pre)|]. apply zlast_polyd. unfold zdeg.
        replace (length pre =? b - 1) with true by (symmetry; apply Nat.eqb_eq; lia). cbn [orb]. lia.
      * rewrite target_1 by lia. rewrite <- zround_01 by (cbn [length]; lia). unfold zlast. ring.
  - destruct (split_at pre H1) as (ru & R & -> & Lr & LR). rewrite app_length in *.
    destruct (Nat.lt_ge_cases (length R) b) as [H2|H2].
    + set (m2 := M2 (mv ru) ru). set (a2 := A2 (mv ru) ru).
      destruct (Nat.lt_ge_cases (S (length R)) b) as [H3|H3].
      * exists (zround b c kmask V m2 a2 ru R). split; [|split].
        -- intro t. rewrite <- app_assoc, target_2 by (rewrite ?app_length; cbn [length]; lia). symmetry. apply zround_next; lia.
        -- pose proof (zround_polyd b c kmask V m2 a2 ru R) as K. rewrite app_length in K. exact K.
        -- rewrite target_2 by lia. apply zround_01; lia.
      * exists (fun t => zround b c kmask V m2 a2 ru R t + zlast (folds R m2) (zp R) (mask_sum mk') t)%F. split; [|split].
        -- intro t. rewrite <- app_assoc, target_3 by (rewrite ?app_length; cbn [length]; lia).
           rewrite <- (phase_last kmask m2 a2 ru R t) by lia. unfold gval. reflexivity.
        -- apply polyd_add; [pose proof (zround_polyd b c kmask V m2 a2 ru R) as K; rewrite app_length in K; exact K|].
           apply zlast_polyd. unfold zdeg.
           replace (length ru + length R =? 2 * b - 1) with true by (symmetry; apply Nat.eqb_eq; lia). rewrite orb_true_r. lia.
        -- rewrite target_2 by lia. fold m2 a2. rewrite <- zround_01 by lia. unfold zlast. ring.
    + assert (LR' : length R = b) by lia. set (g := gval (mv ru) (mv R) ru R).
      exists (fun x => op (ru ++ R) * (a * zu * G1 x + be * zv * G2 x) + g * x + mround c b (ru ++ R) x)%F. split; [|split].
      * intro t. rewrite target_4 by lia. rewrite mround_next by (rewrite app_length; lia). reflexivity.
      * replace (length ru + length R) with (length (ru ++ R)) by apply app_length.
        apply polyd_add; [|apply mround_polyd].
        eapply polyd2 with (a := (op (ru ++ R) * (a * zu * nth 4 mk 0 + be * zv * nth 4 mk 0))%F)
          (b := (op (ru ++ R) * (a * zu * (nth 3 mk 0 + nth 5 mk 0 * pu) + be * zv * (nth 3 mk 0 + nth 5 mk 0 * pv)) + g)%F)
          (c := (op (ru ++ R) * (a * zu * (nth 0 mk 0 + nth 1 mk 0 * pu + nth 2 mk 0 * (pu * pu)) + be * zv * (nth 0 mk 0 + nth 1 mk 0 * pv + nth 2 mk 0 * (pv * pv))))%F);
          [apply zdeg_ge|]. intro t. unfold G1, G2, poly_R. ring.
      * rewrite target_3 by lia. rewrite <- (mround_01 c b (ru ++ R)) by (rewrite app_length; lia).
        unfold kmask, RS. fold G1 G2. fold g. ring.
Qed.

(** The first sum. *)
Lemma target_start : target [] = (psum b V M1 A1 + kmask + Mk c b [])%F.
Proof. rewrite target_1 by (cbn [length]; lia). unfold zsum. cbn [length folds app op]. rewrite Nat.sub_0_r. ring. Qed.

(** Sum of the degrees. *)
Lemma degs_le : forall n j, degs (zdeg b) j n <= 2 * n + (if j <=? b - 1 then 6 else if j <=? 2 * b - 1 then 3 else 0).
Proof.
  induction n as [|n IH]; intro j; cbn [degs]; [lia|]. specialize (IH (S j)). unfold zdeg at 1.
  destruct (Nat.eqb_spec j (b - 1)), (Nat.eqb_spec j (2 * b - 1)), (Nat.leb_spec (S j) (b - 1)), (Nat.leb_spec (S j) (2 * b - 1)),
    (Nat.leb_spec j (b - 1)), (Nat.leb_spec j (2 * b - 1)); cbn [orb]; try lia.
Qed.
End Target.
