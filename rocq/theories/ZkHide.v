(** * The mask polynomial hides the round messages (algebra) *)
From Coq Require Import ZArith List Bool Arith Lia Ring.
From Verif Require Import Limbs Field Fp Base ArithProofs MleSpec GkrMath Poly PolyProofs Circuit
  FastProver Lazy TablesProofs SpecGkr SpecVpd SpecZk SoundProofs ZkFacts ZkTarget ZkMaskProofs ZkRoundProofs.
Import ListNotations.
Open Scope nat_scope.

(** ** Solving for a mask polynomial with given rounds *)
Lemma half_two_pow : forall n, (Fpow two n * Fpow half n)%F = 1%F.
Proof.
  induction n as [|n IH]; cbn [Fpow]; [ring|].
  transitivity ((two * half) * (Fpow two n * Fpow half n))%F; [ring|]. rewrite IH, two_half'. ring.
Qed.
Lemma double_zero : forall x : F, (x + x = 0)%F -> x = 0%F.
Proof.
  intros x H. transitivity ((two * half) * x)%F; [rewrite two_half'; ring|].
  transitivity (half * (x + x))%F; [unfold two; ring|]. rewrite H. ring.
Qed.

Section Solve.
Variable b : nat.
Hypothesis Hb : 1 <= b.
(** Coefficients of degree 1 to 5 of the wanted rounds. *)
Variables e1 e2 e3 e4 e5 : nat -> F.
Definition is_last (j : nat) : bool := (j =? b - 1) || (j =? 2 * b - 1).
Definition high (k : nat) (j : nat) : F := match k with 0 => e5 j | 1 => e4 j | _ => e3 j end.
Definition dl0 (i : nat) : F :=
  if i <? 4 * b + 2 then (Fpow half (2 * b - i / 2) * if Nat.odd i then e1 (i / 2) else e2 (i / 2))%F
  else if i <? 4 * b + 3 then 0%F
  else if i <? 4 * b + 6 then (Fpow half (2 * b - (b - 1)) * high (i - (4 * b + 3)) (b - 1))%F
  else (Fpow half (2 * b - (2 * b - 1)) * high (i - (4 * b + 6)) (2 * b - 1))%F.
(** The constant term makes the sum over the cube zero. *)
Definition dlc : F := (0 - Fpow half (2 * b + 1) * Sc dl0 b 0)%F.
Definition dl (i : nat) : F := if i =? 4 * b + 2 then dlc else dl0 i.

Lemma dl_even : forall j, j <= 2 * b -> dl (2 * j) = (Fpow half (2 * b - j) * e2 j)%F.
Proof.
  intros j H. unfold dl, dl0. destruct (Nat.eqb_spec (2 * j) (4 * b + 2)); [lia|]. destruct (Nat.ltb_spec (2 * j) (4 * b + 2)); [|lia].
  rewrite Nat.odd_mul. cbn [Nat.odd Nat.even negb andb]. replace (2 * j / 2) with j by (rewrite Nat.mul_comm, Nat.div_mul; lia). reflexivity.
Qed.
Lemma dl_odd : forall j, j <= 2 * b -> dl (2 * j + 1) = (Fpow half (2 * b - j) * e1 j)%F.
Proof.
  intros j H. unfold dl, dl0. destruct (Nat.eqb_spec (2 * j + 1) (4 * b + 2)); [lia|]. destruct (Nat.ltb_spec (2 * j + 1) (4 * b + 2)); [|lia].
  rewrite Nat.odd_add, Nat.odd_mul. cbn [Nat.odd Nat.even negb andb xorb].
  replace ((2 * j + 1) / 2) with j by (rewrite (Nat.mul_comm 2 j), Nat.div_add_l by lia; simpl; lia). reflexivity.
Qed.
Lemma dl_hi1 : forall k, k < 3 -> dl ((2 * b + 1) * 2 + 1 + k) = (Fpow half (2 * b - (b - 1)) * high k (b - 1))%F.
Proof.
  intros k H. unfold dl, dl0. set (i := (2 * b + 1) * 2 + 1 + k). assert (Ei : i = 4 * b + 3 + k) by (unfold i; lia). clearbody i.
  destruct (Nat.eqb_spec i (4 * b + 2)); [lia|]. destruct (Nat.ltb_spec i (4 * b + 2)); [lia|].
  destruct (Nat.ltb_spec i (4 * b + 3)); [lia|]. destruct (Nat.ltb_spec i (4 * b + 6)); [|lia].
  replace (i - (4 * b + 3)) with k by lia. reflexivity.
Qed.
Lemma dl_hi2 : forall k, k < 3 -> dl ((2 * b + 1) * 2 + 4 + k) = (Fpow half (2 * b - (2 * b - 1)) * high k (2 * b - 1))%F.
Proof.
  intros k H. unfold dl, dl0. set (i := (2 * b + 1) * 2 + 4 + k). assert (Ei : i = 4 * b + 6 + k) by (unfold i; lia). clearbody i.
  destruct (Nat.eqb_spec i (4 * b + 2)); [lia|]. destruct (Nat.ltb_spec i (4 * b + 2)); [lia|].
  destruct (Nat.ltb_spec i (4 * b + 3)); [lia|]. destruct (Nat.ltb_spec i (4 * b + 6)); [lia|].
  replace (i - (4 * b + 6)) with k by lia. reflexivity.
Qed.
(** The part of a round that depends on the variable. *)
Definition erest (j : nat) (t : F) : F :=
  (e1 j * t + e2 j * (t * t) + if is_last j then e3 j * Fpow t 3 + e4 j * Fpow t 4 + e5 j * Fpow t 5 else 0)%F.
Lemma dl_qv : forall j t, j <= 2 * b -> (Fpow two (2 * b - j) * qv dl b j t)%F = erest j t.
Proof.
  intros j t Hj. unfold qv, lo, hi, erest, is_last. rewrite dl_even, dl_odd by exact Hj.
  pose proof (half_two_pow (2 * b - j)) as HH. set (p := Fpow two (2 * b - j)) in *. set (h := Fpow half (2 * b - j)) in *.
  assert (LO : (p * (h * e2 j * (t * t) + h * e1 j * t) = e1 j * t + e2 j * (t * t))%F).
  { transitivity ((p * h) * (e1 j * t + e2 j * (t * t)))%F; [ring|]. rewrite HH. ring. }
  destruct (Nat.eqb_spec j (b - 1)) as [E1|N1].
  - assert (N2 : (j =? 2 * b - 1) = false) by (apply Nat.eqb_neq; lia). rewrite N2. cbn [orb ind].
    rewrite <- (Nat.add_0_r ((2 * b + 1) * 2 + 1)), <- !Nat.add_assoc, !(Nat.add_assoc ((2 * b + 1) * 2)). cbn [Nat.add].
    rewrite !dl_hi1 by lia. rewrite <- E1. fold h. cbn [high].
    transitivity (p * (h * e2 j * (t * t) + h * e1 j * t) + (p * h) * (e5 j * Fpow t 5 + e4 j * Fpow t 4 + e3 j * Fpow t 3))%F; [ring|].
    rewrite LO, HH. ring.
  - destruct (Nat.eqb_spec j (2 * b - 1)) as [E2|N2]; cbn [orb ind].
    + rewrite <- (Nat.add_0_r ((2 * b + 1) * 2 + 4)), <- !Nat.add_assoc, !(Nat.add_assoc ((2 * b + 1) * 2)). cbn [Nat.add].
      rewrite !dl_hi2 by lia. rewrite <- E2. fold h. cbn [high].
      transitivity (p * (h * e2 j * (t * t) + h * e1 j * t) + (p * h) * (e5 j * Fpow t 5 + e4 j * Fpow t 4 + e3 j * Fpow t 3))%F; [ring|].
      rewrite LO, HH. ring.
    + rewrite <- LO. ring.
Qed.
Lemma qv_same : forall c c' j t, (forall i, i <> (2 * b + 1) * 2 -> c i = c' i) -> j <= 2 * b -> qv c b j t = qv c' b j t.
Proof. intros c c' j t H Hj. unfold qv, lo, hi. rewrite !H by lia. reflexivity. Qed.
Lemma dl_sum : Sc dl b 0 = 0%F.
Proof.
  assert (E : forall c, Sc c b 0 = (Fpow two (2 * b + 1) * c ((2 * b + 1) * 2)%nat + Fpow two (2 * b + 1) * (half * sumn (2 * b + 1) (fun k => qv c b k 1)))%F).
  { intro c. unfold Sc. rewrite Nat.sub_0_r. cbn [Nat.add]. ring. }
  assert (C0 : dl0 ((2 * b + 1) * 2) = 0%F).
  { unfold dl0. destruct (Nat.ltb_spec ((2 * b + 1) * 2) (4 * b + 2)); [lia|]. destruct (Nat.ltb_spec ((2 * b + 1) * 2) (4 * b + 3)); [reflexivity|lia]. }
  assert (C1 : dl ((2 * b + 1) * 2) = dlc).
  { unfold dl. destruct (Nat.eqb_spec ((2 * b + 1) * 2) (4 * b + 2)); [reflexivity|lia]. }
  rewrite E, C1.
  rewrite (sumn_ext _ (fun k => qv dl b k 1) (fun k => qv dl0 b k 1%F)).
  2:{ intros k Hk. apply qv_same; [|lia]. intros i Hi. unfold dl. destruct (Nat.eqb_spec i (4 * b + 2)); [lia|reflexivity]. }
  pose proof (E dl0) as E0. rewrite C0 in E0.
  unfold dlc. set (s := Sc dl0 b 0) in *. set (T := (Fpow two (2 * b + 1) * (half * _))%F) in *.
  assert (Es : s = T) by (rewrite E0; ring). rewrite <- Es.
  transitivity (s - (Fpow two (2 * b + 1) * Fpow half (2 * b + 1)) * s)%F; [ring|]. rewrite half_two_pow. ring.
Qed.

(** Rounds that start with sum zero, each with the sum the previous one leads to. *)
Theorem dl_rounds : forall (D : nat -> F -> F) (rs : list F), length rs = 2 * b ->
  (forall j t, j <= 2 * b -> D j t = (D j 0 + erest j t)%F) ->
  (D 0%nat 0 + D 0%nat 1 = 0)%F ->
  (forall j, j < 2 * b -> (D (S j) 0%F + D (S j) 1%F)%F = D j (nth j rs 0%F)) ->
  forall j t, j <= 2 * b -> mround dl b (firstn j rs) t = D j t.
Proof.
  intros D rs Lr HD H0 HS.
  assert (K : forall j, j <= 2 * b -> Mk dl b (firstn j rs) = (D j 0%F + D j 1%F)%F -> forall t, mround dl b (firstn j rs) t = D j t).
  { intros j Hj E t. assert (Lj : length (firstn j rs) = j) by (rewrite firstn_length; lia).
    rewrite <- (mround_01 dl b (firstn j rs)) in E by lia.
    set (m0 := mround dl b (firstn j rs) 0%F) in *.
    assert (MR : forall x, mround dl b (firstn j rs) x = (m0 + erest j x)%F).
    { intro x. unfold m0, mround. rewrite Lj, qv_0, <- (dl_qv j x Hj). ring. }
    rewrite MR in E. rewrite (HD j 1%F Hj) in E. rewrite MR, (HD j t Hj). f_equal.
    assert (Z : (m0 - D j 0 = 0)%F).
    { apply double_zero. transitivity ((m0 + (m0 + erest j 1)) - (D j 0 + (D j 0 + erest j 1)))%F; [ring|]. rewrite E. ring. }
    transitivity ((m0 - D j 0) + D j 0)%F; [ring|]. rewrite Z. ring. }
  assert (Q : forall j, j <= 2 * b -> Mk dl b (firstn j rs) = (D j 0%F + D j 1%F)%F).
  { induction j as [|j IH]; intro Hj.
    - cbn [firstn]. rewrite H0. unfold Mk, qsum. cbn [length sumn]. rewrite dl_sum. ring.
    - assert (Lj : length (firstn j rs) = j) by (rewrite firstn_length; lia).
      assert (E : firstn (S j) rs = firstn j rs ++ [nth j rs 0%F]).
      { clear - Lr Hj. revert j Hj. rewrite <- Lr. clear Lr. induction rs as [|x l IHl]; intros j Hj; cbn [length] in Hj; [lia|].
        destruct j as [|j]; [reflexivity|]. cbn [firstn nth app]. f_equal. apply IHl. lia. }
      rewrite E, <- mround_next by lia. rewrite (K j ltac:(lia) (IH ltac:(lia))). symmetry. apply HS. lia. }
  intros j t Hj. apply K; [exact Hj|apply Q, Hj].
Qed.
End Solve.

(** Rounds of a sum of mask polynomials. *)
Lemma qv_add : forall c c' b j t, qv (fun i => c i + c' i)%F b j t = (qv c b j t + qv c' b j t)%F.
Proof. intros. unfold qv, lo, hi. ring. Qed.
Lemma Sc_add : forall c c' b j, Sc (fun i => c i + c' i)%F b j = (Sc c b j + Sc c' b j)%F.
Proof.
  intros. unfold Sc. rewrite (sumn_ext _ _ (fun k => qv c b (j + k) 1 + qv c' b (j + k) 1)%F) by (intros; apply qv_add).
  rewrite sumn_add. ring.
Qed.
Lemma mround_add : forall c c' b rs t, mround (fun i => c i + c' i)%F b rs t = (mround c b rs t + mround c' b rs t)%F.
Proof.
  intros. unfold mround. rewrite qv_add, Sc_add. unfold qsum.
  rewrite (sumn_ext _ _ (fun k => qv c b k (nth k rs 0) + qv c' b k (nth k rs 0))%F) by (intros; apply qv_add).
  rewrite sumn_add. ring.
Qed.
(** They depend on the coefficients up to number [4 b + 8]. *)
Lemma qv_ext : forall c c' b j t, (forall i, i < 4 * b + 9 -> c i = c' i) -> j <= 2 * b -> qv c b j t = qv c' b j t.
Proof. intros c c' b j t H Hj. unfold qv, lo, hi. rewrite !H by lia. reflexivity. Qed.
Lemma Sc_ext : forall c c' b j, (forall i, i < 4 * b + 9 -> c i = c' i) -> Sc c b j = Sc c' b j.
Proof.
  intros c c' b j H. unfold Sc. rewrite H by lia.
  rewrite (sumn_ext _ (fun k => qv c b (j + k) 1%F) (fun k => qv c' b (j + k) 1%F)); [reflexivity|].
  intros k Hk. apply qv_ext; [exact H|lia].
Qed.
Lemma mround_ext : forall c c' b rs t, (forall i, i < 4 * b + 9 -> c i = c' i) -> length rs <= 2 * b -> mround c b rs t = mround c' b rs t.
Proof.
  intros c c' b rs t H Hl. unfold mround. rewrite (qv_ext c c') by (assumption || lia). rewrite (Sc_ext c c') by exact H.
  unfold qsum. rewrite (sumn_ext _ (fun k => qv c b k (nth k rs 0%F)) (fun k => qv c' b k (nth k rs 0%F))); [reflexivity|].
  intros k Hk. apply qv_ext; [exact H|lia].
Qed.

(** ** The rounds of a layer *)
(** What the messages of a layer are made of, apart from the mask polynomial:
    [zd_k] the contribution of the value mask to the first sum, the tables of the
    two phases, the value mask of the previous layer [zd_S] and the last round. *)
Record zdata := ZData {
  zd_k : F; zd_V : nat -> F; zd_M1 : nat -> F; zd_A1 : nat -> F; zd_M2 : nat -> F; zd_A2 : nat -> F;
  zd_s0 : F; zd_s1 : F; zd_s2 : F; zd_g0 : F; zd_g1 : F; zd_g2 : F }.
Definition zd_S (X : zdata) (t : F) : F := (zd_s0 X + zd_s1 X * t + zd_s2 X * (t * t))%F.
Definition zd_G (X : zdata) (t : F) : F := (zd_g0 X + zd_g1 X * t + zd_g2 X * (t * t))%F.

Section Rounds.
Variable b : nat.
Hypothesis Hb : 1 <= b.
Variables ru rv : list F.
Hypothesis Lu : length ru = b.
Hypothesis Lv : length rv = b.

Definition zpart1 (c : nat -> F) (X : zdata) (j : nat) (t : F) : F :=
  let R := firstn j ru in
  (zround b c (zd_k X) (zd_V X) (zd_M1 X) (zd_A1 X) [] R t + if S j =? b then zlast (folds R (zd_M1 X)) (zp R) (zd_S X) t else 0)%F.
Definition zpart2 (c : nat -> F) (X : zdata) (j : nat) (t : F) : F :=
  let R := firstn j rv in
  (zround b c (zd_k X) (zd_V X) (zd_M2 X) (zd_A2 X) ru R t + if S j =? b then zlast (folds R (zd_M2 X)) (zp R) (zd_S X) t else 0)%F.
Definition zpart3 (c : nat -> F) (X : zdata) (t : F) : F := (zd_G X t + mround c b (ru ++ rv) t)%F.
(** Message number [j], [0 <= j <= 2 b]. *)
Definition zmsgs (c : nat -> F) (X : zdata) (j : nat) (t : F) : F :=
  if j <? b then zpart1 c X j t else if j <? 2 * b then zpart2 c X (j - b) t else zpart3 c X t.
(** What the value masks contribute to [v_u], [v_v]. *)
Definition zd_vu (X : zdata) : F := (mle ru (zd_V X) + zp ru * zd_S X (last ru 0))%F.
Definition zd_vv (X : zdata) : F := (mle rv (zd_V X) + zp rv * zd_S X (last rv 0))%F.

Definition zno : nat -> F := fun _ => 0%F.
Lemma mround_no : forall rs t, mround zno b rs t = 0%F.
Proof.
  intros. unfold mround, Sc, qsum. 
  assert (Q : forall k t, qv zno b k t = 0%F) by (intros; unfold qv, lo, hi, zno; ring).
  rewrite (sumn_ext (2 * b + 1 - S (length rs)) _ (fun _ => 0%F)) by (intros; apply Q).
  rewrite (sumn_ext (length rs) _ (fun _ => 0%F)) by (intros; apply Q).
  rewrite !sumn_zero, Q. unfold zno. ring.
Qed.
Lemma zmsgs_split : forall c X j t, j <= 2 * b -> zmsgs c X j t = (zmsgs zno X j t + mround c b (firstn j (ru ++ rv)) t)%F.
Proof.
  intros c X j t Hj. unfold zmsgs. destruct (Nat.ltb_spec j b).
  - unfold zpart1, zround. rewrite mround_no. cbn [app]. rewrite firstn_app, Lu. replace (j - b) with 0 by lia. rewrite firstn_O, app_nil_r. ring.
  - rewrite firstn_app, Lu, (firstn_all2 ru) by lia. destruct (Nat.ltb_spec j (2 * b)).
    + unfold zpart2, zround. rewrite mround_no. ring.
    + unfold zpart3. rewrite mround_no, (firstn_all2 rv) by lia. ring.
Qed.

(** Consistency, [d] the relay term the verifier adds in the second phase. *)
Definition zadd (d : F) (X : zdata) (j : nat) : F := if b <=? j then (d * zd_vu X)%F else 0%F.
Record zconsistent (d : F) (X : zdata) : Prop := {
  zk_link : (mle ru (zd_M1 X) * zd_vu X + mle ru (zd_A1 X) = psum b (zd_V X) (zd_M2 X) (zd_A2 X) + d * zd_vu X)%F;
  zk_final : (zd_G X 0 + zd_G X 1 = mle rv (zd_M2 X) * zd_vv X + mle rv (zd_A2 X) + zd_k X * op (ru ++ rv))%F }.
Lemma firstn_S' : forall (l : list F) j, j < length l -> firstn (S j) l = firstn j l ++ [nth j l 0%F].
Proof.
  induction l as [|x l IH]; intros j H; cbn [length] in H; [lia|]. destruct j as [|j]; [reflexivity|].
  cbn [firstn nth app]. f_equal. apply IH. lia.
Qed.
Lemma zlast_01 : forall Mt z S, (zlast Mt z S 0 + zlast Mt z S 1 = 0)%F.
Proof. intros. unfold zlast. ring. Qed.
Lemma zlast_at : forall R M r S, zlast (folds R M) (zp R) S r = (mle (R ++ [r]) M * (zp (R ++ [r]) * S r))%F.
Proof.
  intros. unfold zlast. rewrite zp_snoc, mle_folds, folds_snoc. ring.
Qed.
Lemma zsum_0 : forall c k V M A pre R, length R = b -> length pre <= b ->
  zsum b c k V M A pre R = (mle R V * mle R M + mle R A + k * op (pre ++ R) + Mk c b (pre ++ R))%F.
Proof. intros. unfold zsum. rewrite H, Nat.sub_diag. unfold psum. cbn [Nat.pow sumn]. rewrite !mle_folds. ring. Qed.

Lemma zmsgs_start : forall c X, (zmsgs c X 0%nat 0 + zmsgs c X 0%nat 1 = psum b (zd_V X) (zd_M1 X) (zd_A1 X) + zd_k X + Sc c b 0)%F.
Proof.
  intros c X. unfold zmsgs. destruct (Nat.ltb_spec 0 b); [|lia]. unfold zpart1. cbn [firstn].
  transitivity ((zround b c (zd_k X) (zd_V X) (zd_M1 X) (zd_A1 X) [] [] 0 + zround b c (zd_k X) (zd_V X) (zd_M1 X) (zd_A1 X) [] [] 1))%F.
  - destruct (1 =? b); [|ring]. pose proof (zlast_01 (folds [] (zd_M1 X)) (zp []) (zd_S X)) as E.
    set (x := zlast _ _ _ 0%F) in *. set (y := zlast _ _ _ 1%F) in *. set (p := zround _ _ _ _ _ _ _ _ _). set (q := zround _ _ _ _ _ _ _ _ 1%F).
    transitivity (p + q + (x + y))%F; [ring|]. rewrite E. ring.
  - rewrite zround_01 by (cbn [length]; lia). unfold zsum. cbn [length folds app op]. rewrite Nat.sub_0_r. unfold Mk, qsum. cbn [length sumn]. ring.
Qed.
Lemma zround_pair : forall c k V M A pre j (R : list F) t0 (S' : F -> F), length R = b -> j < b -> length pre <= b ->
  t0 = nth j R 0%F ->
  (zround b c k V M A pre (firstn j R) t0 + (if S j =? b then zlast (folds (firstn j R) M) (zp (firstn j R)) S' t0 else 0))%F =
  (zsum b c k V M A pre (firstn (S j) R) + if S j =? b then mle R M * (zp R * S' (last R 0)) else 0)%F.
Proof.
  intros c k V M A pre j R t0 S' LR Hj Hp ->. rewrite zround_next by (rewrite ?firstn_length; lia).
  rewrite <- firstn_S' by lia. f_equal. destruct (Nat.eqb_spec (S j) b) as [E|]; [|reflexivity].
  rewrite zlast_at, <- firstn_S' by lia. rewrite E, firstn_all2 by lia. 
  assert (EL : last R 0%F = nth j R 0%F).
  { rewrite <- (firstn_all2 R) at 1 by (rewrite LR; apply le_n). rewrite <- E, firstn_S' by lia. apply last_last. }
  rewrite EL. reflexivity.
Qed.
Lemma zround_sum : forall c k V M A pre j (R : list F) (S' : F -> F), length R = b -> j < b -> length pre <= b ->
  ((zround b c k V M A pre (firstn j R) 0 + (if S j =? b then zlast (folds (firstn j R) M) (zp (firstn j R)) S' 0 else 0)) +
   (zround b c k V M A pre (firstn j R) 1 + (if S j =? b then zlast (folds (firstn j R) M) (zp (firstn j R)) S' 1 else 0)))%F =
  zsum b c k V M A pre (firstn j R).
Proof.
  intros c k V M A pre j R S' LR Hj Hp. rewrite <- zround_01 by (rewrite ?firstn_length; lia).
  destruct (S j =? b); [|ring]. pose proof (zlast_01 (folds (firstn j R) M) (zp (firstn j R)) S') as E.
  set (x := zlast _ _ _ 0%F) in *. set (y := zlast _ _ _ 1%F) in *. set (p := zround _ _ _ _ _ _ _ _ _). set (q := zround _ _ _ _ _ _ _ _ 1%F).
  transitivity (p + q + (x + y))%F; [ring|]. rewrite E. ring.
Qed.
Lemma zmsgs_next : forall c d X j, zconsistent d X -> j < 2 * b ->
  (zmsgs c X (S j) 0 + zmsgs c X (S j) 1 + zadd d X (S j) = zmsgs c X j (nth j (ru ++ rv) 0) + zadd d X j)%F.
Proof.
  intros c d X j [HL HF] Hj. unfold zmsgs, zadd.
  destruct (Nat.ltb_spec j b) as [J1|J1].
  - rewrite app_nth1 by lia. destruct (Nat.leb_spec b j); [lia|].
    unfold zpart1 at 3. cbv zeta. rewrite (zround_pair c (zd_k X) (zd_V X) (zd_M1 X) (zd_A1 X) [] j ru _ (zd_S X) Lu J1 ltac:(cbn [length]; lia) eq_refl).
    destruct (Nat.ltb_spec (S j) b) as [J2|J2].
    + destruct (Nat.eqb_spec (S j) b); [lia|]. destruct (Nat.leb_spec b (S j)); [lia|]. unfold zpart1. cbv zeta.
      rewrite (zround_sum c (zd_k X) (zd_V X) (zd_M1 X) (zd_A1 X) [] (S j) ru (zd_S X) Lu J2 ltac:(cbn [length]; lia)). ring.
    + destruct (Nat.eqb_spec (S j) b) as [E|]; [|lia]. destruct (Nat.leb_spec b (S j)); [|lia]. destruct (Nat.ltb_spec (S j) (2 * b)); [|lia].
      rewrite E, Nat.sub_diag, (firstn_all2 ru) by lia. unfold zpart2. cbv zeta.
      rewrite (zround_sum c (zd_k X) (zd_V X) (zd_M2 X) (zd_A2 X) ru 0 rv (zd_S X) Lv ltac:(lia) ltac:(lia)). cbn [firstn].
      rewrite (zsum_0 c (zd_k X) (zd_V X) (zd_M1 X) (zd_A1 X) [] ru Lu ltac:(cbn [length]; lia)). cbn [app].
      unfold zsum. cbn [length folds]. rewrite Nat.sub_0_r, app_nil_r.
      transitivity ((psum b (zd_V X) (zd_M2 X) (zd_A2 X) + d * zd_vu X) + zd_k X * op ru + Mk c b ru)%F; [ring|].
      rewrite <- HL. unfold zd_vu. ring.
  - rewrite app_nth2 by lia. rewrite Lu. destruct (Nat.leb_spec b j); [|lia]. destruct (Nat.leb_spec b (S j)); [|lia].
    destruct (Nat.ltb_spec (S j) b); [lia|]. destruct (Nat.ltb_spec j (2 * b)); [|lia].
    unfold zpart2 at 3. cbv zeta. rewrite (zround_pair c (zd_k X) (zd_V X) (zd_M2 X) (zd_A2 X) ru (j - b) rv _ (zd_S X) Lv ltac:(lia) ltac:(lia) eq_refl).
    f_equal. destruct (Nat.ltb_spec (S j) (2 * b)) as [J2|J2].
    + destruct (Nat.eqb_spec (S (j - b)) b); [lia|]. unfold zpart2. cbv zeta. replace (S j - b) with (S (j - b)) by lia.
      rewrite (zround_sum c (zd_k X) (zd_V X) (zd_M2 X) (zd_A2 X) ru (S (j - b)) rv (zd_S X) Lv ltac:(lia) ltac:(lia)). ring.
    + destruct (Nat.eqb_spec (S (j - b)) b) as [E|]; [|lia]. rewrite E, (firstn_all2 rv) by lia.
      rewrite (zsum_0 c (zd_k X) (zd_V X) (zd_M2 X) (zd_A2 X) ru rv Lv ltac:(lia)). unfold zpart3.
      transitivity ((zd_G X 0 + zd_G X 1) + (mround c b (ru ++ rv) 0 + mround c b (ru ++ rv) 1))%F; [ring|].
      rewrite HF, mround_01 by (rewrite app_length; lia). unfold zd_vv. ring.
Qed.

(** *** Coefficients *)
Definition dif2 (f : F -> F) : F := (half * (f 1 + f (- (1)) - (f 0 + f 0)))%F.
Definition dif1 (f : F -> F) : F := (half * (f 1 - f (- (1))))%F.
Lemma quadratic_dif : forall f a b' c, (forall t, f t = (a * t * t + b' * t + c)%F) -> forall t, f t = (f 0 + (dif1 f * t + dif2 f * (t * t)))%F.
Proof.
  intros f a b' c H t. unfold dif1, dif2. rewrite !H.
  transitivity (c + (two * half) * (b' * t + a * (t * t)))%F; [rewrite two_half'; ring|]. unfold two. ring.
Qed.
(** The part without the terms of degree 3 to 5. *)
Definition zquad (X : zdata) (j : nat) (t : F) : F :=
  if j <? b then zround b zno (zd_k X) (zd_V X) (zd_M1 X) (zd_A1 X) [] (firstn j ru) t
  else if j <? 2 * b then zround b zno (zd_k X) (zd_V X) (zd_M2 X) (zd_A2 X) ru (firstn (j - b) rv) t
  else zd_G X t.
Definition zMt (X : zdata) (j : nat) : nat -> F :=
  if j <? b then folds (firstn j ru) (zd_M1 X) else folds (firstn (j - b) rv) (zd_M2 X).
Definition zzt (j : nat) : F := if j <? b then zp (firstn j ru) else zp (firstn (j - b) rv).
Lemma last_cases : forall j, j <= 2 * b -> is_last b j = if j <? b then S j =? b else if j <? 2 * b then S (j - b) =? b else false.
Proof.
  intros j Hj. unfold is_last. destruct (Nat.eqb_spec j (b - 1)), (Nat.eqb_spec j (2 * b - 1)), (Nat.ltb_spec j b), (Nat.ltb_spec j (2 * b)),
    (Nat.eqb_spec (S j) b), (Nat.eqb_spec (S (j - b)) b); cbn [orb]; try reflexivity; lia.
Qed.
Lemma zmsgs_no : forall X j t, j <= 2 * b ->
  zmsgs zno X j t = (zquad X j t + if is_last b j then zlast (zMt X j) (zzt j) (zd_S X) t else 0)%F.
Proof.
  intros X j t Hj. rewrite last_cases by exact Hj. unfold zmsgs, zquad, zMt, zzt, zpart1, zpart2, zpart3.
  destruct (Nat.ltb_spec j b); [reflexivity|]. destruct (Nat.ltb_spec j (2 * b)); [reflexivity|]. rewrite mround_no. reflexivity.
Qed.
Lemma zquad_dif : forall X j t, zquad X j t = (zquad X j 0 + (dif1 (zquad X j) * t + dif2 (zquad X j) * (t * t)))%F.
Proof.
  intros X j.
  assert (G : exists a b' c, forall t, zquad X j t = (a * t * t + b' * t + c)%F).
  { assert (Z : forall k V M A pre R, exists a b' c, forall t, zround b zno k V M A pre R t = (a * t * t + b' * t + c)%F).
    { intros k V M A pre R. destruct (round_quadratic (b - S (length R)) (folds R V) (folds R M) (folds R A)) as (a & b' & c & E).
      exists a, (b' - k * op (pre ++ R))%F, (c + k * op (pre ++ R))%F. intro t. unfold zround. rewrite E, mround_no. ring. }
    unfold zquad. destruct (j <? b); [apply Z|]. destruct (j <? 2 * b); [apply Z|].
    exists (zd_g2 X), (zd_g1 X), (zd_g0 X). intro t. unfold zd_G. ring. }
  destruct G as (a & b' & c & E). exact (quadratic_dif _ _ _ _ E).
Qed.
Definition zq0 (X : zdata) (j : nat) : F := zMt X j 0.
Definition zq1 (X : zdata) (j : nat) : F := (zMt X j 1%nat - zMt X j 0%nat)%F.
Definition l1 (X : zdata) (j : nat) : F := (zzt j * (zq0 X j * zd_s0 X))%F.
Definition l2 (X : zdata) (j : nat) : F := (zzt j * (zq0 X j * zd_s1 X + (zq1 X j - zq0 X j) * zd_s0 X))%F.
Definition l3 (X : zdata) (j : nat) : F := (zzt j * (zq0 X j * zd_s2 X + (zq1 X j - zq0 X j) * zd_s1 X - zq1 X j * zd_s0 X))%F.
Definition l4 (X : zdata) (j : nat) : F := (zzt j * ((zq1 X j - zq0 X j) * zd_s2 X - zq1 X j * zd_s1 X))%F.
Definition l5 (X : zdata) (j : nat) : F := (0 - zzt j * (zq1 X j * zd_s2 X))%F.
Lemma zlast_coefs : forall X j t, zlast (zMt X j) (zzt j) (zd_S X) t =
  (l1 X j * t + l2 X j * (t * t) + (l3 X j * Fpow t 3 + l4 X j * Fpow t 4 + l5 X j * Fpow t 5))%F.
Proof.
  intros X j t. unfold zlast, l1, l2, l3, l4, l5, zq0, zq1, zd_S, fold1. cbn [Fpow]. simpl (2 * 0). simpl (0 + 1).
  generalize (zMt X j 0) (zMt X j 1) (zzt j) (zd_s0 X) (zd_s1 X) (zd_s2 X). intros. ring.
Qed.

Section Two.
Variables X Y : zdata.
Definition dlast (f : zdata -> nat -> F) (j : nat) : F := if is_last b j then (f X j - f Y j)%F else 0%F.
Definition de1 (j : nat) : F := (dif1 (zquad X j) - dif1 (zquad Y j) + dlast l1 j)%F.
Definition de2 (j : nat) : F := (dif2 (zquad X j) - dif2 (zquad Y j) + dlast l2 j)%F.
(** The mask polynomial that makes up for the difference between [X] and [Y]. *)
Definition zshift : nat -> F := dl b de1 de2 (dlast l3) (dlast l4) (dlast l5).

Variable d : F.
Hypothesis CX : zconsistent d X.
Hypothesis CY : zconsistent d Y.
Hypothesis Eu : zd_vu X = zd_vu Y.
Hypothesis Es : (psum b (zd_V X) (zd_M1 X) (zd_A1 X) + zd_k X = psum b (zd_V Y) (zd_M1 Y) (zd_A1 Y) + zd_k Y)%F.

Theorem zshift_rounds : forall c j t, j <= 2 * b -> zmsgs (fun i => c i + zshift i)%F Y j t = zmsgs c X j t.
Proof.
  intros c j t Hj. rewrite (zmsgs_split (fun i => c i + zshift i)%F Y), (zmsgs_split c X) by exact Hj. rewrite mround_add.
  set (D := fun j t => (zmsgs zno X j t - zmsgs zno Y j t)%F).
  assert (E : mround zshift b (firstn j (ru ++ rv)) t = D j t).
  { unfold zshift. apply (dl_rounds b Hb _ _ _ _ _ D); [rewrite app_length; lia| | | |exact Hj].
    - intros j' t' Hj'. unfold D. rewrite !zmsgs_no by exact Hj'. rewrite (zquad_dif X j' t'), (zquad_dif Y j' t').
      unfold erest, de1, de2, dlast. destruct (is_last b j') eqn:EL; [|ring].
      rewrite !zlast_coefs. cbn [Fpow]. ring.
    - unfold D. pose proof (zmsgs_start zno X) as S1. pose proof (zmsgs_start zno Y) as S2.
      transitivity ((zmsgs zno X 0%nat 0 + zmsgs zno X 0%nat 1) - (zmsgs zno Y 0%nat 0 + zmsgs zno Y 0%nat 1))%F; [ring|]. rewrite S1, S2, Es. ring.
    - intros j' Hj'. unfold D. pose proof (zmsgs_next zno d X j' CX Hj') as S1. pose proof (zmsgs_next zno d Y j' CY Hj') as S2.
      assert (A : forall j, zadd d X j = zadd d Y j) by (intro; unfold zadd; rewrite Eu; reflexivity).
      rewrite !A in S1.
      set (a1 := zadd d Y (S j')) in *. set (a0 := zadd d Y j') in *.
      transitivity ((zmsgs zno X (S j') 0 + zmsgs zno X (S j') 1 + a1) - (zmsgs zno Y (S j') 0 + zmsgs zno Y (S j') 1 + a1))%F; [ring|].
      rewrite S1, S2. ring. }
  rewrite E. unfold D. ring.
Qed.
Theorem zshift_sum : forall c, Sc (fun i => c i + zshift i)%F b 0 = Sc c b 0.
Proof. intro c. rewrite Sc_add. unfold zshift. rewrite dl_sum by exact Hb. ring. Qed.
End Two.
End Rounds.

(** ** Inverses *)
Lemma F_dec : forall a b : F, {a = b} + {a <> b}.
Proof.
  intros a b. destruct (Z.eq_dec (fz a) (fz b)) as [E|N]; [left; apply F_eq, E|right]. intro E. apply N. rewrite E. reflexivity.
Qed.
Definition is_inverse (a x : F) : bool := if F_dec (a * x)%F 1%F then true else false.
(** Some inverse of a field element that is not 0, by search. *)
Definition Finv (a : F) : F :=
  match find (is_inverse a) (map (fun n => ofZ (Z.of_nat n)) (seq 0 (Z.to_nat P))) with Some x => x | None => 0%F end.
Lemma Finv_ok : forall a, a <> 0%F -> (a * Finv a = 1)%F.
Proof.
  intros a Ha. unfold Finv. destruct (find _ _) as [x|] eqn:E.
  - apply find_some in E. destruct E as [_ E]. unfold is_inverse in E. destruct (F_dec (a * x)%F 1%F) as [H|]; [exact H|discriminate].
  - destruct (F_inverse a Ha) as [x Hx]. exfalso.
    pose proof (find_none _ _ E x) as N. assert (T : is_inverse a x = true).
    { unfold is_inverse. destruct (F_dec (a * x)%F 1%F); [reflexivity|contradiction]. }
    rewrite T in N. discriminate N. apply in_map_iff. exists (Z.to_nat (fz x)). pose proof (fz_range x) as R. split.
    + rewrite Z2Nat.id by lia. apply ofZ_fz.
    + apply in_seq. split; [lia|]. apply Z2Nat.inj_lt; lia.
Qed.
#[global] Opaque Finv.

(** ** Value masks *)
(** Six coefficients with prescribed effect on the two revealed values and none on
    the two opened values. *)
Definition RSum (mk : list F) (x : F) : F := (poly_R (fun i => nth i mk 0) x 0 + poly_R (fun i => nth i mk 0) x 1)%F.
Definition value_mask (u v c s s' : F) : list F :=
  let x := Finv (1 - (c + c)) in let m5 := (x * Finv (u - v) * (s - s'))%F in let m3 := (x * s - m5 * u)%F in
  [0 - m3 * c; 0 - m5 * c; 0; m3; 0; m5]%F.
Lemma value_mask_ok : forall u v c s s' : F, u <> v -> (1 - (c + c) <> 0)%F ->
  let mk := value_mask u v c s s' in RSum mk u = s /\ RSum mk v = s' /\
  poly_R (fun i => nth i mk 0%F) u c = 0%F /\ poly_R (fun i => nth i mk 0%F) v c = 0%F.
Proof.
  intros u v c s s' Huv Hc. unfold value_mask.
  assert (Hd : (u - v <> 0)%F). { intro E. apply Huv. transitivity ((u - v) + v)%F; [ring|]. rewrite E. ring. }
  pose proof (Finv_ok _ Hd) as Hy. pose proof (Finv_ok _ Hc) as Hx.
  set (y := Finv (u - v)) in *. set (x := Finv (1 - (c + c))) in *. cbv zeta.
  set (m5 := (x * y * (s - s'))%F). set (m3 := (x * s - m5 * u)%F).
  assert (Ru : (m3 + m5 * u = x * s)%F) by (unfold m3; ring).
  assert (Rv : (m3 + m5 * v = x * s')%F).
  { transitivity (x * s - x * ((u - v) * y) * (s - s'))%F; [unfold m3, m5; ring|]. rewrite Hy. ring. }
  unfold RSum, poly_R. cbn [nth].
  repeat split.
  - transitivity ((1 - (c + c)) * (m3 + m5 * u))%F; [ring|]. rewrite Ru. transitivity (((1 - (c + c)) * x) * s)%F; [ring|]. rewrite Hx. ring.
  - transitivity ((1 - (c + c)) * (m3 + m5 * v))%F; [ring|]. rewrite Rv. transitivity (((1 - (c + c)) * x) * s')%F; [ring|]. rewrite Hx. ring.
  - ring.
  - ring.
Qed.
