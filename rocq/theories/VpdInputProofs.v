(** * Proofs about the input commitment (inputvpd.cpp) *)
From Coq Require Import ZArith List Bool Arith Lia.
From Verif Require Import Base Limbs Field FieldProofs Fp MleSpec.
From Verif Require Import VpdGroup VpdInput VpdGroupProofs VpdRProofs VpdMaskProofs.
Import ListNotations.
Open Scope nat_scope.

Lemma shl_int_ok : forall n, n < 31 -> shl_int (Z.of_nat n) = Ok (2 ^ n).
Proof.
  intros n H. unfold shl_int. destruct (Z.leb_spec 0 (Z.of_nat n)); [|lia].
  destruct (Z.ltb_spec (Z.of_nat n) 31); [|lia]. rewrite Nat2Z.id. reflexivity.
Qed.
Lemma shl_int_pred : forall n, 1 <= n < 31 -> shl_int (Z.of_nat n - 1) = Ok (2 ^ (n - 1)).
Proof. intros n H. replace (Z.of_nat n - 1)%Z with (Z.of_nat (n - 1)) by lia. apply shl_int_ok. lia. Qed.

(** ** The transform from values to coefficients *)
Definition stepT (i : nat) (T : nat -> F) (x : nat) : F :=
  if Nat.testbit x i then (T (x - 2 ^ i)%nat - T x)%F else T (x + 2 ^ i).
Fixpoint levels (n : nat) (V : nat -> F) (i : nat) : nat -> F :=
  match i with O => fun x => V (2 ^ n - 1 - x) | S i' => stepT i' (levels n V i') end.
(** The coefficients produced by the transform from the values [V]. *)
Definition coefT (n : nat) (V : nat -> F) : nat -> F := levels n V n.

(** Positions already treated at level [i] after [j] groups and [k] pairs. *)
Definition dn (i j k x : nat) : bool :=
  (x / 2 ^ (i + 1) <? j) || ((x / 2 ^ (i + 1) =? j) && (x mod 2 ^ i <? k)).

Lemma pos_split : forall i x, exists y z, z < 2 ^ i /\
  (x = y * 2 ^ (i + 1) + z /\ Nat.testbit x i = false \/ x = y * 2 ^ (i + 1) + 2 ^ i + z /\ Nat.testbit x i = true).
Proof.
  intros i x. exists (x / 2 ^ (i + 1)), (x mod 2 ^ i). pose proof (pow2_pos i) as H.
  split; [apply Nat.mod_upper_bound; lia|].
  pose proof (Nat.div_mod x (2 ^ i) ltac:(lia)) as E. rewrite Nat.add_1_r, Nat.pow_succ_r'.
  rewrite (Nat.mul_comm 2), <- Nat.div_div by lia.
  pose proof (Nat.div_mod (x / 2 ^ i) 2 ltac:(lia)) as E2.
  rewrite Nat.testbit_eqb. pose proof (Nat.mod_upper_bound (x / 2 ^ i) 2 ltac:(lia)).
  set (q := x / 2 ^ i) in *. set (z := x mod 2 ^ i) in *. set (y := q / 2) in *.
  destruct (Nat.eqb_spec (q mod 2) 1) as [C|C].
  - right. split; [|reflexivity]. rewrite E, E2, C. ring.
  - left. split; [|reflexivity]. replace (q mod 2) with 0 in E2 by lia. rewrite E, E2. ring.
Qed.
Lemma pos_lo : forall i y z, z < 2 ^ i ->
  (y * 2 ^ (i + 1) + z) / 2 ^ (i + 1) = y /\ (y * 2 ^ (i + 1) + z) mod 2 ^ i = z /\ Nat.testbit (y * 2 ^ (i + 1) + z) i = false.
Proof.
  intros i y z H. assert (E : 2 ^ (i + 1) = 2 * 2 ^ i) by (rewrite Nat.add_1_r; apply Nat.pow_succ_r').
  split; [|split].
  - symmetry. apply Nat.div_unique with z; lia.
  - symmetry. apply Nat.mod_unique with (2 * y); lia.
  - rewrite Nat.testbit_eqb. replace ((y * 2 ^ (i + 1) + z) / 2 ^ i) with (2 * y) by (apply Nat.div_unique with z; lia).
    rewrite Nat.mul_comm, Nat.mod_mul by lia. reflexivity.
Qed.
Lemma pos_hi : forall i y z, z < 2 ^ i ->
  (y * 2 ^ (i + 1) + 2 ^ i + z) / 2 ^ (i + 1) = y /\ (y * 2 ^ (i + 1) + 2 ^ i + z) mod 2 ^ i = z
  /\ Nat.testbit (y * 2 ^ (i + 1) + 2 ^ i + z) i = true.
Proof.
  intros i y z H. assert (E : 2 ^ (i + 1) = 2 * 2 ^ i) by (rewrite Nat.add_1_r; apply Nat.pow_succ_r').
  split; [|split].
  - symmetry. apply Nat.div_unique with (2 ^ i + z); lia.
  - symmetry. apply Nat.mod_unique with (2 * y + 1); lia.
  - rewrite Nat.testbit_eqb.
    replace ((y * 2 ^ (i + 1) + 2 ^ i + z) / 2 ^ i) with (2 * y + 1) by (apply Nat.div_unique with z; lia).
    replace ((2 * y + 1) mod 2) with 1 by (apply Nat.mod_unique with y; lia). reflexivity.
Qed.

Lemma rem_diff_fz : forall a b, Z.rem (fz a - fz b + P) P = fz (a - b)%F.
Proof.
  intros a b. apply rem_fz; [pose proof (fz_range a); pose proof (fz_range b); lia|].
  rewrite ofZ_add, ofZ_sub, !ofZ_fz, ofZ_P. ring.
Qed.

Lemma dn_next : forall i j k x, k < 2 ^ i -> x <> j * 2 ^ (i + 1) + k -> x <> j * 2 ^ (i + 1) + 2 ^ i + k ->
  dn i j (S k) x = dn i j k x.
Proof.
  intros i j k x Hk N1 N2. unfold dn. f_equal.
  destruct (pos_split i x) as (y & z & Hz & [[E _]|[E _]]);
    [pose proof (pos_lo i y z Hz) as (D & M & _)|pose proof (pos_hi i y z Hz) as (D & M & _)];
    rewrite <- E in D, M; rewrite D, M; destruct (Nat.eqb_spec y j) as [->|]; try reflexivity; cbn [andb];
    destruct (Nat.ltb_spec z (S k)), (Nat.ltb_spec z k); try reflexivity; lia.
Qed.

Lemma pre_input_level : forall N n i T l, i < n -> 2 ^ n <= N -> length l = N -> arr l (2 ^ n) (fun x => fz (T x)) ->
  (forall m, m < N - 2 ^ n -> nth_error l (2 ^ n + m) = nth_error l (2 ^ n + m)) ->
  returns
   (for_ (2 ^ n / 2 ^ (i + 1)) 0 (fun j input =>
      let base := j * 2 ^ (i + 1) in
      for_ (2 ^ (i + 1) / 2) 0 (fun k input =>
        tmp <- rd input (base + k) ;;
        y <- rd input (base + 2 ^ i + k) ;;
        input <- wr input (base + k) y ;;
        y <- rd input (base + 2 ^ i + k) ;;
        wr input (base + k + 2 ^ i) (Z.rem (tmp - y + P) P)) input) l)
   (fun l' => length l' = N /\ arr l' (2 ^ n) (fun x => fz (stepT i T x)) /\
     forall m, 2 ^ n <= m -> nth_error l' m = nth_error l m).
Proof.
  intros N n i T l Hi HN L A _.
  assert (E1 : 2 ^ (i + 1) = 2 * 2 ^ i) by (rewrite Nat.add_1_r; apply Nat.pow_succ_r').
  assert (EH : 2 ^ (i + 1) / 2 = 2 ^ i) by (rewrite E1, Nat.mul_comm; apply Nat.div_mul; lia).
  assert (EG : 2 ^ n = 2 ^ (n - (i + 1)) * 2 ^ (i + 1)) by (rewrite <- Nat.pow_add_r; f_equal; lia).
  assert (ED : 2 ^ n / 2 ^ (i + 1) = 2 ^ (n - (i + 1))).
  { rewrite EG. apply Nat.div_mul. pose proof (pow2_pos (i + 1)). lia. }
  pose proof (pow2_pos i) as Pi.
  rewrite ED, EH. set (M := 2 ^ (n - (i + 1))) in *.
  set (st := fun j k (l' : list Z) => length l' = N /\
     arr l' (2 ^ n) (fun x => fz (if dn i j k x then stepT i T x else T x)) /\
     forall m, 2 ^ n <= m -> nth_error l' m = nth_error l m).
  eapply returns_conseq.
  - apply (returns_for _ _ _ _ (fun j l' => st j 0 l')).
    + split; [exact L|]. split; [|reflexivity]. eapply arr_ext; [exact A|]. intros x Hx. cbv beta.
      unfold dn. rewrite andb_false_r. reflexivity.
    + intros j l0 Hj H0. cbv zeta.
      eapply returns_conseq.
      * apply (returns_for _ _ _ _ (fun k l' => st j k l')); [exact H0|].
        intros k l' Hk (L' & A' & R').
        assert (HB : j * 2 ^ (i + 1) + 2 * 2 ^ i <= 2 ^ n).
        { rewrite EG, <- E1. replace (j * 2 ^ (i + 1) + 2 ^ (i + 1)) with (S j * 2 ^ (i + 1)) by (simpl; lia).
          apply Nat.mul_le_mono_r. lia. }
        set (base := j * 2 ^ (i + 1)) in *.
        destruct (pos_lo i j k ltac:(lia)) as (D0 & M0 & B0). destruct (pos_hi i j k ltac:(lia)) as (D1 & M1 & B1).
        fold base in D0, M0, B0, D1, M1, B1.
        eapply rb_arr; [exact A'|lia|]. eapply rb_arr; [exact A'|lia|]. cbv beta.
        assert (X0 : dn i j k (base + k) = false).
        { unfold dn. rewrite D0, M0, Nat.ltb_irrefl, Nat.ltb_irrefl, andb_false_r. reflexivity. }
        assert (X1 : dn i j k (base + 2 ^ i + k) = false).
        { unfold dn. rewrite D1, M1, Nat.ltb_irrefl, Nat.ltb_irrefl, andb_false_r. reflexivity. }
        rewrite X0, X1. apply rb_wr'; [lia|].
        eapply rb_arr; [apply arr_upd; [exact A'|lia]|lia|]. cbv beta.
        destruct (Nat.eqb_spec (base + 2 ^ i + k) (base + k)) as [|_]; [lia|]. rewrite X1, rem_diff_fz.
        apply returns_wr; [rewrite upd_length; lia|]. unfold st. split; [rewrite !upd_length; exact L'|]. split.
        -- eapply arr_ext; [apply arr_upd; [apply arr_upd; [exact A'|lia]|lia]|]. intros x Hx. cbv beta.
           replace (base + k + 2 ^ i) with (base + 2 ^ i + k) by lia.
           destruct (Nat.eqb_spec x (base + 2 ^ i + k)) as [->|N1].
           { unfold dn. rewrite D1, M1, Nat.ltb_irrefl, Nat.eqb_refl. cbn [orb andb].
             destruct (Nat.ltb_spec k (S k)); [|lia]. unfold stepT. rewrite B1.
             replace (base + 2 ^ i + k - 2 ^ i) with (base + k) by lia. reflexivity. }
           destruct (Nat.eqb_spec x (base + k)) as [->|N2].
           { unfold dn. rewrite D0, M0, Nat.ltb_irrefl, Nat.eqb_refl. cbn [orb andb].
             destruct (Nat.ltb_spec k (S k)); [|lia]. unfold stepT. rewrite B0.
             replace (base + k + 2 ^ i) with (base + 2 ^ i + k) by lia. reflexivity. }
           rewrite dn_next by (unfold base in *; lia). reflexivity.
        -- intros m Hm. rewrite !nth_upd_other by lia. apply R', Hm.
      * intros l' (L' & A' & R'). split; [exact L'|]. split; [|exact R']. eapply arr_ext; [exact A'|].
        intros x Hx. cbv beta. do 2 f_equal.
        assert (DE : dn i j (0 + 2 ^ i) x = dn i (S j) 0 x).
        { unfold dn. rewrite andb_false_r, orb_false_r. pose proof (Nat.mod_upper_bound x (2 ^ i) ltac:(lia)).
          destruct (Nat.ltb_spec (x mod 2 ^ i) (0 + 2 ^ i)); [|lia]. rewrite andb_true_r.
          destruct (Nat.ltb_spec (x / 2 ^ (i + 1)) j), (Nat.eqb_spec (x / 2 ^ (i + 1)) j),
            (Nat.ltb_spec (x / 2 ^ (i + 1)) (S j)); try reflexivity; lia. }
        rewrite DE. reflexivity.
  - intros l' (L' & A' & R'). split; [exact L'|]. split; [|exact R']. eapply arr_ext; [exact A'|].
    intros x Hx. cbv beta. unfold dn. destruct (Nat.ltb_spec (x / 2 ^ (i + 1)) (0 + M)) as [|C]; [reflexivity|].
    exfalso. assert (x / 2 ^ (i + 1) < M); [|lia]. apply Nat.div_lt_upper_bound; [lia|]. lia.
Qed.

Lemma pre_input_ok : forall n V l, 1 <= n < 31 -> 2 ^ n <= length l -> arr l (2 ^ n) (fun x => fz (V x)) ->
  returns (pre_input n l) (fun l' => length l' = length l /\ arr l' (2 ^ n) (fun x => fz (coefT n V x)) /\
    forall m, 2 ^ n <= m -> nth_error l' m = nth_error l m).
Proof.
  intros n V l Hn HL A. unfold pre_input. rewrite shl_int_pred, shl_int_ok by lia. cbn [bind].
  set (h := 2 ^ (n - 1)). assert (EH : 2 ^ n = 2 * h).
  { unfold h. rewrite <- Nat.pow_succ_r'. f_equal. lia. }
  eapply returns_bind.
  - apply (returns_for _ _ _ _ (fun i l' => length l' = length l /\
      arr l' (2 ^ n) (fun x => fz (if (x <? i) || (2 ^ n - 1 - x <? i) then V (2 ^ n - 1 - x) else V x)) /\
      forall m, 2 ^ n <= m -> nth_error l' m = nth_error l m)).
    + split; [reflexivity|]. split; [|reflexivity]. eapply arr_ext; [exact A|]. intros x Hx. reflexivity.
    + intros i l' Hi (L' & A' & R').
      eapply rb_arr; [exact A'|lia|]. eapply rb_arr; [exact A'|lia|]. cbv beta.
      apply rb_wr'; [lia|]. apply returns_wr; [rewrite upd_length; lia|].
      split; [rewrite !upd_length; exact L'|]. split.
      * eapply arr_ext; [apply arr_upd; [apply arr_upd; [exact A'|lia]|lia]|]. intros x Hx. cbv beta.
        destruct (Nat.ltb_spec i i); [lia|]. destruct (Nat.ltb_spec (2 ^ n - 1 - i) i); [lia|].
        destruct (Nat.ltb_spec (2 ^ n - 1 - (2 ^ n - 1 - i)) i); [lia|]. cbn [orb].
        destruct (Nat.eqb_spec x (2 ^ n - 1 - i)) as [->|N1].
        { destruct (Nat.ltb_spec (2 ^ n - 1 - (2 ^ n - 1 - i)) (S i)); [|lia]. rewrite orb_true_r.
          do 2 f_equal. lia. }
        destruct (Nat.eqb_spec x i) as [->|N2].
        { destruct (Nat.ltb_spec i (S i)); [|lia]. reflexivity. }
        destruct (Nat.ltb_spec x i), (Nat.ltb_spec (2 ^ n - 1 - x) i), (Nat.ltb_spec x (S i)),
          (Nat.ltb_spec (2 ^ n - 1 - x) (S i)); cbn [orb]; try reflexivity; lia.
      * intros m Hm. rewrite !nth_upd_other by lia. apply R', Hm.
  - intros l1 (L1 & A1 & R1). cbv beta in *. eapply returns_conseq.
    + apply (returns_for _ _ _ _ (fun i l' => length l' = length l /\
        arr l' (2 ^ n) (fun x => fz (levels n V i x)) /\ forall m, 2 ^ n <= m -> nth_error l' m = nth_error l m)).
      * split; [exact L1|]. split; [|exact R1]. eapply arr_ext; [exact A1|]. intros x Hx. cbv beta. simpl levels.
        destruct (Nat.ltb_spec x (0 + h)), (Nat.ltb_spec (2 ^ n - 1 - x) (0 + h)); cbn [orb]; try reflexivity; lia.
      * intros i l' Hi (L' & A' & R'). eapply returns_conseq.
        -- apply (pre_input_level (length l) n i (levels n V i)); [lia|exact HL|exact L'|exact A'|reflexivity].
        -- intros l2 (L2 & A2 & R2). split; [exact L2|]. split; [exact A2|].
           intros m Hm. rewrite R2 by exact Hm. apply R', Hm.
    + intros l' H. exact H.
Qed.

(** *** The coefficients evaluate to the multilinear extension *)
Definition monol (r : list F) (x : nat) : F := eqg (map (fun a => (a, 1%F)) r) x.

Lemma sum_groups : forall h m f,
  sumn (m * (2 * h)) f = sumn m (fun y => sumn h (fun x => f (y * (2 * h) + x)%nat + f (y * (2 * h) + h + x)%nat))%F.
Proof.
  induction m; intro f; [reflexivity|].
  replace (S m * (2 * h)) with (m * (2 * h) + (h + h)) by (simpl; lia). rewrite !sumn_app, IHm. cbn [sumn].
  rewrite sumn_add. f_equal. f_equal. apply sumn_ext. intros i _. f_equal. lia.
Qed.
Lemma sum_eqg_mid : forall l1 p q l2 T, let i := length l1 in
  sumn (2 ^ length (l1 ++ (p, q) :: l2)) (fun j => T j * eqg (l1 ++ (p, q) :: l2) j)%F
  = sumn (2 ^ length l2) (fun y => sumn (2 ^ i) (fun x =>
      (T (y * (2 * 2 ^ i) + x)%nat * q + T (y * (2 * 2 ^ i) + 2 ^ i + x)%nat * p) * (eqg l1 x * eqg l2 y)))%F.
Proof.
  intros l1 p q l2 T i. rewrite app_length. cbn [length]. fold i.
  replace (2 ^ (i + S (length l2))) with (2 ^ length l2 * (2 * 2 ^ i)).
  2:{ rewrite Nat.pow_add_r, Nat.pow_succ_r'. lia. }
  rewrite sum_groups. apply sumn_ext. intros y Hy. apply sumn_ext. intros x Hx.
  rewrite !eqg_app. fold i. pose proof (pow2_pos i).
  replace ((y * (2 * 2 ^ i) + x) mod 2 ^ i) with x by (apply Nat.mod_unique with (2 * y); lia).
  replace ((y * (2 * 2 ^ i) + x) / 2 ^ i) with (2 * y) by (apply Nat.div_unique with x; lia).
  replace ((y * (2 * 2 ^ i) + 2 ^ i + x) mod 2 ^ i) with x by (apply Nat.mod_unique with (2 * y + 1); lia).
  replace ((y * (2 * 2 ^ i) + 2 ^ i + x) / 2 ^ i) with (2 * y + 1) by (apply Nat.div_unique with x; lia).
  rewrite eqg_2, eqg_21. ring.
Qed.

Definition mixed (r : list F) (i : nat) : list (F * F) :=
  map (fun a => (a, 1%F)) (firstn i r) ++ map (fun a => (1 - a, a)%F) (skipn i r).
Lemma mixed_step : forall r i T, i < length r ->
  sumn (2 ^ length r) (fun j => stepT i T j * eqg (mixed r (S i)) j)%F
  = sumn (2 ^ length r) (fun j => T j * eqg (mixed r i) j)%F.
Proof.
  intros r i T Hi. set (l1 := map (fun a => (a, 1%F)) (firstn i r)).
  set (a := nth i r 0%F). set (l2 := map (fun a => (1 - a, a)%F) (skipn (S i) r)).
  assert (L1 : length l1 = i) by (unfold l1; rewrite map_length, firstn_length; lia).
  assert (SK : skipn i r = a :: skipn (S i) r).
  { unfold a. clear - Hi. revert i Hi. induction r as [|b r IH]; intros i Hi; [simpl in Hi; lia|].
    destruct i as [|i]; [reflexivity|]. simpl in Hi. cbn [skipn nth]. rewrite IH by lia. reflexivity. }
  assert (FN : firstn (S i) r = firstn i r ++ [a]).
  { unfold a. clear - Hi. revert i Hi. induction r as [|b r IH]; intros i Hi; [simpl in Hi; lia|].
    destruct i as [|i]; [reflexivity|]. simpl in Hi. cbn [firstn nth app]. rewrite <- IH by lia. reflexivity. }
  assert (E0 : mixed r i = l1 ++ (1 - a, a)%F :: l2) by (unfold mixed; rewrite SK; reflexivity).
  assert (E1 : mixed r (S i) = l1 ++ (a, 1%F) :: l2).
  { unfold mixed. rewrite FN, map_app, <- app_assoc. reflexivity. }
  assert (LR : length r = length (l1 ++ (a, 1%F) :: l2)).
  { rewrite app_length. cbn [length]. rewrite L1. unfold l2. rewrite map_length, skipn_length. lia. }
  assert (LR' : length (l1 ++ (a, 1%F) :: l2) = length (l1 ++ (1 - a, a)%F :: l2)) by (rewrite !app_length; reflexivity).
  pose proof (sum_eqg_mid l1 a 1%F l2 (stepT i T)) as S1. cbv zeta in S1. rewrite <- LR, L1 in S1.
  pose proof (sum_eqg_mid l1 (1 - a)%F a l2 T) as S0. cbv zeta in S0. rewrite <- LR', <- LR, L1 in S0.
  rewrite E0, E1, S0, S1. clear S0 S1.
  apply sumn_ext. intros y Hy. apply sumn_ext. intros x Hx.
  assert (EI : 2 ^ (i + 1) = 2 * 2 ^ i) by (rewrite Nat.add_1_r; apply Nat.pow_succ_r').
  destruct (pos_lo i y x Hx) as (_ & _ & B0). destruct (pos_hi i y x Hx) as (_ & _ & B1). rewrite EI in B0, B1.
  unfold stepT. rewrite B0, B1. replace (y * (2 * 2 ^ i) + x + 2 ^ i) with (y * (2 * 2 ^ i) + 2 ^ i + x) by lia.
  replace (y * (2 * 2 ^ i) + 2 ^ i + x - 2 ^ i) with (y * (2 * 2 ^ i) + x) by lia. ring.
Qed.
Lemma sumn_rev : forall n f, sumn n f = sumn n (fun i => f (n - 1 - i)%nat).
Proof.
  induction n; intro f; [reflexivity|].
  transitivity (sumn (1 + n) (fun i => f (n - i)%nat)).
  - rewrite sumn_app. cbn [sumn]. rewrite (IHn f), Nat.sub_0_r.
    rewrite (sumn_ext n (fun i => f (n - 1 - i)%nat) (fun i => f (n - (1 + i))%nat)) by (intros; f_equal; lia). ring.
  - apply sumn_ext. intros i Hi. f_equal. lia.
Qed.
Lemma eqg_rev : forall r x, x < 2 ^ length r ->
  eqg (map (fun a => (1 - a, a)%F) r) (2 ^ length r - 1 - x) = eqw r x.
Proof.
  induction r as [|a r IH]; intros x Hx; [reflexivity|]. cbn [length map] in *. rewrite Nat.pow_succ_r' in *.
  pose proof (pow2_pos (length r)) as Hp.
  destruct (Nat.Even_or_Odd x) as [[y ->]|[y ->]].
  - rewrite eqw_2. replace (2 * 2 ^ length r - 1 - 2 * y) with (2 * (2 ^ length r - 1 - y) + 1) by lia.
    rewrite eqg_21, IH by lia. reflexivity.
  - rewrite eqw_21. replace (2 * 2 ^ length r - 1 - (2 * y + 1)) with (2 * (2 ^ length r - 1 - y)) by lia.
    rewrite eqg_2, IH by lia. reflexivity.
Qed.
Theorem coefT_mle : forall r V,
  sumn (2 ^ length r) (fun j => coefT (length r) V j * monol r j)%F = mle r V.
Proof.
  intros r V.
  assert (K : forall i, i <= length r ->
    sumn (2 ^ length r) (fun j => levels (length r) V i j * eqg (mixed r i) j)%F = mle r V).
  { induction i; intro Hi.
    - unfold mixed. cbn [levels firstn skipn map app]. rewrite sumn_rev. unfold mle. apply sumn_ext. intros x Hx.
      rewrite eqg_rev by exact Hx. replace (2 ^ length r - 1 - (2 ^ length r - 1 - x)) with x by lia. ring.
    - cbn [levels]. rewrite mixed_step by lia. apply IHi. lia. }
  rewrite <- (K (length r)) by lia. apply sumn_ext. intros x Hx. unfold coefT, mixed, monol.
  rewrite firstn_all, skipn_all. cbn [map]. rewrite app_nil_r. reflexivity.
Qed.

(** ** Monomials *)
Definition mono (k : nat) (s : nat -> F) (j : nat) : F := prodn k (fun i => if Nat.testbit j i then s i else 1%F).
Lemma testbit_small : forall j k i, j < 2 ^ k -> k <= i -> Nat.testbit j i = false.
Proof.
  intros j k i H L. destruct j as [|j]; [apply Nat.bits_0|]. apply Nat.bits_above_log2.
  assert (Nat.log2 (S j) < k) by (apply Nat.log2_lt_pow2; lia). lia.
Qed.
Lemma mono_lo : forall k s j, j < 2 ^ k -> mono (S k) s j = mono k s j.
Proof. intros k s j H. unfold mono. cbn [prodn]. rewrite (testbit_small j k k) by (auto; lia). ring. Qed.
Lemma mono_le : forall n k s j, k <= n -> j < 2 ^ k -> mono n s j = mono k s j.
Proof.
  induction n; intros k s j L H; [replace k with 0 by lia; reflexivity|].
  destruct (Nat.eq_dec k (S n)) as [->|N]; [reflexivity|]. rewrite mono_lo.
  - apply IHn; [lia|exact H].
  - eapply Nat.lt_le_trans; [exact H|]. apply Nat.pow_le_mono_r; lia.
Qed.
Lemma testbit_add_pow : forall k x i, x < 2 ^ k -> i < k -> Nat.testbit (2 ^ k + x) i = Nat.testbit x i.
Proof.
  intros k x i H L. rewrite Nat.add_comm, <- lor_pow2, Nat.lor_spec by exact H.
  rewrite Nat.pow2_bits_false by lia. apply orb_false_r.
Qed.
Lemma mono_hi : forall k s x, x < 2 ^ k -> mono (S k) s (2 ^ k + x) = (mono k s x * s k)%F.
Proof.
  intros k s x H. unfold mono. cbn [prodn].
  assert (B : Nat.testbit (2 ^ k + x) k = true).
  { rewrite Nat.add_comm, <- lor_pow2, Nat.lor_spec by exact H. rewrite Nat.pow2_bits_true. apply orb_true_r. }
  rewrite B. f_equal. apply prodn_ext. intros i Hi. rewrite testbit_add_pow by assumption. reflexivity.
Qed.
Lemma mono_0 : forall k s, mono k s 0 = 1%F.
Proof.
  intros k s. unfold mono. induction k; [reflexivity|]. cbn [prodn]. rewrite IHk, Nat.bits_0. ring.
Qed.
Lemma mono_pow2 : forall n s i, i < n -> mono n s (2 ^ i) = s i.
Proof.
  intros n s i H. rewrite (mono_le n (S i)) by (try apply Nat.pow_lt_mono_r; lia).
  replace (2 ^ i) with (2 ^ i + 0) by lia. rewrite mono_hi, mono_0 by apply pow2_pos. ring.
Qed.
Lemma monol_mono : forall r j, monol r j = mono (length r) (fun i => nth i r 0%F) j.
Proof.
  induction r as [|a r IH]; intro j; [reflexivity|]. unfold mono. cbn [length]. rewrite prodn_shift.
  unfold monol in *. cbn [map eqg]. rewrite IH. unfold mono. f_equal.
Qed.

(** ** Key generation *)
Definition keyI_ok (n : nat) (a : F) (s : nat -> F) (K : keyI) : Prop :=
  ki_n K = n /\ ki_a K = fz a /\ ki_g1_pre K = precompute gen1 /\ ki_g2_pre K = precompute gen2 /\ ki_g2a K = a /\
  arr (ki_pub_g1 K) (2 ^ n) (mono n s) /\ nth_error (ki_pub_g1 K) (2 ^ n) = Some (s n) /\
  arr (ki_pub_g2 K) (n + 1) s /\ multi_ok (2 ^ n) (mono n s) (ki_multi K).

Lemma g1_exp_fz : forall x, g1_exp (baby_steps gen1) (fz x) = Ok x.
Proof.
  intro x. rewrite g1_exp_ok; [rewrite ofZ_fz; reflexivity|]. split; [apply fz_pos|].
  eapply Z.lt_trans; [apply fz_lt_254|]. apply Z.pow_lt_mono_r; lia.
Qed.
Lemma upd_repeat_0 : forall A (x y : A) n, 0 < n -> nth_error (upd (repeat x n) 0 y) 0 = Some y.
Proof. intros A x y n H. apply nth_upd_same. rewrite repeat_length. exact H. Qed.

Lemma I_monomials_ok : forall d sl s, arr sl (d + 1) (fun i => fz (s i)) ->
  returns (I_monomials (baby_steps gen1) d sl) (fun st => length (snd st) = 2 ^ d + 1 /\
    arr (fst st) (2 ^ d) (fun j => fz (mono d s j)) /\ arr (snd st) (2 ^ d) (mono d s)).
Proof.
  intros d sl s As. unfold I_monomials. pose proof (pow2_pos d) as Pd.
  set (st := fun j (st : list Z * list F) => length (fst st) = 2 ^ d /\ length (snd st) = 2 ^ d + 1 /\
      forall m, m < j -> nth_error (fst st) m = Some (fz (mono d s m)) /\ nth_error (snd st) m = Some (mono d s m)).
  eapply returns_conseq.
  - apply (returns_for _ _ _ _ (fun i x => st (2 ^ i) x)).
    + unfold st. cbn [fst snd]. rewrite !upd_length, !repeat_length. split; [reflexivity|]. split; [reflexivity|].
      intros m Hm. simpl in Hm. replace m with 0 by lia. rewrite !upd_repeat_0 by lia. rewrite mono_0.
      split; reflexivity.
    + intros i x Hi Hx. eapply returns_conseq.
      * apply (returns_for _ _ _ _ (fun j x => st j x)); [exact Hx|].
        assert (E2 : 2 ^ (i + 1) = 2 * 2 ^ i) by (rewrite Nat.add_1_r; apply Nat.pow_succ_r').
        assert (LE : 2 ^ (i + 1) <= 2 ^ d) by (apply Nat.pow_le_mono_r; lia).
        intros j [ex pg] Hj (L1 & L2 & V). cbn [fst snd] in *.
        eapply rb_arr; [exact As|lia|].
        eapply returns_bind; [eapply (returns_rd _ _ _ _ (eq (fz (mono d s (j - 2 ^ i))))); [apply V; lia|reflexivity]|].
        intros e <-. cbv beta. rewrite rem_mul_fz.
        assert (EM : (s i * mono d s (j - 2 ^ i))%F = mono d s j).
        { rewrite (mono_le d (S i) s j) by (try rewrite <- (Nat.add_1_r i); lia).
          rewrite (mono_le d i s (j - 2 ^ i)) by lia.
          replace j with (2 ^ i + (j - 2 ^ i)) at 2 by lia. rewrite mono_hi by lia. ring. }
        rewrite EM. apply rb_wr'; [lia|].
        eapply returns_bind; [eapply (returns_rd _ _ _ _ (eq (fz (mono d s j)))); [apply nth_upd_same; lia|reflexivity]|].
        intros e <-. rewrite g1_exp_fz. cbn [bind]. apply rb_wr'; [lia|]. apply returns_ok.
        unfold st. cbn [fst snd]. rewrite !upd_length. split; [exact L1|]. split; [exact L2|].
        intros m Hm. rewrite !nth_upd by lia. destruct (Nat.eqb_spec m j) as [->|]; [split; reflexivity|]. apply V. lia.
      * intros y Hy. replace (2 ^ i + (2 ^ (i + 1) - 2 ^ i)) with (2 ^ S i) in Hy; [exact Hy|].
        rewrite Nat.add_1_r, Nat.pow_succ_r'. lia.
  - intros [ex pg] (L1 & L2 & V). cbn [fst snd Nat.add] in *. split; [exact L2|].
    split; (split; [lia|]); intros m Hm; apply V, Hm.
Qed.

Lemma I_keygen_ok : forall n a sl s, n < 31 -> arr sl (n + 1) (fun i => fz (s i)) ->
  returns (I_keygen n (fz a) sl) (keyI_ok n a s).
Proof.
  intros n a sl s Hn As. unfold I_keygen. assert (I0 : forall x : F, (1 * x)%F = x) by (intro; ring).
  apply rb_pre_exp. rewrite shl_int_ok by exact Hn. cbn [bind].
  eapply returns_bind; [apply I_monomials_ok, As|]. intros [ex pg] (L & A1 & A2). cbn [fst snd] in *.
  eapply rb_arr; [exact As|lia|]. apply rb_pre_exp. apply rb_wr'; [lia|].
  set (pg' := upd pg (2 ^ n) (gen1 * s n)%F).
  assert (Apg : arr pg' (2 ^ n) (mono n s)).
  { split; [unfold pg'; rewrite upd_length; lia|]. intros m Hm. unfold pg'. rewrite nth_upd_other by lia. apply A2, Hm. }
  assert (Bpg : nth_error pg' (2 ^ n) = Some (s n)).
  { unfold pg'. rewrite nth_upd_same by lia. change gen1 with 1%F. rewrite I0. reflexivity. }
  clearbody pg'. eapply returns_bind; [apply I_multi_table_ok, Apg|]. intros T HT.
  apply (returns_bind _ _ _ _ (fun q => arr q (n + 1) s)).
  { eapply returns_conseq.
    - apply (returns_for _ _ _ _ (fun i q => length q = n + 1 /\ forall m, m < i -> nth_error q m = Some (s m))).
      + split; [rewrite upd_length, repeat_length; reflexivity|]. intros; lia.
      + intros i q Hi [Lq Vq]. eapply rb_arr; [exact As|lia|]. apply rb_pre_exp. apply returns_wr; [lia|].
        split; [rewrite upd_length; exact Lq|]. intros m Hm. rewrite nth_upd by lia.
        destruct (Nat.eqb_spec m i) as [->|]; [change gen2 with 1%F; rewrite I0; reflexivity|apply Vq; lia].
    - intros q [Lq Vq]. split; [lia|]. intros m Hm. apply Vq. simpl. exact Hm. }
  intros q Aq. apply returns_ok. unfold keyI_ok. cbn [ki_n ki_a ki_g1_pre ki_g2_pre ki_g2a ki_pub_g1 ki_pub_g2 ki_multi].
  change gen2 with 1%F. rewrite I0. split; [reflexivity|]. split; [reflexivity|]. split; [reflexivity|]. split; [reflexivity|].
  split; [reflexivity|]. split; [exact Apg|]. split; [exact Bpg|]. split; [exact Aq|exact HT].
Qed.

(** ** Sums over blocks of eight *)
Lemma I_block_ok : forall l N c temp bound i, arr l N (fun j => fz (c j)) -> bound + temp <= N ->
  returns (I_block l temp bound i) (fun sp => arr sp 8 (fun k => if bound <=? i * 8 + k then 0%Z else fz (c (i * 8 + k + temp)))).
Proof.
  intros l N c temp bound i A HB. unfold I_block, multi_scalar_w.
  eapply returns_conseq.
  - apply (returns_for _ _ _ _ (fun j sp => length sp = j /\
      arr sp j (fun k => if bound <=? i * 8 + k then 0%Z else fz (c (i * 8 + k + temp))))).
    + split; [reflexivity|]. split; [simpl; lia|]. intros; lia.
    + intros j sp Hj [L V]. destruct (Nat.leb_spec bound (i * 8 + j)) as [C|C].
      * apply returns_ok. split; [rewrite app_length; simpl; lia|].
        eapply arr_ext; [apply arr_app1; [exact V|exact L]|]. intros m Hm. cbv beta.
        destruct (Nat.eqb_spec m j) as [->|]; [|reflexivity]. destruct (Nat.leb_spec bound (i * 8 + j)); [reflexivity|lia].
      * eapply rb_arr; [exact A|lia|]. apply returns_ok. split; [rewrite app_length; simpl; lia|].
        eapply arr_ext; [apply arr_app1; [exact V|exact L]|]. intros m Hm. cbv beta.
        destruct (Nat.eqb_spec m j) as [->|]; [|reflexivity]. destruct (Nat.leb_spec bound (i * 8 + j)); [lia|reflexivity].
  - intros sp [L V]. exact V.
Qed.
Definition block_sum (bound : nat) (f : nat -> F) (i : nat) : F :=
  sumn 8 (fun k => if bound <=? i * 8 + k then 0%F else f (i * 8 + k)).
Lemma block_sum_zero : forall bound f i, bound / 8 + 1 <= i -> block_sum bound f i = 0%F.
Proof.
  intros bound f i H. apply sumn_zero'. intros k Hk.
  pose proof (Nat.div_mod bound 8 ltac:(lia)). pose proof (Nat.mod_upper_bound bound 8 ltac:(lia)).
  destruct (Nat.leb_spec bound (i * 8 + k)); [reflexivity|lia].
Qed.
Lemma sumn_blocks : forall m f, sumn (m * 8) f = sumn m (fun i => sumn 8 (fun k => f (i * 8 + k)%nat)).
Proof.
  induction m; intro f; [reflexivity|]. replace (S m * 8) with (m * 8 + 8) by lia.
  rewrite sumn_app, IHm. reflexivity.
Qed.
Lemma sumn_tail : forall n m f, n <= m -> (forall i, n <= i < m -> f i = 0%F) -> sumn m f = sumn n f.
Proof.
  intros n m f L H. replace m with (n + (m - n)) by lia. rewrite sumn_app.
  rewrite (sumn_zero' (m - n)); [ring|]. intros i Hi. apply H. lia.
Qed.
Lemma block_sums : forall bound f m, bound / 8 + 1 <= m -> sumn m (block_sum bound f) = sumn bound f.
Proof.
  intros bound f m H. unfold block_sum.
  rewrite <- (sumn_blocks m (fun j => if bound <=? j then 0%F else f j)).
  pose proof (Nat.div_mod bound 8 ltac:(lia)). pose proof (Nat.mod_upper_bound bound 8 ltac:(lia)).
  rewrite (sumn_tail bound (m * 8)); [|lia|].
  2:{ intros i Hi. destruct (Nat.leb_spec bound i); [reflexivity|lia]. }
  apply sumn_ext. intros i Hi. destruct (Nat.leb_spec bound i); [lia|reflexivity].
Qed.
Lemma I_block_sum_ok : forall n a s K l N c temp bound i, keyI_ok n a s K ->
  arr l N (fun j => fz (c j)) -> bound + temp <= N -> bound <= 2 ^ n -> i < 2 ^ n / 8 + 1 ->
  returns (scalar_pow <- I_block l temp bound i ;; multi_scalar_calc K i bound scalar_pow)
    (eq (block_sum bound (fun j => mono n s j * c (j + temp)%nat)%F i)).
Proof.
  intros n a s K l N c temp bound i HK A HB HB2 Hi.
  destruct HK as (E1 & E2 & E3 & E4 & E5 & A1 & B1 & A2 & T).
  eapply returns_bind; [eapply I_block_ok; [exact A|exact HB]|]. intros sp Asp.
  rewrite (multi_scalar_calc_ok K (2 ^ n) (mono n s) i bound sp _ A1 T Hi HB2 Asp).
  - apply returns_ok. unfold block_sum. apply sumn_ext. intros k Hk. unfold block_base.
    destruct (Nat.leb_spec bound (i * 8 + k)); destruct (Nat.leb_spec (2 ^ n) (i * 8 + k)); try lia;
      change (ofZ 0) with 0%F; rewrite ?ofZ_fz; ring.
  - intros k Hk. destruct (bound <=? i * 8 + k); [lia|apply fz_pos].
  - intros k Hk Hb. destruct (Nat.leb_spec bound (i * 8 + k)); [reflexivity|lia].
Qed.

(** ** Commitment *)
Lemma wr_last : forall (l : list Z) N x, length l = N + 1 -> wr l (length l - 1) x = Ok (upd l N x).
Proof.
  intros l N x H. unfold wr. rewrite H, Nat.add_sub. destruct (Nat.ltb_spec N (N + 1)); [reflexivity|lia].
Qed.
Definition polyI (n : nat) (c x : nat -> F) : F := sumn (2 ^ n) (fun j => mono n x j * c j)%F.
Lemma half_lt : forall n, 1 <= n -> 2 ^ n = 2 * 2 ^ (n - 1).
Proof. intros n H. rewrite <- Nat.pow_succ_r'. f_equal. lia. Qed.

Lemma I_commit_ok : forall n a s K il V m0 m1 rf rf2, 1 <= n < 31 -> keyI_ok n a s K ->
  length il = 2 ^ n + 1 -> arr il (2 ^ n) (fun x => fz (V x)) ->
  let D := (polyI n (coefT n V) s + s n * rf)%F in
  let D2 := (m0 + s (n - 1)%nat * m1 + s n * rf2)%F in
  returns (I_commit K il [fz m0; fz m1] (fz rf) (fz rf2)) (fun res =>
    length (fst res) = 2 ^ n + 1 /\
    arr (fst res) (2 ^ n + 1) (fun j => fz (if j =? 2 ^ n then rf else coefT n V j)) /\
    snd res = (D, D * a, D2, D2 * a)%F).
Proof.
  intros n a s K il V m0 m1 rf rf2 Hn HK Lil Ail D D2. pose proof HK as (E1 & E2 & E3 & E4 & E5 & A1 & B1 & A2 & T).
  unfold I_commit. rewrite E1, E2. eapply returns_bind; [apply pre_input_ok; [exact Hn|lia|exact Ail]|].
  intros l (L & A & R). rewrite Lil in L. apply returns_bind with (Q := fun _ => True); [apply returns_assert; [|exact I]|].
  { destruct (Nat.leb_spec 1 (length l)); [reflexivity|lia]. }
  intros _ _. rewrite (wr_last l (2 ^ n)) by exact L. cbn [bind]. rewrite shl_int_ok, shl_int_pred by lia. cbn [bind].
  set (cf := fun j => if j =? 2 ^ n then rf else coefT n V j).
  set (cs := map fix_neg_z (upd l (2 ^ n) (fz rf))).
  assert (Lcs : length cs = 2 ^ n + 1) by (unfold cs; rewrite map_length, upd_length; exact L).
  assert (Acs : arr cs (2 ^ n + 1) (fun j => fz (cf j))).
  { split; [lia|]. intros j Hj. unfold cs. rewrite nth_error_map, nth_upd by lia. unfold cf.
    destruct (Nat.eqb_spec j (2 ^ n)) as [->|N].
    - cbn [option_map]. rewrite fix_neg_z_fz. reflexivity.
    - destruct A as [_ A]. rewrite A by lia. cbn [option_map]. rewrite fix_neg_z_fz. reflexivity. }
  clearbody cs.
  apply (rb_eq _ _ _ (polyI n (coefT n V) s)).
  { eapply returns_conseq.
    - apply (returns_for _ _ _ _ (fun i x => x = sumn i (block_sum (2 ^ n) (fun j => mono n s j * cf j)%F))).
      + apply gmul_0.
      + intros i x Hi ->. unfold multi_scalar_w in Hi.
        destruct (I_block_sum_ok n a s K cs (2 ^ n + 1) cf 0 (2 ^ n) i HK Acs ltac:(lia) ltac:(lia) ltac:(lia)) as (y & Ey & <-).
        destruct (I_block cs 0 (2 ^ n) i) as [sp| | | | | |] eqn:EB; try discriminate Ey. cbn [bind] in Ey |- *.
        rewrite Ey. cbn [bind]. apply returns_ok. cbn [sumn]. f_equal. apply sumn_ext. intros k Hk.
        rewrite Nat.add_0_r. reflexivity.
    - intros x ->. unfold multi_scalar_w. rewrite Nat.add_0_l, block_sums by lia. unfold polyI. apply sumn_ext.
      intros j Hj. unfold cf. destruct (Nat.eqb_spec j (2 ^ n)); [lia|reflexivity]. }
  eapply rb_arr; [exact Acs|lia|]. unfold cf at 1. rewrite Nat.eqb_refl. apply rb_vuint.
  eapply returns_bind; [eapply (returns_rd _ _ _ _ (eq (s n))); [exact B1|reflexivity]|]. intros gb <-.
  cbn [app rd nth_error bind]. rewrite !vuint_fz. cbn [bind].
  pose proof (half_lt n ltac:(lia)). pose proof (pow2_pos (n - 1)).
  eapply rb_arr; [exact A1|lia|]. eapply rb_arr; [exact A1|lia|]. rewrite mono_0, mono_pow2 by lia.
  cbv zeta. rewrite !gmul_fz. apply returns_ok. cbn [fst snd]. split; [exact Lcs|]. split; [exact Acs|].
  unfold D, D2. struct.
Qed.

(** ** Opening *)
Section Open.
Variables (n : nat) (a : F) (s : nat -> F) (K : keyI) (rl : list Z) (r : nat -> F).
Hypothesis Hn : 1 <= n < 31.
Hypothesis HK : keyI_ok n a s K.
Hypothesis Lr : length rl = n.
Hypothesis Ar : arr rl n (fun i => fz (r i)).

Lemma I_evaluate_ok : forall l c, arr l (2 ^ n) (fun j => fz (c j)) -> I_evaluate n rl l = Ok (fz (polyI n c r)).
Proof.
  intros l c A. apply returns_eq_ok. unfold I_evaluate. pose proof (pow2_pos n) as Pn.
  eapply rb_arr; [exact A|lia|].
  set (st := fun j (st : list Z * Z) => length (fst st) = 2 ^ n /\
      (forall m, m < j -> nth_error (fst st) m = Some (fz (mono n r m))) /\
      snd st = fz (sumn j (fun m => mono n r m * c m)%F)).
  apply (returns_bind _ _ _ _ (st (2 ^ n))).
  - eapply returns_conseq; [apply (returns_for _ _ _ _ (fun i x => st (2 ^ i) x))|intros x H; exact H].
    + unfold st. cbn [fst snd]. rewrite !upd_length, !repeat_length. split; [reflexivity|]. split.
      * intros m Hm. simpl in Hm. replace m with 0 by lia. rewrite !upd_repeat_0 by lia. rewrite mono_0. reflexivity.
      * change (2 ^ 0) with 1. cbn [sumn]. rewrite mono_0. f_equal. ring.
    + intros i x Hi Hx. eapply returns_conseq.
      * apply (returns_for _ _ _ _ (fun j x => st j x)); [exact Hx|].
        assert (E2 : 2 ^ (i + 1) = 2 * 2 ^ i) by (rewrite Nat.add_1_r; apply Nat.pow_succ_r').
        assert (LE : 2 ^ (i + 1) <= 2 ^ n) by (apply Nat.pow_le_mono_r; lia).
        intros j [ex ans] Hj (L1 & V & ES). cbn [fst snd] in *. subst ans.
        eapply rb_arr; [exact Ar|lia|].
        eapply returns_bind; [eapply (returns_rd _ _ _ _ (eq (fz (mono n r (j - 2 ^ i))))); [apply V; lia|reflexivity]|].
        intros e <-. cbv beta. rewrite rem_mul_fz.
        assert (EM : (r i * mono n r (j - 2 ^ i))%F = mono n r j).
        { rewrite (mono_le n (S i) r j) by (try rewrite <- (Nat.add_1_r i); lia).
          rewrite (mono_le n i r (j - 2 ^ i)) by lia.
          replace j with (2 ^ i + (j - 2 ^ i)) at 2 by lia. rewrite mono_hi by lia. ring. }
        rewrite EM. apply rb_wr'; [lia|].
        eapply returns_bind; [eapply (returns_rd _ _ _ _ (eq (fz (mono n r j)))); [apply nth_upd_same; lia|reflexivity]|].
        intros e <-. eapply rb_arr; [exact A|lia|]. cbv beta. rewrite rem_mul_fz, rem_add_fz. apply returns_ok.
        unfold st. cbn [fst snd]. rewrite !upd_length. split; [exact L1|]. split; [|reflexivity].
        intros m Hm. rewrite !nth_upd by lia. destruct (Nat.eqb_spec m j) as [->|]; [reflexivity|]. apply V. lia.
      * intros y Hy. replace (2 ^ i + (2 ^ (i + 1) - 2 ^ i)) with (2 ^ S i) in Hy; [exact Hy|].
        rewrite Nat.add_1_r, Nat.pow_succ_r'. lia.
  - intros [ex ans] (_ & _ & ES). cbn [snd] in ES. subst ans. apply returns_ok. reflexivity.
Qed.

(** Coefficients left after substituting the top [i] variables. *)
Fixpoint rest (c : nat -> F) (i : nat) : nat -> F :=
  match i with
  | O => c
  | S i' => fun m => (rest c i' m + rest c i' (2 ^ (n - 1 - i') + m)%nat * r (n - 1 - i')%nat)%F
  end.
(** The quotient of variable [k], of [2^k] coefficients. *)
Definition quoI (c : nat -> F) (k j : nat) : F := rest c (n - 1 - k) (2 ^ k + j).

Lemma I_quotients_ok : forall l c, 2 ^ n <= length l -> arr l (2 ^ n) (fun j => fz (c j)) ->
  returns (I_quotients n rl l) (fun wc => exists w, arr wc (2 ^ n) (fun j => fz (w j)) /\
    forall k j, k < n -> j < 2 ^ k -> w (2 ^ n - 2 ^ (k + 1) + j) = quoI c k j).
Proof.
  intros l c L A. unfold I_quotients. rewrite Lr.
  apply (returns_bind _ _ _ _ (fun st => exists w, arr (snd (fst st)) (2 ^ n) (fun j => fz (w j)) /\
    forall k j, k < n -> j < 2 ^ k -> w (2 ^ n - 2 ^ (k + 1) + j) = quoI c k j)).
  - eapply returns_conseq.
    + apply (returns_for _ _ _ _ (fun i st => let '(tc, wc, start) := st in
        start = 2 ^ n - 2 ^ (n - i) /\ arr tc (2 ^ (n - i)) (fun m => fz (rest c i m)) /\
        exists w, arr wc (2 ^ n) (fun j => fz (w j)) /\
        forall k j, n - i <= k < n -> j < 2 ^ k -> w (2 ^ n - 2 ^ (k + 1) + j) = quoI c k j)).
      * rewrite Nat.sub_0_r, Nat.sub_diag. split; [reflexivity|]. split; [exact A|]. exists (fun _ => F0).
        split; [apply (arr_repeat _ 0%Z)|]. intros; lia.
      * intros i [[tc wc] start] Hi (ES & At & w & Aw & Vw). cbv zeta.
        set (k := n - 1 - i). replace (n - i - 1) with k by lia. replace (n - i) with (S k) in * by lia.
        rewrite Nat.pow_succ_r' in *.
        assert (LK : 2 * 2 ^ k <= 2 ^ n).
        { rewrite <- Nat.pow_succ_r'. apply Nat.pow_le_mono_r; lia. }
        apply (returns_bind _ _ _ _ (fun st => let '(tc', wc') := st in
          arr tc' (2 ^ k) (fun m => fz (rest c (S i) m)) /\ exists w', arr wc' (2 ^ n) (fun j => fz (w' j)) /\
          (forall m, m < start -> w' m = w m) /\
          forall j, j < 2 ^ k -> w' (start + j) = quoI c k j)).
        -- eapply returns_conseq.
           ++ apply (returns_for _ _ _ _ (fun j st => let '(tc', wc') := st in
                arr tc' (2 * 2 ^ k) (fun m => fz (if m <? j then rest c (S i) m else rest c i m)) /\
                exists w', arr wc' (2 ^ n) (fun j => fz (w' j)) /\
                (forall m, m < start -> w' m = w m) /\
                forall m, m < j -> w' (start + m) = quoI c k m)).
              ** split; [eapply arr_ext; [exact At|]; intros; reflexivity|]. exists w. split; [exact Aw|]. split; [reflexivity|].
                 intros; lia.
              ** intros j [tc' wc'] Hj (At' & w' & Aw' & Vo & Vn).
                 eapply rb_arr; [exact At'|lia|]. cbv beta. destruct (Nat.ltb_spec (2 ^ k + j) j); [lia|].
                 assert (R1 : Z.rem (fz (rest c i (2 ^ k + j))) P = fz (rest c i (2 ^ k + j))).
                 { apply rem_fz; [apply fz_pos|apply ofZ_fz]. }
                 rewrite R1. apply rb_wr'; [destruct Aw'; lia|]. eapply rb_arr; [exact At'|lia|].
                 eapply rb_arr; [exact Ar|lia|]. cbv beta. destruct (Nat.ltb_spec j j); [lia|].
                 rewrite rem_mul_fz, rem_add_fz. apply rb_wr'; [destruct At'; lia|]. apply returns_ok.
                 split; [|exists (fun m => if m =? start + j then rest c i (2 ^ k + j) else w' m); split; [|split]].
                 --- eapply arr_ext; [apply arr_upd; [exact At'|lia]|]. intros m Hm. cbv beta.
                     destruct (Nat.eqb_spec m j) as [->|N].
                     +++ destruct (Nat.ltb_spec j (S j)); [|lia]. reflexivity.
                     +++ destruct (Nat.ltb_spec m j), (Nat.ltb_spec m (S j)); try reflexivity; lia.
                 --- eapply arr_ext; [apply arr_upd; [exact Aw'|lia]|]. intros m Hm. cbv beta.
                     destruct (m =? start + j); reflexivity.
                 --- intros m Hm. destruct (Nat.eqb_spec m (start + j)); [lia|]. apply Vo, Hm.
                 --- intros m Hm. destruct (Nat.eqb_spec (start + m) (start + j)) as [E|N].
                     +++ replace m with j by lia. unfold quoI. replace (n - 1 - k) with i by lia. reflexivity.
                     +++ apply Vn. lia.
           ++ intros [tc' wc'] (At' & w' & Aw' & Vo & Vn). split; [|exists w'; split; [exact Aw'|split; [exact Vo|exact Vn]]].
              eapply arr_ext; [apply (arr_le _ _ _ (2 ^ k) _ At'); lia|]. intros m Hm. cbv beta.
              destruct (Nat.ltb_spec m (0 + 2 ^ k)); [reflexivity|lia].
        -- intros [tc' wc'] (At' & w' & Aw' & Vo & Vn). apply returns_ok. replace (n - S i) with k by lia.
           split; [lia|]. split; [exact At'|]. exists w'. split; [exact Aw'|].
           intros k' j Hk' Hj. destruct (Nat.eq_dec k' k) as [->|N].
           ++ rewrite Nat.add_1_r, Nat.pow_succ_r', <- ES. apply Vn, Hj.
           ++ assert (2 ^ (k' + 1) <= 2 ^ n) by (apply Nat.pow_le_mono_r; lia).
              assert (2 * 2 ^ k <= 2 ^ k') by (rewrite <- Nat.pow_succ_r'; apply Nat.pow_le_mono_r; lia).
              rewrite Vo; [apply Vw; [lia|exact Hj]|]. rewrite ES. rewrite Nat.add_1_r, Nat.pow_succ_r' in *. lia.
    + intros [[tc wc] start] (_ & _ & w & Aw & Vw). cbn [fst snd]. exists w. split; [exact Aw|].
      intros k j Hk Hj. apply Vw; [lia|exact Hj].
  - intros [[tc wc] start] H. apply returns_ok. exact H.
Qed.

(** Value of the rest with [k] variables left. *)
Definition restval (c x : nat -> F) (k : nat) : F := sumn (2 ^ k) (fun j => mono k x j * rest c (n - k) j)%F.
Lemma restval_step : forall c x k, k < n ->
  (restval c x (S k) - restval c x k = (x k - r k) * sumn (2 ^ k) (fun j => mono k x j * quoI c k j))%F.
Proof.
  intros c x k Hk. unfold restval. rewrite Nat.pow_succ_r'. replace (2 * 2 ^ k) with (2 ^ k + 2 ^ k) by lia.
  rewrite sumn_app, <- sumn_scal.
  replace (n - k) with (S (n - S k)) by lia. cbn [rest]. replace (n - 1 - (n - S k)) with k by lia.
  unfold quoI. replace (n - 1 - k) with (n - S k) by lia.
  rewrite <- sumn_add, <- sumn_sub. apply sumn_ext. intros j Hj. rewrite mono_lo, mono_hi by exact Hj. ring.
Qed.
Lemma poly_quotients : forall c x,
  (polyI n c x - polyI n c r = sumn n (fun k => (x k - r k) * sumn (2 ^ k) (fun j => mono k x j * quoI c k j)))%F.
Proof.
  intros c x.
  assert (T : forall x m, m <= n -> (restval c x m - rest c n 0
    = sumn m (fun k => (x k - r k) * sumn (2 ^ k) (fun j => mono k x j * quoI c k j)))%F).
  { intro y. induction m; intro Hm.
    - unfold restval. change (2 ^ 0) with 1. cbn [sumn]. rewrite mono_0, Nat.sub_0_r. ring.
    - cbn [sumn]. rewrite <- IHm by lia. rewrite <- restval_step by lia. ring. }
  assert (V : forall x, polyI n c x = restval c x n).
  { intro y. unfold polyI, restval. rewrite Nat.sub_diag. reflexivity. }
  rewrite !V. pose proof (T x n (le_n n)) as T1. pose proof (T r n (le_n n)) as T2.
  rewrite (sumn_zero' n (fun k => (r k - r k) * _)%F) in T2 by (intros; ring).
  rewrite <- T1. replace (restval c r n) with (rest c n 0); [reflexivity|].
  transitivity (restval c r n - (restval c r n - rest c n 0))%F; [ring|]. rewrite T2. ring.
Qed.

Lemma I_witness_sums_ok : forall l c, arr l (2 ^ n) (fun j => fz (c j)) ->
  returns (I_witness_sums K l) (fun w => length w = n + 1 /\
    forall k, k < n -> nth_error w k = Some (sumn (2 ^ k) (fun j => mono k s j * c (2 ^ n - 2 ^ (k + 1) + j)%nat)%F)).
Proof.
  intros l c A. pose proof HK as (E1 & E2 & E3 & E4 & E5 & A1 & B1 & A2 & T).
  unfold I_witness_sums. rewrite E1, shl_int_pred by exact Hn. cbn [bind].
  set (B := fun k i => block_sum (2 ^ k) (fun j => mono n s j * c (j + (2 ^ n - 2 ^ (k + 1)))%nat)%F i).
  assert (EH : 2 ^ n = 2 * 2 ^ (n - 1)) by (apply half_lt; lia).
  eapply returns_conseq.
  - apply (returns_for _ _ _ _ (fun i w => length w = n + 1 /\ forall k, k < n -> nth_error w k = Some (sumn i (B k)))).
    + split; [apply repeat_length|]. intros k Hk. rewrite nth_error_repeat by lia. reflexivity.
    + intros i w Hi [Lw Vw]. unfold multi_scalar_w in Hi.
      assert (Hi2 : i < 2 ^ n / 8 + 1).
      { assert (2 ^ (n - 1) / 8 <= 2 ^ n / 8) by (apply Nat.div_le_mono; lia). lia. }
      apply (returns_bind _ _ _ _ (fun st => let '(w', temp, stopped) := st in
        length w' = n + 1 /\ forall k, k < n -> nth_error w' k = Some (sumn (S i) (B k)))).
      * eapply returns_conseq.
        -- apply (returns_for _ _ _ _ (fun kk st => let '(w', temp, stopped) := st in
             length w' = n + 1 /\
             (if stopped : bool then 2 ^ (n - kk) / 8 + 1 <= i else temp = 2 ^ n - 2 ^ (n - kk)) /\
             forall k, k < n -> nth_error w' k = Some (if n - kk <=? k then sumn (S i) (B k) else sumn i (B k)))).
           ++ split; [exact Lw|]. split; [rewrite Nat.sub_0_r; lia|]. intros k Hk.
              destruct (Nat.leb_spec (n - 0) k); [lia|]. apply Vw, Hk.
           ++ intros kk [[w' temp] stopped] Hkk (L' & Hst & V'). cbv zeta. set (k := n - 1 - kk).
              replace (n - S kk) with k by lia. replace (n - kk) with (S k) in * by lia.
              assert (HS : (stopped || (2 ^ k / multi_scalar_w + 1 <=? i)) = true -> 2 ^ k / 8 + 1 <= i).
              { destruct stopped; cbn [orb].
                - intros _. assert (2 ^ k / 8 <= 2 ^ S k / 8); [|lia].
                  apply Nat.div_le_mono; [lia|]. apply Nat.pow_le_mono_r; lia.
                - intro H. apply Nat.leb_le in H. exact H. }
              destruct (stopped || (2 ^ k / multi_scalar_w + 1 <=? i)) eqn:ES.
              ** specialize (HS eq_refl). apply returns_ok. split; [exact L'|]. split; [exact HS|].
                 intros k' Hk'. rewrite V' by exact Hk'. f_equal.
                 destruct (Nat.leb_spec (S k) k'), (Nat.leb_spec k k'); try reflexivity; try lia.
                 replace k' with k by lia. cbn [sumn]. unfold B at 3. rewrite block_sum_zero by exact HS. ring.
              ** apply orb_false_iff in ES. destruct ES as [-> ES]. apply Nat.leb_gt in ES. subst temp.
                 assert (LK : 2 ^ k + 2 ^ k <= 2 ^ n).
                 { replace (2 ^ k + 2 ^ k) with (2 ^ S k) by (rewrite Nat.pow_succ_r'; lia). apply Nat.pow_le_mono_r; lia. }
                 assert (S2 : 2 ^ S k = 2 ^ k + 2 ^ k) by (rewrite Nat.pow_succ_r'; lia).
                 destruct (I_block_sum_ok n a s K l (2 ^ n) c (2 ^ n - 2 ^ S k) (2 ^ k) i HK A
                   ltac:(lia) ltac:(lia) Hi2) as (y & Ey & Yv).
                 destruct (I_block l (2 ^ n - 2 ^ S k) (2 ^ k) i) as [sp| | | | | |] eqn:EB; try discriminate Ey.
                 cbn [bind] in Ey |- *. rewrite Ey. cbn [bind].
                 eapply returns_bind; [eapply (returns_rd _ _ _ _ (eq (sumn i (B k))))|].
                 { rewrite V' by lia. destruct (Nat.leb_spec (S k) k); [lia|reflexivity]. }
                 { reflexivity. }
                 intros wk <-. apply rb_wr'; [lia|]. apply returns_ok. split; [rewrite upd_length; exact L'|].
                 split; [lia|]. intros k' Hk'. rewrite nth_upd by lia.
                 destruct (Nat.eqb_spec k' k) as [->|N].
                 --- destruct (Nat.leb_spec k k); [|lia]. f_equal. cbn [sumn]. f_equal. rewrite <- Yv.
                     unfold B. rewrite Nat.add_1_r. reflexivity.
                 --- rewrite V' by exact Hk'. f_equal.
                     destruct (Nat.leb_spec (S k) k'), (Nat.leb_spec k k'); try reflexivity; lia.
        -- intros [[w' temp] stopped] (L' & _ & V'). split; [exact L'|]. intros k Hk. rewrite V' by exact Hk. f_equal.
           destruct (Nat.leb_spec (n - (0 + n)) k); [reflexivity|lia].
      * intros [[w' temp] stopped] H. apply returns_ok. exact H.
  - intros w [Lw Vw]. split; [exact Lw|]. intros k Hk. rewrite Vw by exact Hk. f_equal. unfold B, multi_scalar_w.
    assert (2 ^ k <= 2 ^ (n - 1)) by (apply Nat.pow_le_mono_r; lia).
    assert (2 ^ k / 8 <= 2 ^ (n - 1) / 8) by (apply Nat.div_le_mono; lia).
    rewrite Nat.add_0_l, block_sums by lia. apply sumn_ext. intros j Hj.
    rewrite (mono_le n k) by lia. rewrite (Nat.add_comm j). reflexivity.
Qed.

Variables (tl : list Z) (t : nat -> F) (c : nat -> F) (il : list Z) (m0 m1 rf rf2 Zv : F).
Hypothesis At : arr tl n (fun i => fz (t i)).
Hypothesis Lil : length il = 2 ^ n + 1.
Hypothesis Ail : arr il (2 ^ n) (fun j => fz (c j)).

(** The opened polynomial: input coefficients plus the scaled mask [m0 + m1 x_{n-1}]. *)
Definition opened (j : nat) : F :=
  (c j + (if (j =? 0)%nat then Zv * m0 else 0) + (if (j =? 2 ^ (n - 1))%nat then Zv * m1 else 0))%F.
Lemma polyI_opened : forall x, polyI n opened x = (polyI n c x + Zv * (m0 + x (n - 1)%nat * m1))%F.
Proof.
  clear Lil Ail At Lr Ar HK.
  intro x. unfold polyI, opened. pose proof (half_lt n ltac:(lia)). pose proof (pow2_pos (n - 1)).
  rewrite (sumn_ext _ _ (fun j => mono n x j * c j + (if (j =? 0)%nat then mono n x j * (Zv * m0) else 0)
    + (if (j =? 2 ^ (n - 1))%nat then mono n x j * (Zv * m1) else 0))%F).
  - rewrite !sumn_add. rewrite (sumn_one _ 0 (fun j => mono n x j * (Zv * m0))%F) by lia.
    rewrite (sumn_one _ (2 ^ (n - 1)) (fun j => mono n x j * (Zv * m1))%F) by lia.
    rewrite mono_0, mono_pow2 by lia. ring.
  - intros j Hj. destruct (j =? 0); destruct (j =? 2 ^ (n - 1)); ring.
Qed.
Definition witI (k : nat) : F :=
  if k <? n then (sumn (2 ^ k) (fun j => mono k s j * quoI opened k j) + s n * t k)%F
  else (rf + Zv * rf2 + sumn n (fun i => t i * r i) - sumn n (fun i => s i * t i))%F.

Lemma I_prove_ok : returns (I_prove K rl il [fz m0; fz m1] (fz rf) (fz rf2) (fz Zv) tl) (fun res =>
  let '(ans, w, wa) := res in
  ans = fz (polyI n opened r) /\ length w = n + 1 /\ arr w (n + 1) witI /\ wa = map (fun x => (x * a)%F) w).
Proof.
  pose proof HK as (E1 & E2 & E3 & E4 & E5 & A1 & B1 & A2 & T). unfold I_prove. rewrite E1, E2, E3.
  rewrite shl_int_ok, shl_int_pred by lia. cbn [bind rd nth_error].
  pose proof (half_lt n ltac:(lia)) as EH. pose proof (pow2_pos (n - 1)) as PH.
  rewrite !rem_mul_fz. eapply rb_arr; [exact Ail|lia|]. cbv beta. rewrite rem_add_fz. apply rb_wr'; [lia|].
  eapply rb_arr; [apply arr_upd; [exact Ail|lia]|lia|]. cbv beta.
  destruct (Nat.eqb_spec (2 ^ (n - 1)) 0); [lia|]. rewrite rem_add_fz. apply rb_wr'; [rewrite upd_length; lia|].
  set (l2 := upd (upd il 0 _) _ _).
  assert (L2 : length l2 = 2 ^ n + 1) by (unfold l2; rewrite !upd_length; exact Lil).
  apply returns_bind with (Q := fun _ => True); [apply returns_assert; [|exact I]|].
  { destruct (Nat.leb_spec 1 (length l2)); [reflexivity|lia]. }
  intros _ _. rewrite (wr_last l2 (2 ^ n)) by exact L2. cbn [bind].
  assert (ER : Z.rem (fz rf + fz Zv * fz rf2) P = fz (rf + Zv * rf2)%F) by apply rem_addmul_fz.
  rewrite ER. set (cs := map fix_neg_z (upd l2 (2 ^ n) (fz (rf + Zv * rf2)%F))).
  assert (Lcs : length cs = 2 ^ n + 1) by (unfold cs; rewrite map_length, upd_length; exact L2).
  assert (Acs : arr cs (2 ^ n) (fun j => fz (opened j))).
  { split; [lia|]. intros j Hj. unfold cs. rewrite nth_error_map, nth_upd_other by lia. unfold l2.
    rewrite !nth_upd by (rewrite ?upd_length; lia). unfold opened.
    destruct (Nat.eqb_spec j (2 ^ (n - 1))) as [->|N1].
    - destruct (Nat.eqb_spec (2 ^ (n - 1)) 0); [lia|]. cbn [option_map]. rewrite fix_neg_z_fz. do 2 f_equal. ring.
    - destruct (Nat.eqb_spec j 0) as [->|N2].
      + cbn [option_map]. rewrite fix_neg_z_fz. do 2 f_equal. ring.
      + destruct Ail as [_ Ail']. rewrite Ail' by exact Hj. cbn [option_map]. rewrite fix_neg_z_fz. do 2 f_equal. ring. }
  assert (Bcs : nth_error cs (2 ^ n) = Some (fz (rf + Zv * rf2)%F)).
  { unfold cs. rewrite nth_error_map, nth_upd_same by lia. cbn [option_map]. rewrite fix_neg_z_fz. reflexivity. }
  clearbody cs. rewrite (I_evaluate_ok cs opened Acs). cbn [bind].
  eapply returns_bind; [apply (I_quotients_ok cs opened); [lia|exact Acs]|]. intros wc (cw & Awc & Vwc).
  assert (Awc' : arr (map fix_neg_z wc) (2 ^ n) (fun j => fz (cw j))).
  { eapply arr_ext; [apply arr_map, Awc|]. intros j Hj. cbv beta. apply fix_neg_z_fz. }
  apply rb_vuint. eapply returns_bind; [apply (I_witness_sums_ok _ cw), Awc'|]. intros w1 (Lw1 & Vw1).
  eapply returns_bind; [eapply (returns_rd _ _ _ _ (eq (s n))); [exact B1|reflexivity]|]. intros gb <-.
  apply (returns_bind _ _ _ _ (fun w => length w = n + 1 /\ forall m, m < n -> nth_error w m = Some (witI m))).
  { eapply returns_conseq.
    - apply (returns_for _ _ _ _ (fun i w => length w = n + 1 /\ (forall m, m < i -> nth_error w m = Some (witI m)) /\
        forall m, i <= m -> nth_error w m = nth_error w1 m)).
      + split; [exact Lw1|]. split; [intros; lia|reflexivity].
      + intros k w Hk (L & V & R). eapply rb_arr; [exact At|lia|]. apply rb_vuint.
        eapply returns_bind; [eapply (returns_rd _ _ _ _ (eq _)); [rewrite R by lia; apply Vw1; lia|reflexivity]|].
        intros wk <-. apply returns_wr; [lia|]. split; [rewrite upd_length; exact L|]. split.
        * intros m Hm. rewrite nth_upd by lia. destruct (Nat.eqb_spec m k) as [->|]; [|apply V; lia]. f_equal.
          unfold witI. destruct (Nat.ltb_spec k n); [|lia]. rewrite gmul_fz. f_equal. apply sumn_ext. intros j Hj.
          rewrite Vwc by (assumption || lia). reflexivity.
        * intros m Hm. rewrite nth_upd_other by lia. apply R. lia.
    - intros w (L & V & _). split; [exact L|exact V]. }
  intros w [Lw Vw].
  eapply returns_bind; [eapply (returns_rd _ _ _ _ (eq _)); [exact Bcs|reflexivity]|]. intros cb <-.
  apply (returns_bind _ _ _ _ (fun tmp => (0 <= tmp < 2 ^ 512)%Z /\
    ofZ tmp = (rf + Zv * rf2 + sumn n (fun i => t i * r i))%F)).
  { eapply returns_conseq.
    - apply (returns_for _ _ _ _ (fun i tmp => (0 <= tmp < (Z.of_nat i + 1) * 2 ^ 254)%Z /\
        ofZ tmp = (rf + Zv * rf2 + sumn i (fun i => t i * r i))%F)).
      + split; [pose proof (fz_pos (rf + Zv * rf2)%F); pose proof (fz_lt_254 (rf + Zv * rf2)%F); lia|].
        rewrite ofZ_fz. cbn [sumn]. ring.
      + intros i tmp Hi [Bt Et]. eapply rb_arr; [exact At|lia|]. eapply rb_arr; [exact Ar|lia|].
        cbv beta. rewrite rem_mul_fz. apply returns_ok. split.
        * pose proof (fz_pos (t i * r i)%F). pose proof (fz_lt_254 (t i * r i)%F). lia.
        * rewrite ofZ_add, ofZ_fz, Et. cbn [sumn]. ring.
    - intros tmp [Bt Et]. split; [|exact Et]. split; [lia|].
      eapply Z.lt_le_trans; [apply Bt|].
      apply Z.le_trans with (2 ^ 200 * 2 ^ 254)%Z.
      + apply Z.mul_le_mono_nonneg_r; [discriminate|]. assert (32 <= 2 ^ 200)%Z by (vm_compute; discriminate). lia.
      + vm_compute. discriminate. }
  intros tmp [Bt Et]. apply (rb_eq _ _ _ (rf + Zv * rf2 + sumn n (fun i => t i * r i))%F).
  { rewrite pre_exp_ok by exact Bt. apply returns_ok. rewrite Et. change gen1 with 1%F. ring. }
  apply (rb_eq _ _ _ (witI n)).
  { eapply returns_conseq.
    - apply (returns_for _ _ _ _ (fun i x => x =
        (rf + Zv * rf2 + sumn n (fun i => t i * r i) - sumn i (fun i => s i * t i))%F)).
      + cbn [sumn]. ring.
      + intros i x Hi ->. eapply rb_arr; [exact At|lia|]. apply rb_vuint.
        eapply rb_arr; [exact A1|apply Nat.pow_lt_mono_r; lia|]. apply returns_ok. rewrite gmul_fz, mono_pow2 by lia.
        cbn [sumn]. ring.
    - intros x ->. unfold witI. destruct (Nat.ltb_spec n n); [lia|reflexivity]. }
  apply rb_wr'; [lia|]. apply returns_ok.
  split; [reflexivity|]. split; [rewrite upd_length; exact Lw|]. split.
  - split; [rewrite upd_length; lia|]. intros m Hm. rewrite nth_upd by lia.
    destruct (Nat.eqb_spec m n) as [->|]; [reflexivity|apply Vw; lia].
  - apply map_ext. intro x. apply gmul_fz.
Qed.

(** The final check as an equation between exponents. *)
Lemma I_verify_eq : forall D D2 ans w wf wal waf, arr w (n + 1) wf -> arr wal n waf ->
  I_verify K rl D D2 (fz Zv) (fz ans) w wal
  = Ok (forallb (fun k => gt_eqb (waf k) (a * wf k)%F) (seq 0 n)
        && gt_eqb (D + D2 * Zv - ans)%F (sumn n (fun i => (s i - r i) * wf i) + s n * wf n)%F).
Proof.
  intros D D2 ans w wf wal waf Aw Awa. clear Lil Ail At. pose proof HK as (E1 & E2 & E3 & E4 & E5 & A1 & B1 & A2 & T).
  apply returns_eq_ok. unfold I_verify. rewrite Lr, E3, E4, E5.
  apply (rb_eq _ _ _ (forallb (fun k => gt_eqb (waf k) (a * wf k)%F) (seq 0 n))).
  { eapply returns_conseq.
    - apply (returns_for _ _ _ _ (fun i x => forallb (fun k => gt_eqb (waf k) (a * wf k)%F) (seq 0 i) = x)); [reflexivity|].
      intros i x Hi <-. eapply rb_arr; [exact Awa|lia|]. eapply rb_arr; [exact Aw|lia|]. apply returns_ok.
      rewrite seq_S, forallb_app. cbn [forallb Nat.add]. rewrite andb_true_r. unfold pairing, gen2. rewrite mul_1_l. reflexivity.
    - intros x H. exact H. }
  apply rb_vuint. apply rb_pre_exp.
  apply (rb_eq _ _ _ (sumn n (fun i => (s i - r i) * wf i) + s n * wf n)%F).
  { eapply returns_conseq.
    - apply (returns_for _ _ _ _ (fun i x => x =
        if i <=? n then sumn i (fun i => (s i - r i) * wf i)%F
        else (sumn n (fun i => (s i - r i) * wf i) + s n * wf n)%F)).
      + reflexivity.
      + intros i x Hi ->. eapply rb_arr; [exact A2|lia|]. eapply rb_arr; [exact Aw|lia|].
        destruct (Nat.ltb_spec i n) as [Hid|Hid].
        * eapply rb_arr; [exact Ar|exact Hid|]. apply rb_pre_exp. apply returns_ok.
          destruct (Nat.leb_spec i n); [|lia]. destruct (Nat.leb_spec (S i) n); [|lia].
          cbn [sumn]. unfold pairing, gen2. rewrite mul_1_l. reflexivity.
        * apply returns_ok. replace i with n by lia. destruct (Nat.leb_spec n n); [|lia].
          destruct (Nat.leb_spec (S n) n); [lia|]. reflexivity.
    - intros x ->. destruct (Nat.leb_spec (0 + (n + 1)) n); [lia|reflexivity]. }
  apply returns_ok. unfold pairing, gen1, gen2. rewrite !mul_1_l, gmul_fz. reflexivity.
Qed.

Lemma I_verify_ok : forall D D2 w, arr w (n + 1) witI ->
  D = (polyI n c s + s n * rf)%F -> D2 = (m0 + s (n - 1)%nat * m1 + s n * rf2)%F ->
  I_verify K rl D D2 (fz Zv) (fz (polyI n opened r)) w (map (fun x => (x * a)%F) w) = Ok true.
Proof.
  clear Lil Ail At.
  intros D D2 w Aw ED ED2.
  rewrite (I_verify_eq D D2 _ w witI _ (fun i => (witI i * a)%F) Aw).
  2:{ eapply arr_le; [apply (arr_map _ _ (fun x => (x * a)%F) _ _ _ Aw)|lia]. }
  f_equal. rewrite andb_true_iff. split.
  - apply forallb_forall. intros k _. apply gt_eqb_refl. ring.
  - apply gt_eqb_refl. rewrite ED, ED2.
    assert (PO : polyI n opened s = (polyI n c s + Zv * (m0 + s (n - 1)%nat * m1))%F) by apply polyI_opened.
    rewrite (sumn_ext n (fun i => (s i - r i) * witI i)%F
      (fun k => (s k - r k) * sumn (2 ^ k) (fun j => mono k s j * quoI opened k j)
        + s n * (s k * t k - t k * r k))%F).
    2:{ intros k Hk. unfold witI. destruct (Nat.ltb_spec k n); [|lia]. ring. }
    rewrite sumn_add, <- poly_quotients, PO, sumn_scal, sumn_sub. unfold witI. destruct (Nat.ltb_spec n n); [lia|]. ring.
Qed.
End Open.
