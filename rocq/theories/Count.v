(** * Counting challenge vectors

    [few n k E]: of the [P^n] vectors of [n] field elements, at most the
    fraction [k / P] satisfies [E]. *)
From Coq Require Import ZArith List Bool Arith Lia Ring.
From Verif Require Import Limbs Field FieldProofs Fp ArithProofs Base MleSpec.
Import ListNotations.
Open Scope nat_scope.

Definition few (n k : nat) (E : list F -> Prop) : Prop :=
  exists l : list (list F), (P * Z.of_nat (length l) <= Z.of_nat k * P ^ Z.of_nat n)%Z /\
    forall v, length v = n -> E v -> In v l.

(** The field and its powers as lists. *)
Lemma F_finite : exists l : list F, Z.of_nat (length l) = P /\ forall a, In a l.
Proof.
  pose proof P_pos as HP. remember (Z.to_nat P) as n eqn:En.
  assert (Hn : Z.of_nat n = P) by (subst n; rewrite Z2Nat.id by lia; reflexivity). clear En.
  exists (map (fun k => ofZ (Z.of_nat k)) (seq 0 n)). rewrite map_length, seq_length. split; [exact Hn|].
  intro a. apply in_map_iff. exists (Z.to_nat (fz a)). pose proof (fz_range a) as R.
  split; [rewrite Z2Nat.id by lia; apply ofZ_fz|]. apply in_seq. lia.
Qed.
Lemma vectors : forall n, exists l : list (list F), Z.of_nat (length l) = (P ^ Z.of_nat n)%Z /\
  forall v, length v = n -> In v l.
Proof.
  destruct F_finite as (lf & Lf & Hf). induction n as [|n (l & L & H)].
  - exists [[]]. split; [reflexivity|]. intros [|] E; [left; reflexivity|discriminate].
  - exists (flat_map (fun a => map (cons a) l) lf). split.
    + rewrite Nat2Z.inj_succ, Z.pow_succ_r by lia. rewrite <- L, <- Lf. clear Lf Hf. induction lf as [|a lf IH]; [simpl; lia|].
      cbn [flat_map length]. rewrite app_length, map_length. lia.
    + intros [|a v] E; [discriminate|]. apply in_flat_map. exists a. split; [apply Hf|]. apply in_map, H.
      simpl in E. lia.
Qed.
Lemma vec_eq_dec : forall v w : list F, {v = w} + {v <> w}.
Proof. apply list_eq_dec, F_eq_dec. Qed.

Lemma few_none : forall n k E, (forall v, length v = n -> ~ E v) -> few n k E.
Proof.
  intros n k E H. exists []. split; [|intros v L K; exact (H v L K)].
  pose proof P_pos. cbn [length]. rewrite Z.mul_0_r. apply Z.mul_nonneg_nonneg; [lia|]. apply Z.pow_nonneg. lia.
Qed.
Lemma few_weaken : forall n k k' (E E' : list F -> Prop), few n k E -> k <= k' -> (forall v, length v = n -> E' v -> E v) -> few n k' E'.
Proof.
  intros n k k' E E' (l & L & H) Hk HE. exists l. split; [|intros v Lv Ev; apply H; [exact Lv|apply HE; assumption]].
  pose proof P_pos. assert (0 <= P ^ Z.of_nat n)%Z by (apply Z.pow_nonneg; lia).
  etransitivity; [exact L|]. apply Z.mul_le_mono_nonneg_r; lia.
Qed.
(** At most [k] values of one challenge. *)
Lemma few_one : forall k (E : F -> Prop) l, length l <= k -> (forall t, E t -> In t l) ->
  few 1 k (fun v => exists t, v = [t] /\ E t).
Proof.
  intros k E l L H. exists (map (fun t => [t]) l). rewrite map_length. split.
  - change (Z.of_nat 1) with 1%Z. rewrite Z.pow_1_r, Z.mul_comm. pose proof P_pos. apply Z.mul_le_mono_nonneg_r; lia.
  - intros v _ (t & -> & Et). apply in_map_iff. exists t. split; [reflexivity|apply H, Et].
Qed.

Lemma in_pairs : forall n m k (Q : list F -> list F -> Prop) (L : list (list F)),
  (forall h, In h L -> few m k (Q h)) ->
  exists l : list (list F), (P * Z.of_nat (length l) <= Z.of_nat (length L) * (Z.of_nat k * P ^ Z.of_nat m))%Z /\
    forall h t, In h L -> length h = n -> length t = m -> Q h t -> In (h ++ t) l.
Proof.
  intros n m k Q L. induction L as [|h L IH]; intro H.
  - exists []. split; [simpl; lia|]. intros h t [].
  - destruct IH as (l & Ll & Hl); [intros; apply H; right; assumption|].
    destruct (H h (or_introl eq_refl)) as (lh & Lh & Hh).
    exists (map (app h) lh ++ l). rewrite app_length, map_length. split.
    + cbn [length]. set (B := (Z.of_nat k * P ^ Z.of_nat m)%Z) in *. set (p := P) in *.
      rewrite Nat2Z.inj_add, Z.mul_add_distr_l, Nat2Z.inj_succ, Z.mul_succ_l. lia.
    + intros h' t [<-|I] Lh' Lt K; apply in_or_app.
      * left. apply in_map, Hh; assumption.
      * right. apply Hl; assumption.
Qed.

(** Sequential composition: first [n] challenges, then [m]. *)
Lemma few_bind : forall n m k1 k2 E1 (E : list F -> Prop), few n k1 E1 ->
  (forall h, length h = n -> ~ E1 h -> few m k2 (fun t => E (h ++ t))) ->
  few (n + m) (k1 + k2) E.
Proof.
  intros n m k1 k2 E1 E (l1 & L1 & H1) H2.
  destruct (vectors n) as (A & LA & HA). destruct (vectors m) as (B & LB & HB).
  set (A' := filter (fun h => (length h =? n) && negb (if in_dec vec_eq_dec h l1 then true else false)) A).
  destruct (in_pairs n m k2 (fun h t => E (h ++ t)) A') as (l2 & L2 & K2).
  { intros h Hh. apply filter_In in Hh. destruct Hh as [_ Hh]. apply andb_prop in Hh. destruct Hh as [Hn Hi].
    apply Nat.eqb_eq in Hn. apply H2; [exact Hn|]. intro K. apply H1 in K; [|exact Hn].
    destruct (in_dec vec_eq_dec h l1); [discriminate|contradiction]. }
  exists (flat_map (fun h => map (app h) B) l1 ++ l2). split.
  - assert (LF : length (flat_map (fun h => map (app h) B) l1) = length l1 * length B).
    { clear. induction l1 as [|h l1 IH]; [reflexivity|]. cbn [flat_map]. rewrite app_length, map_length, IH. simpl. lia. }
    assert (LA' : (Z.of_nat (length A') <= P ^ Z.of_nat n)%Z).
    { rewrite <- LA. apply inj_le. unfold A'. clear. induction A as [|h A IH]; [simpl; lia|]. cbn [filter].
      destruct (_ && _); cbn [length]; lia. }
    rewrite app_length, LF, !Nat2Z.inj_add, Nat2Z.inj_mul, LB, Z.mul_add_distr_l, Z.pow_add_r by lia.
    pose proof P_pos. assert (0 <= P ^ Z.of_nat m)%Z by (apply Z.pow_nonneg; lia).
    assert (0 <= P ^ Z.of_nat n)%Z by (apply Z.pow_nonneg; lia).
    set (pm := (P ^ Z.of_nat m)%Z) in *. set (pn := (P ^ Z.of_nat n)%Z) in *. set (p := P) in *. clearbody pm pn p.
    assert (p * (Z.of_nat (length l1) * pm) <= Z.of_nat k1 * pn * pm)%Z.
    { rewrite Z.mul_assoc. apply Z.mul_le_mono_nonneg_r; assumption. }
    assert (Z.of_nat (length A') * (Z.of_nat k2 * pm) <= pn * (Z.of_nat k2 * pm))%Z.
    { apply Z.mul_le_mono_nonneg_r; [|assumption]. apply Z.mul_nonneg_nonneg; lia. }
    replace ((Z.of_nat k1 + Z.of_nat k2) * (pn * pm))%Z with (Z.of_nat k1 * pn * pm + pn * (Z.of_nat k2 * pm))%Z by ring.
    lia.
  - intros v Lv Ev. rewrite <- (firstn_skipn n v) in Ev |- *.
    set (h := firstn n v) in *. set (t := skipn n v) in *.
    assert (Lh : length h = n) by (unfold h; rewrite firstn_length; lia).
    assert (Lt : length t = m) by (unfold t; rewrite skipn_length; lia).
    apply in_or_app. destruct (in_dec vec_eq_dec h l1) as [I|N].
    + left. apply in_flat_map. exists h. split; [exact I|]. apply in_map, HB, Lt.
    + right. apply K2; try assumption. apply filter_In. split; [apply HA, Lh|].
      rewrite (proj2 (Nat.eqb_eq _ _) Lh). destruct (in_dec vec_eq_dec h l1); [contradiction|reflexivity].
Qed.

(** The common case: one challenge [t], then the rest. *)
Lemma few_cons : forall m k1 k2 (B : F -> Prop) (E : list F -> Prop),
  (exists l, length l <= k1 /\ forall t, B t -> In t l) ->
  (forall t, ~ B t -> few m k2 (fun v => E (t :: v))) -> few (S m) (k1 + k2) E.
Proof.
  intros m k1 k2 B E (l & L & H) K. change (S m) with (1 + m).
  apply (few_bind 1 m k1 k2 (fun v => exists t, v = [t] /\ B t)); [apply (few_one k1 B l L H)|].
  intros [|t [|]] Lh N; try discriminate. apply K. intro Bt. apply N. exists t. auto.
Qed.

(** ** Roots *)
Lemma F_search : forall Q : F -> Prop, (forall a, {Q a} + {~ Q a}) -> (exists a, Q a) \/ forall a, ~ Q a.
Proof.
  intros Q D. destruct F_finite as (l & _ & H).
  destruct (Exists_dec Q l D) as [X|X].
  - left. apply Exists_exists in X. destruct X as (a & _ & Qa). eauto.
  - right. intros a Qa. apply X, Exists_exists. exists a. auto.
Qed.
Lemma linear_roots : forall a b : F, a <> 0%F \/ b <> 0%F ->
  exists l, length l <= 1 /\ forall t, (a * t + b = 0)%F -> In t l.
Proof.
  intros a b N. destruct (F_search (fun t => a * t + b = 0)%F) as [[t0 R]|R]; [intro; apply F_eq_dec| |].
  - exists [t0]. split; [simpl; lia|]. intros t Rt. left.
    assert (E : (a * (t - t0) = 0)%F) by (replace (a * (t - t0))%F with (a * t + b - (a * t0 + b))%F by ring; rewrite Rt, R; ring).
    apply F_integral in E. destruct E as [E|E].
    + destruct N as [N|N]; [contradiction|]. exfalso. apply N. rewrite <- R, E. ring.
    + replace t with (t0 + (t - t0))%F by ring. rewrite E. ring.
  - exists []. split; [simpl; lia|]. intros t Rt. destruct (R t Rt).
Qed.
Lemma quadratic_roots : forall a b c : F, a <> 0%F \/ b <> 0%F \/ c <> 0%F ->
  exists l, length l <= 2 /\ forall t, (a * t * t + b * t + c = 0)%F -> In t l.
Proof.
  intros a b c N. destruct (F_search (fun t => a * t * t + b * t + c = 0)%F) as [[t0 R]|R]; [intro; apply F_eq_dec| |].
  - destruct (linear_roots a (a * t0 + b)) as (l & L & H).
    { destruct (F_eq_dec a 0%F) as [Ea|]; [|left; assumption]. right. intro E. rewrite Ea in *.
      assert (Eb : b = 0%F) by (rewrite <- E; ring). rewrite Eb in *.
      assert (Ec : c = 0%F) by (rewrite <- R; ring). destruct N as [N|[N|N]]; contradiction. }
    exists (t0 :: l). split; [simpl; lia|]. intros t Rt.
    assert (E : ((t - t0) * (a * t + (a * t0 + b)) = 0)%F).
    { replace ((t - t0) * (a * t + (a * t0 + b)))%F with (a * t * t + b * t + c - (a * t0 * t0 + b * t0 + c))%F by ring.
      rewrite Rt, R. ring. }
    apply F_integral in E. destruct E as [E|E].
    + left. replace t with (t0 + (t - t0))%F by ring. rewrite E. ring.
    + right. apply H, E.
  - exists []. split; [simpl; lia|]. intros t Rt. destruct (R t Rt).
Qed.

(** Schwartz-Zippel for multilinear extensions. *)
Lemma fold1_sub : forall t f g i, fold1 t (fun k => f k - g k)%F i = (fold1 t f i - fold1 t g i)%F.
Proof. intros. unfold fold1. ring. Qed.
Theorem mle_zero_few : forall n f, (exists x, x < 2 ^ n /\ f x <> 0%F) -> few n n (fun R => mle R f = 0%F).
Proof.
  induction n as [|n IH]; intros f (x & Hx & N).
  - apply few_none. intros [|] L; [|discriminate]. simpl in Hx. assert (x = 0) as -> by lia.
    rewrite mle_folds. exact N.
  - replace (S n) with (1 + n) at 2 by lia.
    apply (few_cons n 1 n (fun t => fold1 t f (x / 2) = 0%F)).
    + destruct (linear_roots (f (2 * (x / 2) + 1)%nat - f (2 * (x / 2))%nat)%F (f (2 * (x / 2))%nat)) as (l & L & H).
      { pose proof (Nat.div_mod x 2 ltac:(lia)) as Dx. pose proof (Nat.mod_upper_bound x 2 ltac:(lia)).
        destruct (F_eq_dec (f (2 * (x / 2))%nat) 0%F) as [E|]; [left|right; assumption].
        assert (Ex : x = 2 * (x / 2) + 1 \/ x = 2 * (x / 2)) by lia. destruct Ex as [Ex|Ex].
        - rewrite <- Ex, E. intro K. apply N. rewrite <- K. ring.
        - rewrite <- Ex in E. contradiction. }
      exists l. split; [exact L|]. intros t E. apply H. rewrite <- E. unfold fold1. ring.
    + intros t Nt. eapply few_weaken; [apply (IH (fold1 t f))|apply Nat.le_refl|].
      * exists (x / 2). split; [|exact Nt]. apply Nat.div_lt_upper_bound; [lia|]. rewrite <- pow2_S. exact Hx.
      * intros v _ E. rewrite mle_cons in E. exact E.
Qed.
Theorem schwartz_zippel : forall n f g, (exists x, x < 2 ^ n /\ f x <> g x) -> few n n (fun R => mle R f = mle R g).
Proof.
  intros n f g (x & Hx & N). eapply few_weaken; [apply (mle_zero_few n (fun k => f k - g k)%F)|apply Nat.le_refl|].
  - exists x. split; [exact Hx|]. intro K. apply N. replace (f x) with ((f x - g x) + g x)%F by ring. rewrite K. ring.
  - intros v _ E. cbv beta in E |- *. replace (mle v (fun k => f k - g k)%F) with (mle v f - mle v g)%F.
    + rewrite E. ring.
    + transitivity (mle v (fun k => f k + (- (1)) * g k)%F); [rewrite mle_add, mle_scal; ring|].
      apply mle_ext. intros; ring.
Qed.

(** A bound with [k < P] leaves some vector out. *)
Lemma F_all : exists l : list F, Z.of_nat (length l) = P /\ NoDup l.
Proof.
  pose proof P_pos as HP. remember (Z.to_nat P) as n eqn:En.
  assert (Hn : Z.of_nat n = P) by (subst n; rewrite Z2Nat.id by lia; reflexivity). clear En.
  exists (map (fun k => ofZ (Z.of_nat k)) (seq 0 n)). rewrite map_length, seq_length. split; [exact Hn|].
  apply NoDup_nth with (d := 0%F). rewrite map_length, seq_length. intros i j Hi Hj E.
  assert (N : forall k, k < n -> nth k (map (fun k => ofZ (Z.of_nat k)) (seq 0 n)) 0%F = ofZ (Z.of_nat k)).
  { intros k Hk. rewrite (nth_indep _ 0%F (ofZ (Z.of_nat 0))) by (rewrite map_length, seq_length; exact Hk).
    rewrite (map_nth (fun k => ofZ (Z.of_nat k))), seq_nth by exact Hk. reflexivity. }
  rewrite !N in E by assumption. apply (f_equal fz) in E. rewrite !fz_ofZ_small in E by lia. lia.
Qed.
Lemma vectors_nodup : forall n, exists l : list (list F), Z.of_nat (length l) = (P ^ Z.of_nat n)%Z /\ NoDup l /\
  forall v, In v l -> length v = n.
Proof.
  destruct F_all as (lf & Lf & Nf). induction n as [|n (l & L & Nl & H)].
  - exists [[]]. split; [reflexivity|]. split; [constructor; [intros []|constructor]|]. intros v [<-|[]]. reflexivity.
  - exists (flat_map (fun a => map (cons a) l) lf). split; [|split].
    + rewrite Nat2Z.inj_succ, Z.pow_succ_r by lia. rewrite <- L, <- Lf. clear Lf Nf. induction lf as [|a lf IH]; [simpl; lia|].
      cbn [flat_map length]. rewrite app_length, map_length. lia.
    + clear Lf. induction Nf as [|a lf Na Nf IH]; [constructor|]. cbn [flat_map].
      assert (NM : NoDup (map (cons a) l)) by (apply FinFun.Injective_map_NoDup; [intros x y E; congruence|exact Nl]).
      assert (Dis : forall v, In v (map (cons a) l) -> ~ In v (flat_map (fun a => map (cons a) l) lf)).
      { intros v Hv K. apply in_map_iff in Hv. destruct Hv as (w & <- & _). apply in_flat_map in K. destruct K as (a' & Ha' & K).
        apply in_map_iff in K. destruct K as (w' & E & _). injection E as -> _. contradiction. }
      revert Dis IH. generalize (flat_map (fun a => map (cons a) l) lf). clear - NM. intros r Dis IH.
      induction NM as [|x q Hx NM IHq]; [exact IH|]. cbn [app]. constructor.
      * rewrite in_app_iff. intros [K|K]; [contradiction|]. apply (Dis x); [left; reflexivity|exact K].
      * apply IHq. intros v Hv. apply Dis. right. exact Hv.
    + intros v Hv. apply in_flat_map in Hv. destruct Hv as (a & _ & Hv). apply in_map_iff in Hv. destruct Hv as (w & <- & Hw).
      cbn [length]. rewrite (H w Hw). reflexivity.
Qed.
Lemma few_proper : forall n k E, few n k E -> (Z.of_nat k < P)%Z -> exists v, length v = n /\ ~ E v.
Proof.
  intros n k E (l & B & HE) Hk. destruct (vectors_nodup n) as (A & LA & NA & HA).
  destruct (Exists_dec (fun v => ~ In v l) A) as [X|X].
  { intro v. destruct (in_dec vec_eq_dec v l); [right; tauto|left; assumption]. }
  - apply Exists_exists in X. destruct X as (v & Hv & Nv). exists v. split; [apply HA, Hv|]. intro Ev. apply Nv, HE; [apply HA, Hv|exact Ev].
  - exfalso. assert (I : incl A l).
    { intros v Hv. destruct (in_dec vec_eq_dec v l) as [|N]; [assumption|]. exfalso. apply X. apply Exists_exists. exists v. auto. }
    pose proof (NoDup_incl_length NA I) as Le. pose proof P_pos as HP.
    assert (Hpow : (0 < P ^ Z.of_nat n)%Z) by (apply Z.pow_pos_nonneg; lia).
    rewrite <- LA in B, Hpow. assert (Le' : (Z.of_nat (length A) <= Z.of_nat (length l))%Z) by lia.
    pose proof (Z.mul_le_mono_nonneg_l _ _ P ltac:(lia) Le') as B2.
    pose proof (proj1 (Z.mul_lt_mono_pos_r _ _ _ Hpow) Hk) as B3. lia.
Qed.
