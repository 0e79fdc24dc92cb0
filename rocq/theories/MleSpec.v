(** * Multilinear extensions: specification vocabulary and algebra

    Purely mathematical; no reference to the code. *)
From Coq Require Import ZArith List Bool Arith Lia Ring.
From Verif Require Import Fp Base.
Import ListNotations.
Open Scope F_scope.

(** Finite products [f 0 * ... * f (n-1)]. *)
Fixpoint prodn (n : nat) (f : nat -> F) : F :=
  match n with O => 1 | S n' => prodn n' f * f n' end.

(** Weight of the index [x] under a list of pairs (weight of a 1 bit, weight
    of a 0 bit), least significant bit first. *)
Fixpoint eqg (l : list (F * F)) (x : nat) : F :=
  match l with
  | [] => 1
  | (a, b) :: r => (if Nat.odd x then a else b) * eqg r (Nat.div2 x)
  end.
Definition point (r : list F) : list (F * F) := map (fun a => (a, 1 - a)) r.
(** Equality weight of index [x] at the point [r]. *)
Definition eqw (r : list F) (x : nat) : F := eqg (point r) x.

(** The multilinear extension of the table [f] (of size [2 ^ length r]) at [r]. *)
Definition mle (r : list F) (f : nat -> F) : F :=
  sumn (2 ^ length r) (fun x => eqw r x * f x).

(** The first [n] bits of [x] as field elements, least significant first. *)
Fixpoint bitvec (n : nat) (x : nat) : list F :=
  match n with O => [] | S n' => ind (Nat.odd x) :: bitvec n' (Nat.div2 x) end.

(** [g] is affine in each coordinate. *)
Definition multiaffine (g : list F -> F) : Prop :=
  forall pre a suf, g (pre ++ a :: suf) = (1 - a) * g (pre ++ 0 :: suf) + a * g (pre ++ 1 :: suf).

(** Binding the lowest variable of a table. *)
Definition fold1 (a : F) (f : nat -> F) : nat -> F :=
  fun i => f (2 * i)%nat * (1 - a) + f (2 * i + 1)%nat * a.
Fixpoint folds (r : list F) (f : nat -> F) : nat -> F :=
  match r with [] => f | a :: r' => folds r' (fold1 a f) end.

(** ** Lemmas *)
Lemma odd_2 : forall i, Nat.odd (2 * i) = false.
Proof. intro i. rewrite Nat.odd_mul. reflexivity. Qed.
Lemma odd_21 : forall i, Nat.odd (2 * i + 1) = true.
Proof. intro i. rewrite Nat.odd_add, odd_2. reflexivity. Qed.
Lemma div2_2 : forall i, Nat.div2 (2 * i) = i.
Proof. intro i. apply Nat.div2_double. Qed.
Lemma div2_21 : forall i, Nat.div2 (2 * i + 1) = i.
Proof. intro i. rewrite Nat.add_1_r. apply Nat.div2_succ_double. Qed.

Lemma eqg_2 : forall a b l i, eqg ((a, b) :: l) (2 * i) = b * eqg l i.
Proof. intros. cbn [eqg]. rewrite odd_2, div2_2. reflexivity. Qed.
Lemma eqg_21 : forall a b l i, eqg ((a, b) :: l) (2 * i + 1) = a * eqg l i.
Proof. intros. cbn [eqg]. rewrite odd_21, div2_21. reflexivity. Qed.
Lemma eqw_2 : forall a r i, eqw (a :: r) (2 * i) = (1 - a) * eqw r i.
Proof. intros. unfold eqw. apply eqg_2. Qed.
Lemma eqw_21 : forall a r i, eqw (a :: r) (2 * i + 1) = a * eqw r i.
Proof. intros. unfold eqw. apply eqg_21. Qed.

Lemma odd_mod_pow : forall x n, Nat.odd (x mod 2 ^ S n) = Nat.odd x.
Proof.
  intros x n. rewrite pow2_S. pose proof (pow2_pos n).
  rewrite Nat.mod_mul_r by lia. rewrite Nat.odd_add, odd_2, xorb_false_r.
  rewrite (Nat.div_mod x 2) at 2 by lia. rewrite Nat.odd_add, odd_2, xorb_false_l. reflexivity.
Qed.
Lemma div2_mod_pow : forall x n, Nat.div2 (x mod 2 ^ S n) = (Nat.div2 x mod 2 ^ n)%nat.
Proof.
  intros x n. rewrite pow2_S. pose proof (pow2_pos n).
  rewrite Nat.mod_mul_r by lia. rewrite (Nat.div2_div x), Nat.div2_div.
  pose proof (Nat.mod_upper_bound x 2 ltac:(lia)).
  rewrite (Nat.mul_comm 2). rewrite Nat.div_add by lia. rewrite Nat.div_small by lia. reflexivity.
Qed.

Lemma eqg_app : forall l1 l2 x,
  eqg (l1 ++ l2) x = eqg l1 (x mod 2 ^ length l1) * eqg l2 (x / 2 ^ length l1)%nat.
Proof.
  induction l1 as [|[a b] l1 IH]; intros l2 x; cbn [app length].
  - cbn [eqg]. rewrite Nat.pow_0_r, Nat.div_1_r. ring.
  - cbn [eqg]. rewrite odd_mod_pow, div2_mod_pow, IH.
    rewrite (Nat.div2_div x) at 2. rewrite pow2_S. rewrite Nat.div_div by (pose proof (pow2_pos (length l1)); lia).
    ring.
Qed.
Lemma eqg_mod : forall l x, eqg l (x mod 2 ^ length l) = eqg l x.
Proof.
  intros l x. pose proof (eqg_app l [] x) as H. rewrite app_nil_r in H. rewrite H. cbn [eqg]. ring.
Qed.
Lemma eqg_snoc_lo : forall l a b x, (x < 2 ^ length l)%nat -> eqg (l ++ [(a, b)]) x = eqg l x * b.
Proof.
  intros l a b x H. rewrite eqg_app, Nat.mod_small, Nat.div_small by exact H. cbn [eqg Nat.odd]. simpl. ring.
Qed.
Lemma eqg_snoc_hi : forall l a b x, (x < 2 ^ length l)%nat ->
  eqg (l ++ [(a, b)]) (x + 2 ^ length l) = eqg l x * a.
Proof.
  intros l a b x H. pose proof (pow2_pos (length l)) as Hp. rewrite eqg_app.
  replace (x + 2 ^ length l)%nat with (x + 1 * 2 ^ length l)%nat by lia.
  rewrite Nat.mod_add, Nat.div_add by lia. rewrite Nat.mod_small, Nat.div_small by exact H.
  simpl. ring.
Qed.
Lemma point_app : forall r s, point (r ++ s) = point r ++ point s.
Proof. intros. apply map_app. Qed.
Lemma point_length : forall r, length (point r) = length r.
Proof. intros. apply map_length. Qed.
Lemma eqw_app : forall r s x,
  eqw (r ++ s) x = eqw r (x mod 2 ^ length r) * eqw s (x / 2 ^ length r)%nat.
Proof. intros. unfold eqw. rewrite point_app, eqg_app, point_length. reflexivity. Qed.

(** The weight as an explicit product over the bits of [x]. *)
Lemma prodn_ext : forall n f g, (forall i, (i < n)%nat -> f i = g i) -> prodn n f = prodn n g.
Proof.
  induction n; intros f g H; simpl; [reflexivity|].
  rewrite (IHn f g) by (intros; apply H; lia). rewrite H by lia. reflexivity.
Qed.
Lemma prodn_shift : forall n f, prodn (S n) f = f O * prodn n (fun i => f (S i)).
Proof.
  induction n; intro f; [simpl; ring|].
  change (prodn (S (S n)) f) with (prodn (S n) f * f (S n)). rewrite IHn. simpl. ring.
Qed.
Theorem eqw_prod : forall r x,
  eqw r x = prodn (length r) (fun j => let b := ind (Nat.testbit x j) in let rj := nth j r 0 in
                                       b * rj + (1 - b) * (1 - rj)).
Proof.
  induction r as [|a r IH]; intro x; [reflexivity|].
  cbn [length]. rewrite prodn_shift. unfold eqw in *. cbn [point map eqg]. fold (point r).
  rewrite IH. set (Q := prodn (length r) _).
  match goal with |- _ = _ * ?q => change q with Q end.
  cbn [nth]. replace (Nat.testbit x 0) with (Nat.odd x) by reflexivity.
  destruct (Nat.odd x); cbn [ind]; ring.
Qed.

(** Binding variables. *)
Lemma fold1_ext : forall a f g, (forall i, f i = g i) -> forall i, fold1 a f i = fold1 a g i.
Proof. intros a f g H i. unfold fold1. rewrite !H. reflexivity. Qed.
Lemma mle_cons : forall a r f, mle (a :: r) f = mle r (fold1 a f).
Proof.
  intros a r f. unfold mle. cbn [length]. rewrite pow2_S, sumn_double.
  apply sumn_ext. intros i _. rewrite eqw_2, eqw_21. unfold fold1. ring.
Qed.
Lemma mle_folds : forall r f, mle r f = folds r f O.
Proof.
  induction r as [|a r IH]; intro f; [unfold mle, eqw; simpl; ring|].
  rewrite mle_cons. cbn [folds]. apply IH.
Qed.
Lemma folds_app : forall r s f, folds (r ++ s) f = folds s (folds r f).
Proof. induction r; intros; simpl; auto. Qed.
Lemma folds_snoc : forall r a f, folds (r ++ [a]) f = fold1 a (folds r f).
Proof. intros. rewrite folds_app. reflexivity. Qed.
Lemma mle_ext : forall r f g, (forall i, (i < 2 ^ length r)%nat -> f i = g i) -> mle r f = mle r g.
Proof. intros r f g H. apply sumn_ext. intros i Hi. rewrite H by exact Hi. reflexivity. Qed.
Lemma mle_add : forall r f g, mle r (fun i => f i + g i) = mle r f + mle r g.
Proof. intros. unfold mle. rewrite <- sumn_add. apply sumn_ext. intros. ring. Qed.
Lemma mle_scal : forall r c f, mle r (fun i => c * f i) = c * mle r f.
Proof. intros. unfold mle. rewrite <- sumn_scal. apply sumn_ext. intros. ring. Qed.
Lemma mle_zero : forall r, mle r (fun _ => 0) = 0.
Proof. intros. unfold mle. apply sumn_zero'. intros. ring. Qed.
Lemma mle_ind : forall r k, (k < 2 ^ length r)%nat -> mle r (fun i => ind (i =? k)%nat) = eqw r k.
Proof.
  intros r k H. unfold mle. rewrite <- (sumn_ind _ k (eqw r) H). apply sumn_ext. intros. ring.
Qed.
Lemma mle_sum : forall r n (f : nat -> nat -> F),
  mle r (fun i => sumn n (fun k => f k i)) = sumn n (fun k => mle r (f k)).
Proof.
  intros. unfold mle. rewrite <- sumn_swap. apply sumn_ext. intros i _. symmetry.
  apply (sumn_scal n (eqw r i)).
Qed.

(** Weights add up to one. *)
Lemma eqw_total : forall r, sumn (2 ^ length r) (eqw r) = 1.
Proof.
  induction r as [|a r IH]; [unfold eqw; simpl; ring|].
  cbn [length]. rewrite pow2_S, sumn_double.
  rewrite (sumn_ext _ _ (eqw r)); [exact IH|]. intros i _. rewrite eqw_2, eqw_21. ring.
Qed.

(** Value at 0/1 points. *)
Lemma eqw_bitvec : forall n x y, (x < 2 ^ n)%nat -> (y < 2 ^ n)%nat ->
  eqw (bitvec n x) y = ind (y =? x)%nat.
Proof.
  induction n; intros x y Hx Hy.
  - simpl in *. replace x with O by lia. replace y with O by lia. reflexivity.
  - rewrite pow2_S in Hx, Hy. cbn [bitvec]. unfold eqw in *. cbn [point map eqg].
    change (map (fun a => (a, 1 - a)) (bitvec n (Nat.div2 x))) with (point (bitvec n (Nat.div2 x))).
    rewrite IHn by (rewrite Nat.div2_div; apply Nat.div_lt_upper_bound; lia).
    pose proof (Nat.div2_odd x) as Dx. pose proof (Nat.div2_odd y) as Dy.
    destruct (Nat.odd x), (Nat.odd y); cbn [Nat.b2n] in Dx, Dy; cbn [ind];
    destruct (Nat.eqb_spec (Nat.div2 y) (Nat.div2 x)); destruct (Nat.eqb_spec y x); cbn [ind]; try lia; ring.
Qed.
Lemma bitvec_length : forall n x, length (bitvec n x) = n.
Proof. induction n; intro x; simpl; auto. Qed.
Theorem mle_bitvec : forall n x f, (x < 2 ^ n)%nat -> mle (bitvec n x) f = f x.
Proof.
  intros n x f H. unfold mle. rewrite bitvec_length.
  rewrite <- (sumn_ind _ x f H). apply sumn_ext. intros i Hi. rewrite eqw_bitvec by assumption. reflexivity.
Qed.
Lemma eqw_affine : forall pre a suf x,
  eqw (pre ++ a :: suf) x = (1 - a) * eqw (pre ++ 0 :: suf) x + a * eqw (pre ++ 1 :: suf) x.
Proof.
  induction pre as [|p pre IH]; intros a suf x; cbn [app]; unfold eqw in *; cbn [point map eqg].
  - destruct (Nat.odd x); ring.
  - fold (point (pre ++ a :: suf)) (point (pre ++ 0 :: suf)) (point (pre ++ 1 :: suf)).
    rewrite (IH a). ring.
Qed.
Theorem mle_multiaffine : forall f, multiaffine (fun r => mle r f).
Proof.
  intros f pre a suf. unfold mle. rewrite !app_length. cbn [length].
  rewrite <- !sumn_scal, <- sumn_add. apply sumn_ext. intros i _. rewrite (eqw_affine pre a). ring.
Qed.
(** Uniqueness: a coordinate-wise affine function is the extension of its
    values on 0/1 points. *)
Theorem mle_unique : forall g, multiaffine g ->
  forall r, g r = mle r (fun x => g (bitvec (length r) x)).
Proof.
  assert (H : forall r g pre, (forall q a suf, g (pre ++ q ++ a :: suf) =
              (1 - a) * g (pre ++ q ++ 0 :: suf) + a * g (pre ++ q ++ 1 :: suf)) ->
            g (pre ++ r) = mle r (fun x => g (pre ++ bitvec (length r) x))).
  { induction r as [|a r IH]; intros g pre A.
    - unfold mle, eqw. simpl. ring.
    - rewrite mle_cons. pose proof (A [] a r) as A0. cbn [app] in A0. rewrite A0.
      assert (E : forall b, g (pre ++ b :: r) = mle r (fun x => g (pre ++ b :: bitvec (length r) x))).
      { intro b. replace (pre ++ b :: r) with ((pre ++ [b]) ++ r) by (rewrite <- app_assoc; reflexivity).
        rewrite IH.
        - apply mle_ext. intros i _. rewrite <- app_assoc. reflexivity.
        - intros q c suf. rewrite <- !app_assoc. cbn [app]. apply (A (b :: q)). }
      rewrite !E. rewrite <- !mle_scal, <- mle_add. apply mle_ext. intros i _. unfold fold1.
      cbn [length bitvec]. rewrite odd_2, odd_21, div2_2, div2_21. cbn [ind]. ring. }
  intros g A r. apply (H r g []). exact A.
Qed.

(** The equality kernel of two points. *)
Definition eqpt (r s : list F) : F :=
  fold_right Fmul 1 (map (fun p => fst p * snd p + (1 - fst p) * (1 - snd p)) (combine r s)).
Lemma eqw_eqw : forall r s, length r = length s ->
  sumn (2 ^ length r) (fun x => eqw r x * eqw s x) = eqpt r s.
Proof.
  induction r as [|a r IH]; intros [|b s] L; try discriminate; [unfold eqw, eqpt; simpl; ring|].
  injection L as L. cbn [length]. rewrite pow2_S, sumn_double.
  unfold eqpt. cbn [combine map fold_right fst snd]. fold (eqpt r s).
  rewrite <- (IH s L), <- sumn_scal. apply sumn_ext. intros i _. rewrite !eqw_2, !eqw_21. ring.
Qed.
Lemma eqw_sym_mle : forall r s, length r = length s -> mle s (eqw r) = eqpt r s.
Proof.
  intros r s L. unfold mle. rewrite <- L, <- (eqw_eqw r s L). apply sumn_ext. intros. ring.
Qed.
