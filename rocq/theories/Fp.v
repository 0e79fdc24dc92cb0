(** * The ring F = Z/P with Leibniz equality

    Mathematical side: independent of the code.  [P] is the modulus
    ([Field.P]). *)
From Coq Require Import ZArith List Bool Lia Ring Eqdep_dec Arith.
From Verif Require Import Limbs LimbsProofs Field FieldProofs.
Import ListNotations.

Record F : Set := mkF { fz : Z; fz_ok : Z.eqb (Z.modulo fz P) fz = true }.

Lemma F_eq : forall a b : F, fz a = fz b -> a = b.
Proof.
  intros [a Ha] [b Hb]; simpl; intro E; subst b.
  f_equal. apply UIP_dec. apply Bool.bool_dec.
Qed.

Lemma fz_range : forall a : F, (0 <= fz a < P)%Z.
Proof.
  intros [a Ha]; simpl. apply Z.eqb_eq in Ha. rewrite <- Ha. apply Z.mod_pos_bound, P_pos.
Qed.
Lemma fz_mod : forall a : F, (fz a mod P)%Z = fz a.
Proof. intros [a Ha]; simpl. apply Z.eqb_eq in Ha. exact Ha. Qed.

Lemma ofZ_ok : forall z, Z.eqb (Z.modulo (Z.modulo z P) P) (Z.modulo z P) = true.
Proof. intro z. apply Z.eqb_eq. apply Z.mod_mod. pose proof P_pos; lia. Qed.

(** The residue class of an integer. *)
Definition ofZ (z : Z) : F := mkF (z mod P) (ofZ_ok z).

Definition F0 : F := ofZ 0.
Definition F1 : F := ofZ 1.
Definition Fadd (a b : F) : F := ofZ (fz a + fz b).
Definition Fmul (a b : F) : F := ofZ (fz a * fz b).
Definition Fopp (a : F) : F := ofZ (- fz a).
Definition Fsub (a b : F) : F := ofZ (fz a - fz b).

Declare Scope F_scope.
Delimit Scope F_scope with F.
Bind Scope F_scope with F.
Notation "0" := F0 : F_scope.
Notation "1" := F1 : F_scope.
Infix "+" := Fadd : F_scope.
Infix "*" := Fmul : F_scope.
Infix "-" := Fsub : F_scope.
Notation "- x" := (Fopp x) : F_scope.

Lemma ofZ_eq : forall a b, (a mod P = b mod P)%Z -> ofZ a = ofZ b.
Proof. intros. apply F_eq. exact H. Qed.
Lemma ofZ_eq_inv : forall a b, ofZ a = ofZ b -> (a mod P = b mod P)%Z.
Proof. intros a b H. apply (f_equal fz) in H. exact H. Qed.

Lemma P_nz : P <> 0%Z. Proof. pose proof P_pos; lia. Qed.

Lemma ofZ_add : forall a b, ofZ (a + b) = (ofZ a + ofZ b)%F.
Proof. intros. apply ofZ_eq. simpl. apply Z.add_mod, P_nz. Qed.
Lemma ofZ_mul : forall a b, ofZ (a * b) = (ofZ a * ofZ b)%F.
Proof. intros. apply ofZ_eq. simpl. apply Z.mul_mod, P_nz. Qed.
Lemma ofZ_sub : forall a b, ofZ (a - b) = (ofZ a - ofZ b)%F.
Proof. intros. apply ofZ_eq. simpl. apply Zminus_mod. Qed.
Lemma ofZ_opp : forall a, ofZ (- a) = (- ofZ a)%F.
Proof.
  intros. apply ofZ_eq. cbn [fz ofZ]. rewrite <- !Z.sub_0_l. rewrite (Zminus_mod 0 (a mod P)), (Zminus_mod 0 a).
  rewrite Z.mod_mod by apply P_nz. reflexivity.
Qed.
Lemma ofZ_fz : forall a, ofZ (fz a) = a.
Proof. intro a. apply F_eq. simpl. apply fz_mod. Qed.
Lemma ofZ_P : ofZ P = 0%F.
Proof. apply ofZ_eq. rewrite Z.mod_same by apply P_nz. rewrite Z.mod_0_l by apply P_nz. reflexivity. Qed.
Lemma ofZ_mod : forall z, ofZ (z mod P) = ofZ z.
Proof. intro z. apply ofZ_eq. apply Z.mod_mod, P_nz. Qed.
Lemma fz_ofZ_small : forall z, (0 <= z < P)%Z -> fz (ofZ z) = z.
Proof. intros. simpl. apply Z.mod_small. assumption. Qed.

Lemma F_ring : ring_theory F0 F1 Fadd Fmul Fsub Fopp (@eq F).
Proof.
  assert (H : forall a, exists z, a = ofZ z) by (intro a; exists (fz a); symmetry; apply ofZ_fz).
  split; intros; repeat match goal with x : F |- _ => destruct (H x) as [? ->]; clear x end;
  unfold F0, F1; repeat (rewrite <- ofZ_add || rewrite <- ofZ_mul || rewrite <- ofZ_sub || rewrite <- ofZ_opp);
  f_equal; ring.
Qed.
Add Ring Fring : F_ring.

Lemma F_eq_dec : forall a b : F, {a = b} + {a <> b}.
Proof.
  intros a b. destruct (Z.eq_dec (fz a) (fz b)) as [E|N].
  - left. apply F_eq, E.
  - right. congruence.
Qed.

(** ** Powers and scalars *)
Fixpoint Fpow (a : F) (n : nat) : F :=
  match n with O => 1%F | S n' => (a * Fpow a n')%F end.

(** ** Finite sums: [sumn n f = f 0 + ... + f (n-1)] *)
Fixpoint sumn (n : nat) (f : nat -> F) : F :=
  match n with O => 0%F | S n' => (sumn n' f + f n')%F end.

Lemma sumn_ext : forall n f g, (forall i, (i < n)%nat -> f i = g i) -> sumn n f = sumn n g.
Proof.
  induction n; intros f g H; simpl; [reflexivity|].
  rewrite (IHn f g) by (intros; apply H; lia). rewrite H by lia. reflexivity.
Qed.
Lemma sumn_add : forall n f g, sumn n (fun i => f i + g i)%F = (sumn n f + sumn n g)%F.
Proof. induction n; intros; simpl; [ring|]. rewrite IHn. ring. Qed.
Lemma sumn_sub : forall n f g, sumn n (fun i => f i - g i)%F = (sumn n f - sumn n g)%F.
Proof. induction n; intros; simpl; [ring|]. rewrite IHn. ring. Qed.
Lemma sumn_scal : forall n c f, sumn n (fun i => c * f i)%F = (c * sumn n f)%F.
Proof. induction n; intros; simpl; [ring|]. rewrite IHn. ring. Qed.
Lemma sumn_scal_r : forall n c f, sumn n (fun i => f i * c)%F = (sumn n f * c)%F.
Proof. induction n; intros; simpl; [ring|]. rewrite IHn. ring. Qed.
Lemma sumn_zero : forall n, sumn n (fun _ => 0%F) = 0%F.
Proof. induction n; simpl; [reflexivity|]. rewrite IHn. ring. Qed.
Lemma sumn_zero' : forall n f, (forall i, (i < n)%nat -> f i = 0%F) -> sumn n f = 0%F.
Proof. intros. rewrite (sumn_ext n f (fun _ => 0%F)) by assumption. apply sumn_zero. Qed.
Lemma sumn_app : forall n m f, sumn (n + m) f = (sumn n f + sumn m (fun i => f (n + i)%nat))%F.
Proof.
  intros n m f. induction m; simpl.
  - rewrite Nat.add_0_r. ring.
  - rewrite Nat.add_succ_r. simpl. rewrite IHm. ring.
Qed.
Lemma sumn_double : forall n f, sumn (2 * n) f = sumn n (fun i => f (2 * i)%nat + f (2 * i + 1)%nat)%F.
Proof.
  induction n; intro f; [reflexivity|].
  replace (2 * S n)%nat with (S (S (2 * n))) by lia.
  cbn [sumn]. rewrite IHn.
  replace (S (2 * n)) with (2 * n + 1)%nat by lia. ring.
Qed.
Lemma sumn_swap : forall n m (f : nat -> nat -> F),
  sumn n (fun i => sumn m (fun j => f i j)) = sumn m (fun j => sumn n (fun i => f i j)).
Proof.
  induction n; intros m f; simpl.
  - rewrite sumn_zero. reflexivity.
  - rewrite IHn. rewrite <- sumn_add. reflexivity.
Qed.
(** Sum against an indicator. *)
Definition ind (b : bool) : F := if b then 1%F else 0%F.
Lemma sumn_ind : forall n k f, (k < n)%nat -> sumn n (fun i => ind (i =? k)%nat * f i)%F = f k.
Proof.
  induction n; intros k f H; [lia|]. simpl.
  destruct (Nat.eq_dec k n) as [->|N].
  - rewrite Nat.eqb_refl. rewrite sumn_zero'. { simpl. ring. }
    intros i Hi. destruct (Nat.eqb_spec i n); [lia|]. simpl. ring.
  - rewrite IHn by lia. destruct (Nat.eqb_spec n k); [lia|]. simpl. ring.
Qed.

(** ** The representation relation between limb values and F *)
Definition rep (x : fe) (a : F) : Prop := wf512 x /\ val512 x = fz a.

Lemma rep_reduced : forall x a, rep x a -> reduced x.
Proof. intros x a [W V]. split; [exact W|]. rewrite V. apply fz_range. Qed.
Lemma reduced_rep : forall x, reduced x -> rep x (ofZ (val512 x)).
Proof. intros x [W R]. split; [exact W|]. rewrite fz_ofZ_small by exact R. reflexivity. Qed.
Lemma rep_fun : forall x a b, rep x a -> rep x b -> a = b.
Proof. intros x a b [_ V] [_ V']. apply F_eq. congruence. Qed.
Lemma rep_inj : forall x y a, rep x a -> rep y a -> x = y.
Proof. intros x y a [W V] [W' V']. apply val512_inj; congruence. Qed.
Lemma rep_eq : forall x a b, rep x a -> a = b -> rep x b.
Proof. intros; subst; assumption. Qed.

Lemma rep_0 : rep fe_zero 0%F.
Proof. split; [apply reduced_zero|]. rewrite val_zero. symmetry. apply fz_ofZ_small. pose proof P_pos; lia. Qed.
Lemma rep_of_ull : forall x, rep (fe_of_ull x) (ofZ (x mod W64)).
Proof.
  intro x. destruct (fe_of_ull_val x) as [W V]. split; [exact W|].
  rewrite V. symmetry. apply fz_ofZ_small.
  pose proof (Z.mod_pos_bound x W64 W64_pos). pose proof W64_lt_P. lia.
Qed.
Lemma rep_of_ull_small : forall x, (0 <= x < W64)%Z -> rep (fe_of_ull x) (ofZ x).
Proof. intros x H. rewrite <- (Z.mod_small x W64) at 2 by exact H. apply rep_of_ull. Qed.
Lemma rep_of_int : forall x, rep (fe_of_int x) (ofZ (x mod W64)).
Proof. exact rep_of_ull. Qed.
Lemma rep_1 : rep fe_one 1%F.
Proof. apply rep_of_ull_small. rewrite W64_val; lia. Qed.
Lemma rep_add : forall x y a b, rep x a -> rep y b -> rep (fe_add x y) (a + b)%F.
Proof.
  intros x y a b Hx Hy.
  destruct (fe_add_exact x y (rep_reduced _ _ Hx) (rep_reduced _ _ Hy)) as [[W _] V].
  split; [exact W|]. rewrite V. destruct Hx as [_ ->], Hy as [_ ->]. reflexivity.
Qed.
Lemma rep_sub : forall x y a b, rep x a -> rep y b -> rep (fe_sub x y) (a - b)%F.
Proof.
  intros x y a b Hx Hy.
  destruct (fe_sub_exact x y (rep_reduced _ _ Hx) (rep_reduced _ _ Hy)) as [[W _] V].
  split; [exact W|]. rewrite V. destruct Hx as [_ ->], Hy as [_ ->]. reflexivity.
Qed.
Lemma rep_mul : forall x y a b, rep x a -> rep y b -> rep (fe_mul x y) (a * b)%F.
Proof.
  intros x y a b Hx Hy.
  destruct (fe_mul_exact x y (rep_reduced _ _ Hx) (rep_reduced _ _ Hy)) as [[W _] V].
  split; [exact W|]. rewrite V. destruct Hx as [_ ->], Hy as [_ ->]. reflexivity.
Qed.
Lemma rep_feq : forall x y a b, rep x a -> rep y b -> (fe_eq x y = true <-> a = b).
Proof.
  intros x y a b [W V] [W' V']. rewrite (fe_eq_exact x y W W'). rewrite V, V'.
  split; [apply F_eq|congruence].
Qed.
Lemma rep_fne_false : forall x y a b, rep x a -> rep y b -> a = b -> fe_ne x y = false.
Proof.
  intros x y a b Hx Hy E. apply (rep_feq x y a b Hx Hy) in E. unfold fe_eq in E.
  destruct (fe_ne x y); [discriminate|reflexivity].
Qed.
Lemma rep_fne_true : forall x y a b, rep x a -> rep y b -> a <> b -> fe_ne x y = true.
Proof.
  intros x y a b Hx Hy E. destruct (fe_ne x y) eqn:N; [reflexivity|].
  exfalso. apply E. apply (rep_feq x y a b Hx Hy). unfold fe_eq. rewrite N. reflexivity.
Qed.

(** ** Unreduced intermediate values

    The provers work on raw [u512b] values and reduce once.  [raw x z]: the
    limb value [x] is well formed and its value is the integer [z]. *)
Definition raw (x : u512) (z : Z) : Prop := wf512 x /\ val512 x = z.

Lemma raw_rep : forall x a, rep x a -> raw x (fz a).
Proof. intros x a H; exact H. Qed.
Lemma raw_add : forall x y a b, raw x a -> raw y b -> (a + b < W512)%Z -> raw (u512_add x y) (a + b).
Proof.
  intros x y a b [W V] [W' V'] H. destruct (u512_add_small x y W W') as [W2 V2]; [congruence|].
  split; [exact W2|]. congruence.
Qed.
Lemma raw_sub : forall x y a b, raw x a -> raw y b -> (b <= a)%Z -> raw (u512_sub x y) (a - b).
Proof.
  intros x y a b [W V] [W' V'] H. destruct (u512_sub_small x y W W') as [W2 V2]; [lia|].
  split; [exact W2|]. congruence.
Qed.
Lemma raw_mul : forall x y a b, raw x a -> raw y b -> (a < W256)%Z -> (b < W256)%Z ->
  raw (u512_mul x y) (a * b).
Proof.
  intros x y a b [W V] [W' V'] H H'. destruct (u512_mul_exact x y W W') as [W2 V2]; [lia|lia|].
  split; [exact W2|]. congruence.
Qed.
Lemma raw_mod : forall x z, raw x z -> (z < W508)%Z -> rep (u512_mod x) (ofZ z).
Proof.
  intros x z [W V] H. destruct (u512_mod_exact x W) as [W2 V2]; [lia|].
  split; [exact W2|]. rewrite V2, V. reflexivity.
Qed.
Lemma raw_nonneg : forall x z, raw x z -> (0 <= z < W512)%Z.
Proof. intros x z [W <-]. apply val512_range, W. Qed.
Lemma raw_mod_512 : raw mod_512 P.
Proof. split; [apply wf_mod_512|apply val_mod_512]. Qed.
