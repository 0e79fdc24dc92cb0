(** * Outcomes, arrays and loops of the modelled programs *)
From Coq Require Import ZArith List Bool Arith Lia.
Import ListNotations.

(** Result of running a piece of C++:
    - [Ok a]: normal completion with value/state [a];
    - [UB]: undefined behaviour (out-of-bounds access, over-wide shift, ...);
    - [AssertFail]: an [assert] failed (abort);
    - [ExitProg]: the program called [exit];
    - [RetFalse]: early [return false] of the enclosing verifier function;
    - [Diverges]: an infinite loop;
    - [NoFuel]: the model gave up (fuel of a [while] loop exhausted).  Theorems
      that conclude [Ok] exclude it. *)
Inductive outcome (A : Type) : Type :=
| Ok (a : A) | UB | AssertFail | ExitProg | RetFalse | Diverges | NoFuel.
Arguments Ok {A} a.
Arguments UB {A}.
Arguments AssertFail {A}.
Arguments ExitProg {A}.
Arguments RetFalse {A}.
Arguments Diverges {A}.
Arguments NoFuel {A}.

Definition bind {A B} (m : outcome A) (k : A -> outcome B) : outcome B :=
  match m with
  | Ok a => k a
  | UB => UB | AssertFail => AssertFail | ExitProg => ExitProg
  | RetFalse => RetFalse | Diverges => Diverges | NoFuel => NoFuel
  end.
Notation "x <- m ;; k" := (bind m (fun x => k)) (at level 61, m at next level, right associativity).
Notation "' p <- m ;; k" := (bind m (fun p => k))
  (at level 61, p pattern, m at next level, right associativity).
Notation "m ;;; k" := (bind m (fun _ => k)) (at level 61, right associativity).

(** [assert(b)] and [if(b) return false]. *)
Definition assert_ (b : bool) : outcome unit := if b then Ok tt else AssertFail.
Definition reject_if (b : bool) : outcome unit := if b then RetFalse else Ok tt.

(** Arrays are lists; reads and writes outside the allocated part are [UB]. *)
Definition rd {A} (l : list A) (i : nat) : outcome A :=
  match nth_error l i with Some x => Ok x | None => UB end.
Fixpoint upd {A} (l : list A) (i : nat) (x : A) : list A :=
  match l, i with
  | [], _ => []
  | _ :: r, O => x :: r
  | a :: r, S i' => a :: upd r i' x
  end.
Definition wr {A} (l : list A) (i : nat) (x : A) : outcome (list A) :=
  if i <? length l then Ok (upd l i x) else UB.

(** An [int] used as an array index: negative indices are out of bounds. *)
Definition idx (z : Z) : outcome nat := if (z <? 0)%Z then UB else Ok (Z.to_nat z).

(** [for(int i = start; i < start + n; ++i) body] *)
Fixpoint for_ {S : Type} (n : nat) (start : nat) (body : nat -> S -> outcome S) (s : S) : outcome S :=
  match n with
  | O => Ok s
  | Datatypes.S n' => s' <- body start s ;; for_ n' (Datatypes.S start) body s'
  end.

(** [for(int j = u; j < v; ++j) body] over ints *)
Definition forz {S : Type} (u v : Z) (body : Z -> S -> outcome S) (s : S) : outcome S :=
  for_ (Z.to_nat (v - u)) 0 (fun k => body (u + Z.of_nat k)%Z) s.

(** ** Total-correctness reasoning: [m] completes normally with a result in [Q]. *)
Definition returns {A} (m : outcome A) (Q : A -> Prop) : Prop := exists a, m = Ok a /\ Q a.

Lemma returns_ok : forall A (a : A) (Q : A -> Prop), Q a -> returns (Ok a) Q.
Proof. intros; exists a; auto. Qed.
Lemma returns_bind : forall A B (m : outcome A) (k : A -> outcome B) Q R,
  returns m Q -> (forall a, Q a -> returns (k a) R) -> returns (bind m k) R.
Proof. intros A B m k Q R (a & -> & H) K. apply K, H. Qed.
Lemma returns_conseq : forall A (m : outcome A) (Q R : A -> Prop),
  returns m Q -> (forall a, Q a -> R a) -> returns m R.
Proof. intros A m Q R (a & -> & H) K. exists a; auto. Qed.
Lemma returns_rd : forall A (l : list A) i x (Q : A -> Prop),
  nth_error l i = Some x -> Q x -> returns (rd l i) Q.
Proof. intros A l i x Q E H. exists x. unfold rd. rewrite E. auto. Qed.
Lemma returns_wr : forall A (l : list A) i x (Q : list A -> Prop),
  i < length l -> Q (upd l i x) -> returns (wr l i x) Q.
Proof.
  intros A l i x Q L H. exists (upd l i x). unfold wr.
  destruct (Nat.ltb_spec i (length l)); [auto|lia].
Qed.
Lemma returns_idx : forall z (Q : nat -> Prop), (0 <= z)%Z -> Q (Z.to_nat z) -> returns (idx z) Q.
Proof.
  intros z Q H K. exists (Z.to_nat z). unfold idx. destruct (Z.ltb_spec z 0); [lia|auto].
Qed.
Lemma returns_assert : forall b (Q : unit -> Prop), b = true -> Q tt -> returns (assert_ b) Q.
Proof. intros b Q -> H. exists tt; auto. Qed.
Lemma returns_reject_if : forall b (Q : unit -> Prop), b = false -> Q tt -> returns (reject_if b) Q.
Proof. intros b Q -> H. exists tt; auto. Qed.
Lemma returns_for : forall S n start body (I : nat -> S -> Prop) s,
  I start s ->
  (forall i s, start <= i < start + n -> I i s -> returns (body i s) (I (Datatypes.S i))) ->
  returns (for_ n start body s) (I (start + n)).
Proof.
  intros S n. induction n; intros start body I s H0 HS; simpl.
  - rewrite Nat.add_0_r. apply returns_ok, H0.
  - eapply returns_bind; [apply (HS start s); [lia|exact H0]|].
    intros s' H'. rewrite <- Nat.add_succ_comm. apply IHn; [exact H'|].
    intros i s'' Hi. apply HS. lia.
Qed.
Lemma returns_forz : forall S u v body (I : Z -> S -> Prop) s, (u <= v)%Z ->
  I u s ->
  (forall i s, (u <= i < v)%Z -> I i s -> returns (body i s) (I (i + 1)%Z)) ->
  returns (forz u v body s) (I v).
Proof.
  intros S u v body I s L H0 HS. unfold forz.
  replace v with (u + Z.of_nat (0 + Z.to_nat (v - u)))%Z at 2 by lia.
  apply (returns_for S _ 0 _ (fun k s => I (u + Z.of_nat k)%Z s)).
  - rewrite Z.add_0_r. exact H0.
  - intros i s' Hi H. eapply returns_conseq; [apply HS; [lia|exact H]|].
    intros a Ha. replace (u + Z.of_nat (Datatypes.S i))%Z with (u + Z.of_nat i + 1)%Z by lia. exact Ha.
Qed.

(** ** [upd] *)
Lemma upd_length : forall A (l : list A) i x, length (upd l i x) = length l.
Proof. induction l; intros [|i] x; simpl; auto. Qed.
Lemma nth_upd_same : forall A (l : list A) i x, i < length l -> nth_error (upd l i x) i = Some x.
Proof. induction l; intros [|i] x H; simpl in *; try lia; [reflexivity|apply IHl; lia]. Qed.
Lemma nth_upd_other : forall A (l : list A) i j x, i <> j -> nth_error (upd l i x) j = nth_error l j.
Proof. induction l; intros [|i] [|j] x H; simpl; auto; try congruence. Qed.
Lemma nth_error_lt : forall A (l : list A) i, i < length l -> exists x, nth_error l i = Some x.
Proof.
  intros A l i H. destruct (nth_error l i) eqn:E; [eauto|]. apply nth_error_None in E. lia.
Qed.

(** ** Bit manipulation on indices *)
Lemma land_pow2_disjoint : forall j i, j < 2 ^ i -> Nat.land j (2 ^ i) = 0.
Proof.
  intros j i H. apply Nat.bits_inj. intro n. rewrite Nat.land_spec, Nat.bits_0.
  destruct (Nat.eq_dec n i) as [->|N].
  - destruct j as [|j]; [rewrite Nat.bits_0; reflexivity|].
    rewrite (Nat.bits_above_log2 (S j) i); [reflexivity|]. apply Nat.log2_lt_pow2; lia.
  - rewrite Nat.pow2_bits_false by congruence. apply andb_false_r.
Qed.
Lemma lor_pow2 : forall j i, j < 2 ^ i -> Nat.lor j (2 ^ i) = j + 2 ^ i.
Proof.
  intros j i H. pose proof (land_pow2_disjoint j i H) as D.
  rewrite <- (Nat.lxor_lor _ _ D). symmetry. apply Nat.add_nocarry_lxor, D.
Qed.
Lemma shl1 : forall i, Nat.shiftl i 1 = 2 * i.
Proof. intro i. rewrite Nat.shiftl_mul_pow2. simpl. lia. Qed.
Lemma shl1_or1 : forall i, Nat.lor (Nat.shiftl i 1) 1 = 2 * i + 1.
Proof.
  intro i. rewrite shl1. assert (D : Nat.land (2 * i) 1 = 0).
  { change 1 with (Nat.ones 1). rewrite Nat.land_ones. simpl (2 ^ 1).
    rewrite Nat.mul_comm. apply Nat.mod_mul. lia. }
  rewrite <- (Nat.lxor_lor _ _ D). symmetry. apply Nat.add_nocarry_lxor, D.
Qed.
Lemma land_mask : forall i h, Nat.land i (2 ^ h - 1) = i mod 2 ^ h.
Proof.
  intros i h. rewrite <- Nat.land_ones. f_equal. rewrite Nat.ones_equiv. lia.
Qed.
Lemma shr_div : forall i h, Nat.shiftr i h = i / 2 ^ h.
Proof. intros. apply Nat.shiftr_div_pow2. Qed.
Lemma pow2_pos : forall n, 0 < 2 ^ n.
Proof. intro n. apply Nat.neq_0_lt_0, Nat.pow_nonzero. lia. Qed.
Lemma shr1_pow2 : forall n, Nat.shiftr (2 ^ S n) 1 = 2 ^ n.
Proof.
  intro n. rewrite shr_div. rewrite Nat.pow_succ_r', Nat.pow_1_r, Nat.mul_comm. apply Nat.div_mul. lia.
Qed.

(** [x >>= 1] on the array length, Nat *)
Lemma pow2_S : forall n, 2 ^ S n = 2 * 2 ^ n.
Proof. intro n. apply Nat.pow_succ_r'. Qed.
