(** * Polynomial classes compute polynomial arithmetic (C14) *)
From Coq Require Import ZArith List Lia Ring.
From Verif Require Import Limbs Field FieldProofs Fp Poly.
Import ListNotations.
Open Scope F_scope.

(** Specification: the value of the polynomial with coefficient list [c]
    (highest degree first) at [x]. *)
Fixpoint peval (c : list F) (x : F) : F :=
  match c with [] => 0 | a :: r => a * Fpow x (length r) + peval r x end.

(** What a polynomial object denotes: its coefficients, highest first. *)
Definition lrep (p : linear_poly) (c : list F) : Prop :=
  exists a b, c = [a; b] /\ rep (l_a p) a /\ rep (l_b p) b.
Definition qrep (p : quadratic_poly) (c : list F) : Prop :=
  exists a b d, c = [a; b; d] /\ rep (q_a p) a /\ rep (q_b p) b /\ rep (q_c p) d.
Definition crep (p : cubic_poly) (c : list F) : Prop :=
  exists a b d e, c = [a; b; d; e] /\ rep (c_a p) a /\ rep (c_b p) b /\ rep (c_c p) d /\ rep (c_d p) e.
Definition frep (p : quadruple_poly) (c : list F) : Prop :=
  exists a b d e f, c = [a; b; d; e; f] /\ rep (f_a p) a /\ rep (f_b p) b /\ rep (f_c p) d /\
    rep (f_d p) e /\ rep (f_e p) f.
Definition prep (p : quintuple_poly) (c : list F) : Prop :=
  exists a b d e f g, c = [a; b; d; e; f; g] /\ rep (p_a p) a /\ rep (p_b p) b /\ rep (p_c p) d /\
    rep (p_d p) e /\ rep (p_e p) f /\ rep (p_f p) g.

Ltac reps := repeat first [eassumption | apply rep_add | apply rep_mul | apply rep_sub].
Ltac conj := repeat match goal with |- _ /\ _ => split end.
Ltac fields := unfold linear_add, quadratic_add, cubic_add, quadruple_add, quintuple_add, linear_mul, quadratic_mul;
  cbn [l_a l_b q_a q_b q_c c_a c_b c_c c_d f_a f_b f_c f_d f_e p_a p_b p_c p_d p_e p_f].
Ltac start :=
  repeat match goal with
  | H : lrep _ _ |- _ => destruct H as (? & ? & -> & ? & ?)
  | H : qrep _ _ |- _ => destruct H as (? & ? & ? & -> & ? & ? & ?)
  | H : crep _ _ |- _ => destruct H as (? & ? & ? & ? & -> & ? & ? & ? & ?)
  | H : frep _ _ |- _ => destruct H as (? & ? & ? & ? & ? & -> & ? & ? & ? & ? & ?)
  | H : prep _ _ |- _ => destruct H as (? & ? & ? & ? & ? & ? & -> & ? & ? & ? & ? & ? & ?)
  end.

Lemma linear_eval_ok : forall p c x a, lrep p c -> rep x a -> rep (linear_eval p x) (peval c a).
Proof. intros; start. eapply rep_eq; [unfold linear_eval; reps|]. cbn [peval length Fpow]. ring. Qed.
Lemma quadratic_eval_ok : forall p c x a, qrep p c -> rep x a -> rep (quadratic_eval p x) (peval c a).
Proof. intros; start. eapply rep_eq; [unfold quadratic_eval; reps|]. cbn [peval length Fpow]. ring. Qed.
Lemma cubic_eval_ok : forall p c x a, crep p c -> rep x a -> rep (cubic_eval p x) (peval c a).
Proof. intros; start. eapply rep_eq; [unfold cubic_eval; reps|]. cbn [peval length Fpow]. ring. Qed.
Lemma quadruple_eval_ok : forall p c x a, frep p c -> rep x a -> rep (quadruple_eval p x) (peval c a).
Proof. intros; start. eapply rep_eq; [unfold quadruple_eval; reps|]. cbn [peval length Fpow]. ring. Qed.
Lemma quintuple_eval_ok : forall p c x a, prep p c -> rep x a -> rep (quintuple_eval p x) (peval c a).
Proof. intros; start. eapply rep_eq; [unfold quintuple_eval; reps|]. cbn [peval length Fpow]. ring. Qed.

Fixpoint zipadd (c d : list F) : list F :=
  match c, d with a :: c', b :: d' => (a + b) :: zipadd c' d' | _, _ => [] end.
Lemma peval_zipadd : forall c d x, length c = length d -> peval (zipadd c d) x = peval c x + peval d x.
Proof.
  induction c; intros [|b d] x H; simpl in *; try discriminate; [ring|].
  injection H as H. assert (L : length (zipadd c d) = length c).
  { revert d H. clear. induction c; intros [|b d] H; simpl in *; try discriminate; auto. }
  rewrite L, IHc by exact H. rewrite H. ring.
Qed.

Lemma linear_add_ok : forall p q c d, lrep p c -> lrep q d -> lrep (linear_add p q) (zipadd c d).
Proof. intros; start. do 2 eexists. split; [reflexivity|]. conj; fields; reps. Qed.
Lemma quadratic_add_ok : forall p q c d, qrep p c -> qrep q d -> qrep (quadratic_add p q) (zipadd c d).
Proof. intros; start. do 3 eexists. split; [reflexivity|]. conj; fields; reps. Qed.
Lemma cubic_add_ok : forall p q c d, crep p c -> crep q d -> crep (cubic_add p q) (zipadd c d).
Proof. intros; start. do 4 eexists. split; [reflexivity|]. conj; fields; reps. Qed.
Lemma quadruple_add_ok : forall p q c d, frep p c -> frep q d -> frep (quadruple_add p q) (zipadd c d).
Proof. intros; start. do 5 eexists. split; [reflexivity|]. conj; fields; reps. Qed.
Lemma quintuple_add_ok : forall p q c d, prep p c -> prep q d -> prep (quintuple_add p q) (zipadd c d).
Proof. intros; start. do 6 eexists. split; [reflexivity|]. conj; fields; reps. Qed.
Lemma linear_mul_ok : forall p q c d, lrep p c -> lrep q d ->
  exists e, qrep (linear_mul p q) e /\ forall x, peval e x = peval c x * peval d x.
Proof.
  intros; start. eexists. split.
  - do 3 eexists. split; [reflexivity|]. conj; fields; reps.
  - intro. cbn [peval length Fpow]. ring.
Qed.
Lemma quadratic_mul_ok : forall p q c d, qrep p c -> lrep q d ->
  exists e, crep (quadratic_mul p q) e /\ forall x, peval e x = peval c x * peval d x.
Proof.
  intros; start. eexists. split.
  - do 4 eexists. split; [reflexivity|]. conj; fields; reps.
  - intro. cbn [peval length Fpow]. ring.
Qed.
Lemma linear_of_ok : forall x a, rep x a -> lrep (linear_of x) [0; a].
Proof. intros x a H. exists 0, a. split; [reflexivity|]. split; [apply rep_0|exact H]. Qed.
