(** * Algebra of one GKR layer

    Mathematical side of the layer reduction: gates as bilinear forms on wires,
    the two sumcheck phases of the linear-time prover, and the identities that
    link them. *)
From Coq Require Import ZArith List Bool Arith Lia Ring.
From Verif Require Import Fp Base MleSpec Circuit.
Import ListNotations.
Open Scope F_scope.

(** ** Sums over lists *)
Definition lsum {A} (l : list A) (f : A -> F) : F := fold_right (fun x acc => f x + acc) 0 l.
Lemma lsum_ext : forall A (l : list A) f g, (forall x, In x l -> f x = g x) -> lsum l f = lsum l g.
Proof.
  induction l; intros f g H; cbn [lsum fold_right]; [reflexivity|].
  unfold lsum in IHl. rewrite (IHl f g) by (intros; apply H; right; assumption).
  rewrite H by (left; reflexivity). reflexivity.
Qed.
Lemma lsum_cons : forall A x (l : list A) f, lsum (x :: l) f = f x + lsum l f.
Proof. reflexivity. Qed.
Lemma lsum_nil : forall A (f : A -> F), lsum [] f = 0.
Proof. reflexivity. Qed.
Lemma lsum_app : forall A (l m : list A) f, lsum (l ++ m) f = lsum l f + lsum m f.
Proof. induction l; intros; cbn [app]; [rewrite lsum_nil; ring|]. rewrite !lsum_cons, IHl. ring. Qed.
Lemma lsum_add : forall A (l : list A) f g, lsum l (fun x => f x + g x) = lsum l f + lsum l g.
Proof. induction l; intros; [rewrite !lsum_nil; ring|]. rewrite !lsum_cons, IHl. ring. Qed.
Lemma lsum_scal : forall A (l : list A) c f, lsum l (fun x => c * f x) = c * lsum l f.
Proof. induction l; intros; [rewrite !lsum_nil; ring|]. rewrite !lsum_cons, IHl. ring. Qed.
Lemma lsum_map : forall A B (h : A -> B) l f, lsum (map h l) f = lsum l (fun x => f (h x)).
Proof. induction l; intros; [reflexivity|]. cbn [map]. rewrite !lsum_cons, IHl. reflexivity. Qed.
Lemma lsum_sumn : forall A (l : list A) n (f : nat -> A -> F),
  sumn n (fun i => lsum l (f i)) = lsum l (fun x => sumn n (fun i => f i x)).
Proof.
  induction l; intros n f.
  - rewrite lsum_nil. apply sumn_zero.
  - rewrite lsum_cons, <- IHl, <- sumn_add. reflexivity.
Qed.

(** ** Gates *)
(** [c11 a b + c10 a + c01 b + c00] *)
Record form := Form { c11 : F; c10 : F; c01 : F; c00 : F }.
Definition two : F := 1 + 1.
Definition form_of (ty : Z) : form :=
  match ty with
  | 0%Z => Form 0 1 1 0                (* addition *)
  | 1%Z => Form 1 0 0 0                (* multiplication *)
  | 5%Z => Form 0 1 0 0                (* sum over a range *)
  | 6%Z => Form 0 (- (1)) 0 1          (* 1 - a *)
  | 7%Z => Form 0 1 (- (1)) 0          (* a - b *)
  | 8%Z => Form (- two) 1 1 0          (* a + b - 2ab *)
  | 9%Z => Form (- (1)) 0 1 0          (* b - ab *)
  | 10%Z => Form 0 1 0 0               (* a *)
  | 12%Z => Form 0 1 0 0               (* weighted sum over a range *)
  | 13%Z => Form (- (1)) 1 0 0         (* a - ab *)
  | _ => Form 0 0 0 0
  end.
(** The wires of a gate: (weight, left wire, right wire). *)
Definition wire := (F * nat * nat)%type.
Definition w_c (w : wire) : F := fst (fst w).
Definition w_l (w : wire) : nat := snd (fst w).
Definition w_r (w : wire) : nat := snd w.
Definition wires (g : gate) : list wire :=
  let u := Z.to_nat (g_u g) in let v := Z.to_nat (g_v g) in
  match g_ty g with
  | 0%Z | 1%Z | 6%Z | 7%Z | 8%Z | 9%Z | 10%Z | 13%Z => [(1, u, v)]
  | 5%Z => map (fun k => (1, k, O)) (seq u (v - u))
  | 12%Z => map (fun k => (Fpow two k, (u + k)%nat, O)) (seq 0 (v + 1 - u))
  | _ => []
  end.
Definition fval (c : form) (a b : F) : F := c11 c * a * b + c10 c * a + c01 c * b + c00 c.
(** Value of a gate over the table [V] of the previous layer. *)
Definition gval (V : nat -> F) (g : gate) : F :=
  lsum (wires g) (fun w => w_c w * fval (form_of (g_ty g)) (V (w_l w)) (V (w_r w))).
Definition in_range (n : nat) (g : gate) : Prop :=
  forall w, In w (wires g) -> (w_l w < n /\ w_r w < n)%nat.

(** ** Scattered tables *)
Definition scat (G : nat) (ts : nat -> list (F * nat)) (x : nat) : F :=
  sumn G (fun g => lsum (ts g) (fun t => ind (x =? snd t)%nat * fst t)).
Definition gath (G : nat) (ts : nat -> list (F * nat)) (f : nat -> F) : F :=
  sumn G (fun g => lsum (ts g) (fun t => fst t * f (snd t))).
Lemma scat_S : forall G ts x,
  scat (S G) ts x = scat G ts x + lsum (ts G) (fun t => ind (x =? snd t)%nat * fst t).
Proof. reflexivity. Qed.
Lemma scat_gath : forall n G ts f, (forall g t, (g < G)%nat -> In t (ts g) -> (snd t < n)%nat) ->
  sumn n (fun x => f x * scat G ts x) = gath G ts f.
Proof.
  intros n G ts f H. unfold scat, gath.
  rewrite (sumn_ext n _ (fun x => sumn G (fun g => f x * lsum (ts g) (fun t => ind (x =? snd t)%nat * fst t))))
    by (intros; symmetry; apply sumn_scal).
  rewrite sumn_swap. apply sumn_ext. intros g Hg.
  rewrite (sumn_ext n _ (fun x => lsum (ts g) (fun t => ind (x =? snd t)%nat * (fst t * f x)))).
  2:{ intros x _. rewrite <- lsum_scal. apply lsum_ext. intros; ring. }
  rewrite lsum_sumn. apply lsum_ext. intros t Ht.
  apply (sumn_ind n (snd t) (fun x => fst t * f x)). apply (H g t Hg Ht).
Qed.
Lemma gath_ext : forall G ts f g, (forall k t, (k < G)%nat -> In t (ts k) -> f (snd t) = g (snd t)) ->
  gath G ts f = gath G ts g.
Proof.
  intros G ts f g H. apply sumn_ext. intros k Hk. apply lsum_ext. intros t Ht. rewrite (H k t Hk Ht). reflexivity.
Qed.
Lemma mle_scat : forall r G ts,
  (forall g t, (g < G)%nat -> In t (ts g) -> (snd t < 2 ^ length r)%nat) ->
  mle r (scat G ts) = gath G ts (eqw r).
Proof. intros r G ts H. unfold mle. apply scat_gath, H. Qed.
Lemma sum_scat : forall n G ts, (forall g t, (g < G)%nat -> In t (ts g) -> (snd t < n)%nat) ->
  sumn n (scat G ts) = gath G ts (fun _ => 1).
Proof. intros n G ts H. rewrite <- (scat_gath n) by exact H. apply sumn_ext. intros. ring. Qed.

(** ** Sumcheck *)
Definition psum (n : nat) (V M A : nat -> F) : F := sumn (2 ^ n) (fun i => V i * M i + A i).
(** The value at [t] of the round polynomial. *)
Definition round (n : nat) (V M A : nat -> F) (t : F) : F := psum n (fold1 t V) (fold1 t M) (fold1 t A).
Lemma round_01 : forall n V M A, round n V M A 0 + round n V M A 1 = psum (S n) V M A.
Proof.
  intros n V M A. unfold round, psum. rewrite pow2_S, sumn_double, <- sumn_add.
  apply sumn_ext. intros i _. unfold fold1. ring.
Qed.
Lemma psum_ext : forall n V M A V' M' A',
  (forall i, (i < 2 ^ n)%nat -> V i = V' i /\ M i = M' i /\ A i = A' i) -> psum n V M A = psum n V' M' A'.
Proof. intros. apply sumn_ext. intros i Hi. destruct (H i Hi) as (-> & -> & ->). reflexivity. Qed.
Lemma psum_0 : forall V M A, psum 0 V M A = V O * M O + A O.
Proof. intros. unfold psum. simpl. ring. Qed.

(** ** The tables of the two phases *)
Section Layer.
Variable G : nat.               (* number of gates *)
Variable gt : nat -> gate.
Variable W : nat -> F.          (* weight of each gate *)
Variable V : nat -> F.          (* values of the previous layer *)
Definition fo (g : nat) : form := form_of (g_ty (gt g)).
Definition tM1 (g : nat) : list (F * nat) :=
  map (fun w => (W g * w_c w * (c11 (fo g) * V (w_r w) + c10 (fo g)), w_l w)) (wires (gt g)).
Definition tA1 (g : nat) : list (F * nat) :=
  map (fun w => (W g * w_c w * (c01 (fo g) * V (w_r w) + c00 (fo g)), w_l w)) (wires (gt g)).
Definition tM2 (vu : F) (U : nat -> F) (g : nat) : list (F * nat) :=
  map (fun w => (W g * w_c w * U (w_l w) * (c11 (fo g) * vu + c01 (fo g)), w_r w)) (wires (gt g)).
Definition tA2 (vu : F) (U : nat -> F) (g : nat) : list (F * nat) :=
  map (fun w => (W g * w_c w * U (w_l w) * (c10 (fo g) * vu + c00 (fo g)), w_r w)) (wires (gt g)).
(** The verifier's predicate for one gate type. *)
Definition pred (ty : Z) (U U' : nat -> F) : F :=
  sumn G (fun g => ind (g_ty (gt g) =? ty)%Z * (W g * lsum (wires (gt g)) (fun w => w_c w * U (w_l w) * U' (w_r w)))).

Variable b : nat.               (* 2^b values in the previous layer *)
Hypothesis HR : forall g, (g < G)%nat -> in_range (2 ^ b) (gt g).

Lemma tM1_in : forall g t, (g < G)%nat -> In t (tM1 g) -> (snd t < 2 ^ b)%nat.
Proof. intros g t Hg Ht. apply in_map_iff in Ht. destruct Ht as (w & <- & Hw). apply (HR g Hg w Hw). Qed.
Lemma tA1_in : forall g t, (g < G)%nat -> In t (tA1 g) -> (snd t < 2 ^ b)%nat.
Proof. intros g t Hg Ht. apply in_map_iff in Ht. destruct Ht as (w & <- & Hw). apply (HR g Hg w Hw). Qed.
Lemma tM2_in : forall vu U g t, (g < G)%nat -> In t (tM2 vu U g) -> (snd t < 2 ^ b)%nat.
Proof. intros vu U g t Hg Ht. apply in_map_iff in Ht. destruct Ht as (w & <- & Hw). apply (HR g Hg w Hw). Qed.
Lemma tA2_in : forall vu U g t, (g < G)%nat -> In t (tA2 vu U g) -> (snd t < 2 ^ b)%nat.
Proof. intros vu U g t Hg Ht. apply in_map_iff in Ht. destruct Ht as (w & <- & Hw). apply (HR g Hg w Hw). Qed.

(** Start of phase 1: the claim is the weighted sum of the gate values. *)
Lemma phase1_start : psum b V (scat G tM1) (scat G tA1) = sumn G (fun g => W g * gval V (gt g)).
Proof.
  unfold psum. rewrite sumn_add, (scat_gath _ _ _ _ tM1_in), (sum_scat _ _ _ tA1_in).
  unfold gath. rewrite <- sumn_add. apply sumn_ext. intros g Hg.
  unfold tM1, tA1, gval. rewrite !lsum_map, <- lsum_add, <- lsum_scal. apply lsum_ext. intros w _.
  cbn [fst snd]. unfold fval. fold (fo g). ring.
Qed.
(** End of phase 1 = start of phase 2. *)
Lemma phase1_end : forall ru, length ru = b ->
  mle ru V * mle ru (scat G tM1) + mle ru (scat G tA1) =
  psum b V (scat G (tM2 (mle ru V) (eqw ru))) (scat G (tA2 (mle ru V) (eqw ru))).
Proof.
  intros ru L. set (vu := mle ru V). unfold psum.
  rewrite sumn_add, (scat_gath _ _ _ _ (tM2_in vu (eqw ru))), (sum_scat _ _ _ (tA2_in vu (eqw ru))).
  rewrite !mle_scat by (rewrite L; exact tM1_in || exact tA1_in).
  unfold gath. rewrite <- sumn_scal, <- !sumn_add. apply sumn_ext. intros g Hg.
  unfold tM1, tA1, tM2, tA2. rewrite !lsum_map, <- lsum_scal, <- !lsum_add. apply lsum_ext. intros w _.
  cbn [fst snd]. ring.
Qed.
(** End of phase 2: the combination of predicates. *)
Lemma phase2_end : forall vu U rv, length rv = b ->
  mle rv V * mle rv (scat G (tM2 vu U)) + mle rv (scat G (tA2 vu U)) =
  sumn G (fun g => fval (fo g) vu (mle rv V) * (W g * lsum (wires (gt g)) (fun w => w_c w * U (w_l w) * eqw rv (w_r w)))).
Proof.
  intros vu U rv L. set (vv := mle rv V).
  rewrite (mle_scat rv G (tM2 vu U)) by (rewrite L; exact (tM2_in vu U)).
  rewrite (mle_scat rv G (tA2 vu U)) by (rewrite L; exact (tA2_in vu U)).
  unfold gath. rewrite <- sumn_scal, <- !sumn_add. apply sumn_ext. intros g Hg.
  unfold tM2, tA2. rewrite !lsum_map, <- !lsum_scal, <- lsum_add. apply lsum_ext. intros w _.
  cbn [fst snd]. unfold fval. ring.
Qed.
Lemma pred_split : forall types vu vv U U', NoDup types ->
  (forall g, (g < G)%nat -> In (g_ty (gt g)) types \/ wires (gt g) = []) ->
  sumn G (fun g => fval (fo g) vu vv * (W g * lsum (wires (gt g)) (fun w => w_c w * U (w_l w) * U' (w_r w)))) =
  lsum types (fun ty => fval (form_of ty) vu vv * pred ty U U').
Proof.
  intros types vu vv U U' ND H. unfold pred.
  rewrite (lsum_ext _ types _ (fun ty => sumn G (fun g => fval (form_of ty) vu vv * (ind (g_ty (gt g) =? ty)%Z *
     (W g * lsum (wires (gt g)) (fun w => w_c w * U (w_l w) * U' (w_r w))))))) by (intros; symmetry; apply sumn_scal).
  rewrite <- (lsum_sumn _ types G). apply sumn_ext. intros g Hg.
  set (K := W g * lsum _ _).
  assert (KZ : wires (gt g) = [] -> K = 0) by (intro E; unfold K; rewrite E, lsum_nil; ring).
  specialize (H g Hg). clearbody K. unfold fo. revert ND H. generalize (g_ty (gt g)). intro t.
  induction types as [|ty types IH]; intros ND H.
  - destruct H as [[]|E]. rewrite lsum_nil, (KZ E). ring.
  - inversion ND as [|? ? NI ND']; subst. rewrite lsum_cons.
    destruct (Z.eqb_spec t ty) as [->|Ne]; cbn [ind].
    + rewrite (lsum_ext _ types _ (fun _ => 0 * 1)).
      2:{ intros x Hx. destruct (Z.eqb_spec ty x) as [->|]; [contradiction|]. cbn [ind]. ring. }
      rewrite (lsum_scal _ types 0 (fun _ => 1)). ring.
    + rewrite <- IH; [ring|exact ND'|]. destruct H as [[->|H]|E]; [congruence|left; exact H|right; exact E].
Qed.
End Layer.

(** ** Direct relay: weights of the input copy layer *)
Lemma relay_start : forall n W V, sumn n (fun g => W g * V g) = sumn n (fun x => V x * W x + 0).
Proof. intros. apply sumn_ext. intros. ring. Qed.
