(** * Soundness of a sum-check with rounds of any degree

    A game of [N] rounds against a stateful prover.  [msg pre g] is the polynomial
    (coefficients, highest first) the prover sends after the challenges [pre]. *)
From Coq Require Import ZArith List Bool Arith Lia Ring.
From Verif Require Import Fp Base ArithProofs MleSpec PolyProofs Count SoundProofs.
Import ListNotations.
Open Scope nat_scope.

(** ** Roots *)
Lemma peval_snoc : forall c d x, peval (c ++ [d]) x = (x * peval c x + d)%F.
Proof.
  induction c as [|a c IH]; intros d x; cbn [app peval length Fpow]; [ring|].
  rewrite IH, app_length. cbn [length]. rewrite Nat.add_1_r. cbn [Fpow]. ring.
Qed.
Lemma peval_divide : forall c t0, c <> [] -> exists q, length q = length c - 1 /\
  forall t, peval c t = ((t - t0) * peval q t + peval c t0)%F.
Proof.
  intros c t0. induction c as [|d c IH] using rev_ind; intro N; [contradiction|].
  destruct c as [|a c].
  - exists []. split; [reflexivity|]. intro t. cbn [app peval length Fpow]. ring.
  - destruct IH as (q & Lq & Hq); [discriminate|]. exists (q ++ [peval (a :: c) t0]). split.
    + rewrite !app_length, Lq. cbn [length]. lia.
    + intro t. rewrite !peval_snoc, (Hq t). ring.
Qed.
Lemma peval_roots : forall n c, length c <= S n -> (exists x, peval c x <> 0%F) ->
  exists l, length l <= n /\ forall t, peval c t = 0%F -> In t l.
Proof.
  induction n as [|n IH]; intros c Lc [x Nx].
  - exists []. split; [simpl; lia|]. intros t Ht. apply Nx. destruct c as [|a [|]]; cbn [length] in Lc; [reflexivity| |lia].
    rewrite <- Ht. cbn [peval length Fpow]. ring.
  - destruct (F_search (fun t => peval c t = 0%F)) as [[t0 R]|R]; [intro; apply F_eq_dec| |].
    + destruct c as [|a c]; [contradiction|].
      destruct (peval_divide (a :: c) t0 ltac:(discriminate)) as (q & Lq & Hq).
      destruct (IH q) as (l & Ll & Hl); [cbn [length] in *; lia| |].
      { exists x. intro K. apply Nx. rewrite (Hq x), K, R. ring. }
      exists (t0 :: l). split; [cbn [length]; lia|]. intros t Ht. rewrite (Hq t), R in Ht.
      assert (Z : ((t - t0) * peval q t = 0)%F) by (rewrite <- Ht; ring).
      apply F_integral in Z. destruct Z as [Z|Z]; [left|right; apply Hl, Z].
      replace t with (t0 + (t - t0))%F by ring. rewrite Z. ring.
    + exists []. split; [simpl; lia|]. intros t Ht. exact (R t Ht).
Qed.
Lemma peval_sub : forall c d, length c = length d -> exists e, length e = length c /\
  forall x, peval e x = (peval c x - peval d x)%F.
Proof.
  induction c as [|a c IH]; intros [|b d] E; try discriminate.
  - exists []. split; [reflexivity|]. intro x. cbn [peval]. ring.
  - injection E as E. destruct (IH d E) as (e & Le & He). exists ((a - b)%F :: e). split; [cbn [length]; lia|].
    intro x. cbn [peval]. rewrite He, Le, E. ring.
Qed.
(** A polynomial that fails the sum test agrees with the right one in few points. *)
Lemma peval_bad : forall c q d, length c = S d -> length q = S d ->
  (peval c 0 + peval c 1)%F <> (peval q 0 + peval q 1)%F ->
  exists l, length l <= d /\ forall t, peval c t = peval q t -> In t l.
Proof.
  intros c q d Lc Lq N. destruct (peval_sub c q ltac:(lia)) as (e & Le & He).
  destruct (peval_roots d e) as (l & Ll & Hl); [lia| |].
  - destruct (F_eq_dec (peval e 0) 0%F) as [E0|N0]; [|exists 0%F; exact N0].
    exists 1%F. intro E1. apply N. rewrite He in E0, E1.
    replace (peval c 0 + peval c 1)%F with ((peval c 0 - peval q 0) + (peval c 1 - peval q 1) + (peval q 0 + peval q 1))%F by ring.
    rewrite E0, E1. ring.
  - exists l. split; [exact Ll|]. intros t Ht. apply Hl. rewrite He, Ht. ring.
Qed.

(** ** The game *)
Section Game.
Context {G : Type}.
Variable msg : list F -> G -> outcome (list F * G).
Fixpoint play (R pre : list F) (sum : F) (g : G) : outcome (F * G) :=
  match R with
  | [] => Ok (sum, g)
  | t :: R' => ' (p, g') <- msg pre g ;;
      if F_eq_dec (peval p 0 + peval p 1)%F sum then play R' (pre ++ [t]) (peval p t) g' else RetFalse
  end.
Lemma play_app : forall R R' pre sum g, play (R ++ R') pre sum g =
  (' (w, g') <- play R pre sum g ;; play R' (pre ++ R) w g').
Proof.
  induction R as [|t R IH]; intros R' pre sum g; cbn [app play].
  - rewrite bind_Ok, app_nil_r. reflexivity.
  - destruct (msg pre g) as [[p g']| | | | | |]; try reflexivity. rewrite !bind_Ok.
    destruct (F_eq_dec _ _); [|reflexivity]. rewrite IH, <- app_assoc. reflexivity.
Qed.

Variables (N : nat) (deg : nat -> nat) (T : list F -> F).
Hypothesis Hdeg : forall pre g p g', length pre < N -> msg pre g = Ok (p, g') -> length p = S (deg (length pre)).
Hypothesis HT : forall pre, length pre < N ->
  exists q, length q = S (deg (length pre)) /\ forall t, T (pre ++ [t]) = peval q t.
Hypothesis HT01 : forall pre, length pre < N -> (T (pre ++ [0%F]) + T (pre ++ [1%F]))%F = T pre.

Fixpoint degs (j n : nat) : nat := match n with O => 0 | S n' => deg j + degs (S j) n' end.

Theorem play_sound : forall n pre sum g, length pre + n = N -> sum <> T pre ->
  few n (degs (length pre) n) (fun R => exists g', play R pre sum g = Ok (T (pre ++ R), g')).
Proof.
  induction n as [|n IH]; intros pre sum g HN Hs.
  - apply few_none. intros [|] L; [|discriminate]. intros (g' & E). cbn [play] in E. apply Hs.
    rewrite app_nil_r in E. congruence.
  - destruct (HT pre ltac:(lia)) as (q & Lq & Hq). cbn [degs].
    destruct (msg pre g) as [[p g1]| | | | | |] eqn:Em.
    2-7: apply few_none; intros [|t R] L; [discriminate|]; intros (g' & E); cbn [play] in E; rewrite Em in E; discriminate.
    pose proof (Hdeg pre g p g1 ltac:(lia) Em) as Lp.
    destruct (F_eq_dec (peval p 0 + peval p 1)%F sum) as [Es|Ns].
    2:{ apply few_none. intros [|t R] L; [discriminate|]. intros (g' & E). cbn [play] in E. rewrite Em, bind_Ok in E.
        destruct (F_eq_dec _ _); [contradiction|discriminate]. }
    destruct (peval_bad p q (deg (length pre)) Lp Lq) as (l & Ll & Hl).
    { rewrite Es, <- !Hq, HT01 by lia. exact Hs. }
    apply (few_cons n _ _ (fun t => peval p t = peval q t)); [exists l; split; assumption|].
    intros t Nt. eapply few_weaken; [apply (IH (pre ++ [t]) (peval p t) g1)| |].
    + rewrite app_length. cbn [length]. lia.
    + rewrite Hq. exact Nt.
    + rewrite app_length. cbn [length]. rewrite Nat.add_1_r. apply Nat.le_refl.
    + intros R _ (g' & E). cbn [play] in E. rewrite Em, bind_Ok in E.
      destruct (F_eq_dec _ _); [|contradiction]. exists g'. rewrite <- app_assoc. exact E.
Qed.
End Game.
