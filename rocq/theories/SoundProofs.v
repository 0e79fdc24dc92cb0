(** * Soundness of the fast-track verifier above the copy layer (C26)

    For an arbitrary prover: a wrong claim about layer [i >= 2] turns into a
    wrong claim about layer [i - 1] except for a small fraction of the
    challenges. *)
From Coq Require Import ZArith List Bool Arith Lia Ring.
From Verif Require Import Limbs Field FieldProofs Fp ArithProofs Base MleSpec GkrMath Poly PolyProofs Circuit
  FastProver FastVerifier Lazy TablesProofs FastProverProofs PhaseProofs FastVerifierProofs Count.
Import ListNotations.
Open Scope nat_scope.

(** ** The limb representation of a field element *)
Definition fe_of (a : F) : fe := U512 (fz a mod W128) (fz a / W128) (U256 0 0 0).
Lemma rep_fe_of : forall a, rep (fe_of a) a.
Proof.
  intro a. pose proof (fz_range a) as R. assert (HP : (P < W128 * W128)%Z) by reflexivity.
  assert (W : (0 < W128)%Z) by reflexivity.
  pose proof (Z.mod_pos_bound (fz a) W128 W). pose proof (Z.div_mod (fz a) W128 ltac:(lia)).
  assert (0 <= fz a / W128 < W128)%Z by (split; [apply Z.div_pos; lia|apply Z.div_lt_upper_bound; lia]).
  unfold rep, fe_of, wf512, val512, wf256, val256. cbn [lo5 mid5 hi5 lo6 mid6 hi6].
  assert (0 < W64)%Z by reflexivity. rewrite !Z.mul_0_r, !Z.add_0_r. lia.
Qed.
Definition fes (R : list F) : list fe := map fe_of R.
Lemma reps_fes : forall R, reps (fes R) R.
Proof. induction R; constructor; [apply rep_fe_of|exact IHR]. Qed.
Lemma reps_inj : forall l R, reps l R -> l = fes R.
Proof.
  intros l R H. induction H as [|x a l R Hx H IH]; [reflexivity|]. cbn [fes map]. unfold fes in IH. rewrite IH.
  f_equal. apply (rep_inj _ _ a Hx (rep_fe_of a)).
Qed.
(** The stream of challenges given by a vector. *)
Definition stream (v : list F) (k : nat) : fe := fe_of (nth k v 0%F).

(** ** Inversion *)
Lemma bind_inv : forall A B (m : outcome A) (k : A -> outcome B) y, bind m k = Ok y -> exists x, m = Ok x /\ k x = Ok y.
Proof. intros A B [] k y H; try discriminate. eauto. Qed.
Lemma Ok_inj : forall A (x y : A), Ok x = Ok y -> x = y.
Proof. congruence. Qed.
Lemma if_negb : forall A (x y : A), (if negb false then x else y) = x.
Proof. reflexivity. Qed.
Lemma bind_Ok : forall A B (x : A) (k : A -> outcome B), bind (Ok x) k = k x.
Proof. reflexivity. Qed.
Lemma returns_inv : forall A (m : outcome A) Q x, returns m Q -> m = Ok x -> Q x.
Proof. intros A m Q x (y & E & H) E'. congruence. Qed.
Lemma few_outcome : forall A n k (m : outcome A) (Q : A -> list F -> Prop),
  (forall x, m = Ok x -> few n k (Q x)) -> few n k (fun v => exists x, m = Ok x /\ Q x v).
Proof.
  intros A n k m Q H. destruct m as [x| | | | | |]; try (apply few_none; intros v _ (y & E & _); discriminate).
  eapply few_weaken; [apply (H x eq_refl)|apply Nat.le_refl|]. intros v _ (y & E & K). congruence.
Qed.

(** A prover whose messages are field elements. *)
Definition reduced_quad (q : quadratic_poly) : Prop := reduced (q_a q) /\ reduced (q_b q) /\ reduced (q_c q).
Record typed {S} (I : prover_if S) : Prop := {
  ty_1 : forall s x j q s', if_phase1_update I s x j = Ok (q, s') -> reduced_quad q;
  ty_2 : forall s x j q s', if_phase2_update I s x j = Ok (q, s') -> reduced_quad q;
  ty_f : forall s x u v s', if_finalize I s x = Ok ((u, v), s') -> reduced u /\ reduced v;
  ty_v : forall s, reduced (if_v_u I s) }.
Lemma quad_rep : forall q, reduced_quad q -> exists a b c, qrep q [a; b; c].
Proof.
  intros q (A & B & C). exists (ofZ (val512 (q_a q))), (ofZ (val512 (q_b q))), (ofZ (val512 (q_c q))).
  eexists _, _, _. split; [reflexivity|]. split; [apply reduced_rep, A|]. split; apply reduced_rep; assumption.
Qed.

(** ** Round polynomials are quadratic *)
Lemma round_quadratic : forall n V M A, exists a b c, forall t, round n V M A t = (a * t * t + b * t + c)%F.
Proof.
  intros n V M A.
  exists (sumn (2 ^ n) (fun i => (V (2 * i + 1)%nat - V (2 * i)%nat) * (M (2 * i + 1)%nat - M (2 * i)%nat)))%F.
  exists (sumn (2 ^ n) (fun i => V (2 * i)%nat * (M (2 * i + 1)%nat - M (2 * i)%nat) +
     M (2 * i)%nat * (V (2 * i + 1)%nat - V (2 * i)%nat) + (A (2 * i + 1)%nat - A (2 * i)%nat)))%F.
  exists (sumn (2 ^ n) (fun i => V (2 * i)%nat * M (2 * i)%nat + A (2 * i)%nat))%F.
  intro t. unfold round, psum. rewrite <- !sumn_scal_r, <- !sumn_add. apply sumn_ext. intros i _. unfold fold1. ring.
Qed.
(** A polynomial with the wrong sum agrees with the right one at two points at most. *)
Lemma round_bad : forall n V M A a b c, 
  (peval [a; b; c] 0 + peval [a; b; c] 1)%F <> psum (S n) V M A ->
  exists l, length l <= 2 /\ forall t, peval [a; b; c] t = round n V M A t -> In t l.
Proof.
  intros n V M A a b c N. rewrite <- round_01 in N.
  destruct (round_quadratic n V M A) as (a' & b' & c' & H). rewrite !H in N.
  destruct (quadratic_roots (a - a') (b - b') (c - c')) as (l & L & R).
  - destruct (F_eq_dec (a - a') 0) as [Ea|]; [|left; assumption].
    destruct (F_eq_dec (b - b') 0) as [Eb|]; [|right; left; assumption].
    destruct (F_eq_dec (c - c') 0) as [Ec|]; [|right; right; assumption].
    exfalso. apply N. replace a with (a' + (a - a'))%F by ring. replace b with (b' + (b - b'))%F by ring.
    replace c with (c' + (c - c'))%F by ring. rewrite Ea, Eb, Ec. cbn [peval length Fpow]. ring.
  - exists l. split; [exact L|]. intros t Ht. apply R. rewrite H in Ht. cbn [peval length Fpow] in Ht.
    replace ((a - a') * t * t + (b - b') * t + (c - c'))%F with
      (a * (t * (t * 1)) + (b * (t * 1) + (c * 1 + 0)) - (a' * t * t + b' * t + c'))%F by ring. rewrite Ht. ring.
Qed.

(** ** The rounds *)
Definition body1 {S} (I : prover_if S) (r_u : list fe) := fun j (st : fe * fe * S) =>
    let '(prev, sum, s) := st in
    ' (poly, s) <- if_phase1_update I s prev j ;;
    r <- rd r_u j ;;
    reject_if (fe_ne (fe_add (quadratic_eval poly (fe_of_int 0)) (quadratic_eval poly (fe_of_int 1))) sum) ;;;
    Ok (r, quadratic_eval poly r, s).
Definition body2 {S} (I : prover_if S) (relay : fe) := fun j (st : fe * fe * list fe * S) =>
    let '(prev, sum, r_v, s) := st in
    r_v <- Ok r_v ;;
    ' (poly, s) <- if_phase2_update I s prev j ;;
    r <- rd r_v j ;;
    reject_if (fe_ne (fe_add (fe_add (quadratic_eval poly (fe_of_int 0)) (quadratic_eval poly (fe_of_int 1)))
                             (fe_mul relay (if_v_u I s))) sum) ;;;
    Ok (r, fe_add (quadratic_eval poly r) (fe_mul relay (if_v_u I s)), r_v, s).

Lemma phase1_rounds_body : forall S (I : prover_if S) n r_u sum s,
  phase1_rounds I n r_u sum s = for_ n 0 (body1 I r_u) (fe_of_int 0, sum, s).
Proof. reflexivity. Qed.
Lemma phase2_rounds_body : forall S (I : prover_if S) n relay r_v sum s,
  phase2_rounds I n false relay r_v sum s = for_ n 0 (body2 I relay) (fe_of_int 0, sum, r_v, s).
Proof. reflexivity. Qed.
Lemma fes_rd : forall pre t R, rd (fes (pre ++ t :: R)) (length pre) = Ok (fe_of t).
Proof.
  intros pre t R. unfold rd, fes. rewrite map_app. cbn [map].
  rewrite nth_error_app2 by (rewrite map_length; lia). rewrite map_length, Nat.sub_diag. reflexivity.
Qed.
Lemma reject_inv : forall A b (m : outcome A) y, bind (reject_if b) (fun _ => m) = Ok y -> b = false /\ m = Ok y.
Proof. intros A [] m y H; [discriminate|]. auto. Qed.
Lemma fne_inv : forall x y a b, rep x a -> rep y b -> fe_ne x y = false -> a = b.
Proof.
  intros x y a b Rx Ry H. destruct (F_eq_dec a b) as [|N]; [assumption|].
  rewrite (rep_fne_true _ _ _ _ Rx Ry N) in H. discriminate.
Qed.

Section AnyProver.
Context {S : Type}.
Variable I : prover_if S.
Hypothesis TI : typed I.

(** One round, seen from the verifier. *)
Lemma body1_inv : forall pre t R prev sm sum s st',
  rep sm sum -> body1 I (fes (pre ++ t :: R)) (length pre) (prev, sm, s) = Ok st' ->
  exists poly s' a b c, if_phase1_update I s prev (length pre) = Ok (poly, s') /\ qrep poly [a; b; c] /\
    (peval [a; b; c] 0 + peval [a; b; c] 1)%F = sum /\
    st' = (fe_of t, quadratic_eval poly (fe_of t), s').
Proof.
  intros pre t R prev sm sum s st' Rs H. unfold body1 in H. apply bind_inv in H.
  destruct H as ([poly s'] & Ep & H). rewrite fes_rd, bind_Ok in H.
  apply reject_inv in H. destruct H as [Hc H]. destruct (quad_rep poly (ty_1 I TI _ _ _ _ _ Ep)) as (a & b & c & Q).
  exists poly, s', a, b, c. split; [exact Ep|]. split; [exact Q|]. split; [|injection H as <-; reflexivity].
  exact (fne_inv _ _ _ _ (rep_add _ _ _ _ (quadratic_eval_ok _ _ _ _ Q rep_i0)
      (quadratic_eval_ok _ _ _ _ Q rep_i1)) Rs Hc).
Qed.
Lemma phase1_sound : forall n V M A pre prev sm sum s, rep sm sum -> sum <> psum n V M A ->
  few n (2 * n) (fun R => exists st, for_ n (length pre) (body1 I (fes (pre ++ R))) (prev, sm, s) = Ok st /\
    let '(_, sm', _) := st in rep sm' (mle R V * mle R M + mle R A)%F).
Proof.
  induction n as [|n IH]; intros V M A pre prev sm sum s Rs N.
  - apply few_none. intros [|] L; [|discriminate]. intros ([[? ?] ?] & E & K). cbn [for_] in E.
    injection E as <- <- <-. apply N. rewrite psum_0, !mle_folds in *. apply (rep_fun _ _ _ Rs K).
  - replace (2 * Datatypes.S n) with (2 + 2 * n) by lia.
    destruct (if_phase1_update I s prev (length pre)) as [[poly s1]| | | | | |] eqn:Ep.
    2-7: apply few_none; intros [|t R] L; [discriminate|]; intros (st & E & _); cbn [for_] in E;
      apply bind_inv in E; destruct E as (st1 & E & _); destruct (body1_inv _ _ _ _ _ _ _ _ Rs E) as (p' & s' & _ & _ & _ & K & _);
      congruence.
    destruct (quad_rep poly (ty_1 I TI _ _ _ _ _ Ep)) as (a & b & c & Q).
    destruct (F_eq_dec (peval [a; b; c] 0 + peval [a; b; c] 1)%F sum) as [Es|Ns].
    2:{ apply few_none. intros [|t R] L; [discriminate|]. intros (st & E & _). cbn [for_] in E.
        apply bind_inv in E. destruct E as (st1 & E & _).
        destruct (body1_inv _ _ _ _ _ _ _ _ Rs E) as (p' & s' & a' & b' & c' & K & Q' & K' & _). apply Ns.
        assert (p' = poly) by congruence. subst p'. destruct Q as (? & ? & ? & E1 & Qa & Qb & Qc).
        destruct Q' as (? & ? & ? & E2 & Qa' & Qb' & Qc'). injection E1 as <- <- <-. injection E2 as <- <- <-.
        rewrite (rep_fun _ _ _ Qa Qa'), (rep_fun _ _ _ Qb Qb'), (rep_fun _ _ _ Qc Qc'). exact K'. }
    apply (few_cons n 2 (2 * n) (fun t => peval [a; b; c] t = round n V M A t)).
    + apply round_bad. rewrite Es. exact N.
    + intros t Nt. specialize (IH (fold1 t V) (fold1 t M) (fold1 t A) (pre ++ [t]) (fe_of t)
        (quadratic_eval poly (fe_of t)) (peval [a; b; c] t) s1 (quadratic_eval_ok _ _ _ _ Q (rep_fe_of t)) Nt).
      eapply few_weaken; [exact IH|lia|]. intros R L (st & E & K). cbn [for_] in E. apply bind_inv in E.
      destruct E as (st1 & E1 & E). destruct (body1_inv _ _ _ _ _ _ _ _ Rs E1) as (p' & s' & _ & _ & _ & K1 & _ & _ & ->).
      rewrite Ep in K1. injection K1 as <- <-.
      exists st. rewrite <- app_assoc, app_length, Nat.add_1_r. cbn [app]. split; [exact E|].
      destruct st as [[? ?] ?]. rewrite !mle_cons in K. exact K.
Qed.
Lemma phase1_reduced : forall n r_u j prev sm s prev' sm' s', reduced sm ->
  for_ n j (body1 I r_u) (prev, sm, s) = Ok (prev', sm', s') -> Forall reduced r_u -> reduced sm'.
Proof.
  induction n as [|n IH]; intros r_u j prev sm s prev' sm' s' Hs E Hr; cbn [for_] in E; [congruence|].
  apply bind_inv in E. destruct E as ([[p1 sm1] s1] & E1 & E). eapply IH; [|exact E|exact Hr].
  unfold body1 in E1. apply bind_inv in E1. destruct E1 as ([poly s2] & Ep & E1). apply bind_inv in E1.
  destruct E1 as (r & Er & E1). apply reject_inv in E1. destruct E1 as [_ E1]. injection E1 as <- <- <-.
  destruct (quad_rep poly (ty_1 I TI _ _ _ _ _ Ep)) as (a & b & c & Q).
  assert (Rr : reduced r).
  { unfold rd in Er. destruct (nth_error r_u j) eqn:En; [|discriminate]. injection Er as <-.
    rewrite Forall_forall in Hr. apply Hr. eapply nth_error_In, En. }
  eapply rep_reduced, quadratic_eval_ok; [exact Q|apply reduced_rep, Rr].
Qed.

Lemma body2_inv : forall relay pre t R prev sm sum s st', rep relay 0%F ->
  rep sm sum -> body2 I relay (length pre) (prev, sm, fes (pre ++ t :: R), s) = Ok st' ->
  exists poly s' a b c, if_phase2_update I s prev (length pre) = Ok (poly, s') /\ qrep poly [a; b; c] /\
    (peval [a; b; c] 0 + peval [a; b; c] 1)%F = sum /\
    exists sm', st' = (fe_of t, sm', fes (pre ++ t :: R), s') /\ rep sm' (peval [a; b; c] t).
Proof.
  intros relay pre t R prev sm sum s st' Hd Rs H. unfold body2 in H. rewrite bind_Ok in H. apply bind_inv in H.
  destruct H as ([poly s'] & Ep & H). rewrite fes_rd, bind_Ok in H.
  apply reject_inv in H. destruct H as [Hc H]. destruct (quad_rep poly (ty_2 I TI _ _ _ _ _ Ep)) as (a & b & c & Q).
  pose proof (reduced_rep _ (ty_v I TI s')) as Rv.
  exists poly, s', a, b, c. split; [exact Ep|]. split; [exact Q|]. split.
  - rewrite <- (fne_inv _ _ _ _ (rep_add _ _ _ _ (rep_add _ _ _ _ (quadratic_eval_ok _ _ _ _ Q rep_i0)
      (quadratic_eval_ok _ _ _ _ Q rep_i1)) (rep_mul _ _ _ _ Hd Rv)) Rs Hc). ring.
  - eexists. split; [symmetry; injection H as <-; reflexivity|].
    eapply rep_eq; [apply rep_add; [apply (quadratic_eval_ok _ _ _ _ Q (rep_fe_of t))|apply rep_mul; [exact Hd|exact Rv]]|ring].
Qed.
Lemma phase2_sound : forall relay n V M A pre prev sm sum s, rep relay 0%F -> rep sm sum -> sum <> psum n V M A ->
  few n (2 * n) (fun R => exists st, for_ n (length pre) (body2 I relay) (prev, sm, fes (pre ++ R), s) = Ok st /\
    let '(_, sm', _, _) := st in rep sm' (mle R V * mle R M + mle R A)%F).
Proof.
  intros relay n V M A pre prev sm sum s Hd. revert V M A pre prev sm sum s.
  induction n as [|n IH]; intros V M A pre prev sm sum s Rs N.
  - apply few_none. intros [|] L; [|discriminate]. intros ([[[? ?] ?] ?] & E & K). cbn [for_] in E.
    injection E as <- <- <- <-. apply N. rewrite psum_0, !mle_folds in *. apply (rep_fun _ _ _ Rs K).
  - replace (2 * Datatypes.S n) with (2 + 2 * n) by lia.
    destruct (if_phase2_update I s prev (length pre)) as [[poly s1]| | | | | |] eqn:Ep.
    2-7: apply few_none; intros [|t R] L; [discriminate|]; intros (st & E & _); cbn [for_] in E;
      apply bind_inv in E; destruct E as (st1 & E & _); destruct (body2_inv _ _ _ _ _ _ _ _ _ Hd Rs E) as (p' & s' & _ & _ & _ & K & _);
      congruence.
    destruct (quad_rep poly (ty_2 I TI _ _ _ _ _ Ep)) as (a & b & c & Q).
    destruct (F_eq_dec (peval [a; b; c] 0 + peval [a; b; c] 1)%F sum) as [Es|Ns].
    2:{ apply few_none. intros [|t R] L; [discriminate|]. intros (st & E & _). cbn [for_] in E.
        apply bind_inv in E. destruct E as (st1 & E & _).
        destruct (body2_inv _ _ _ _ _ _ _ _ _ Hd Rs E) as (p' & s' & a' & b' & c' & K & Q' & K' & _). apply Ns.
        assert (p' = poly) by congruence. subst p'. destruct Q as (? & ? & ? & E1 & Qa & Qb & Qc).
        destruct Q' as (? & ? & ? & E2 & Qa' & Qb' & Qc'). injection E1 as <- <- <-. injection E2 as <- <- <-.
        rewrite (rep_fun _ _ _ Qa Qa'), (rep_fun _ _ _ Qb Qb'), (rep_fun _ _ _ Qc Qc'). exact K'. }
    apply (few_cons n 2 (2 * n) (fun t => peval [a; b; c] t = round n V M A t)).
    + apply round_bad. rewrite Es. exact N.
    + intros t Nt.
      assert (Rsm : rep (fe_of (peval [a; b; c] t)) (peval [a; b; c] t)) by apply rep_fe_of.
      specialize (IH (fold1 t V) (fold1 t M) (fold1 t A) (pre ++ [t]) (fe_of t)
        (fe_of (peval [a; b; c] t)) (peval [a; b; c] t) s1 Rsm Nt).
      eapply few_weaken; [exact IH|lia|]. intros R L (st & E & K). cbn [for_] in E. apply bind_inv in E.
      destruct E as (st1 & E1 & E).
      destruct (body2_inv _ _ _ _ _ _ _ _ _ Hd Rs E1) as (p' & s' & a' & b' & c' & K1 & Q' & _ & sm' & -> & Rsm').
      rewrite Ep in K1. injection K1 as <- <-.
      assert (Eabc : [a'; b'; c'] = [a; b; c]).
      { destruct Q as (? & ? & ? & E1' & Qa & Qb & Qc). destruct Q' as (? & ? & ? & E2 & Qa' & Qb' & Qc').
        injection E1' as <- <- <-. injection E2 as <- <- <-.
        rewrite (rep_fun _ _ _ Qa Qa'), (rep_fun _ _ _ Qb Qb'), (rep_fun _ _ _ Qc Qc'). reflexivity. }
      rewrite Eabc in Rsm'. rewrite (rep_inj _ _ _ Rsm' Rsm) in E.
      exists st. rewrite <- app_assoc, app_length, Nat.add_1_r. cbn [app]. split; [exact E|].
      destruct st as [[[? ?] ?] ?]. rewrite !mle_cons in K. exact K.
Qed.
Lemma phase2_inv : forall relay n r_v j prev sm s prev' sm' r_v' s', rep relay 0%F -> reduced sm ->
  for_ n j (body2 I relay) (prev, sm, r_v, s) = Ok (prev', sm', r_v', s') -> Forall reduced r_v ->
  reduced sm' /\ r_v' = r_v.
Proof.
  intros relay n r_v j prev sm s prev' sm' r_v' s' Hd. revert j prev sm s.
  induction n as [|n IH]; intros j prev sm s Hs E Hr; cbn [for_] in E; [split; congruence|].
  apply bind_inv in E. destruct E as ([[[p1 sm1] rv1] s1] & E1 & E).
  unfold body2 in E1. rewrite bind_Ok in E1. apply bind_inv in E1. destruct E1 as ([poly s2] & Ep & E1). apply bind_inv in E1.
  destruct E1 as (r & Er & E1). apply reject_inv in E1. destruct E1 as [_ E1]. injection E1 as <- <- <- <-.
  eapply IH; [|exact E|exact Hr].
  destruct (quad_rep poly (ty_2 I TI _ _ _ _ _ Ep)) as (a & b & c & Q).
  assert (Rr : reduced r).
  { unfold rd in Er. destruct (nth_error r_v j) eqn:En; [|discriminate]. injection Er as <-.
    rewrite Forall_forall in Hr. apply Hr. eapply nth_error_In, En. }
  eapply rep_reduced, rep_add; [apply quadratic_eval_ok; [exact Q|apply reduced_rep, Rr]|
    apply rep_mul; [exact Hd|apply reduced_rep, (ty_v I TI)]].
Qed.
End AnyProver.

(** ** One layer *)
(** [rnd] delivers the challenges [v] from position [pos] on. *)
Definition drawn (rnd : nat -> fe) (pos : nat) (v : list F) : Prop :=
  forall k, k < length v -> rnd (pos + k) = fe_of (nth k v 0%F).
Lemma drawn_app : forall rnd pos v w, drawn rnd pos (v ++ w) -> drawn rnd pos v /\ drawn rnd (pos + length v) w.
Proof.
  intros rnd pos v w H. split; intros k Hk.
  - rewrite H by (rewrite app_length; lia). rewrite app_nth1 by exact Hk. reflexivity.
  - rewrite <- Nat.add_assoc, H by (rewrite app_length; lia). rewrite app_nth2 by lia.
    replace (length v + k - length v) with k by lia. reflexivity.
Qed.
Lemma fe_of_val : forall a, ofZ (val512 (fe_of a)) = a.
Proof. intro a. apply (rep_fun (fe_of a)); [apply reduced_rep, (rep_reduced _ a), rep_fe_of|apply rep_fe_of]. Qed.
Lemma fe_of_mod : forall a, u512_mod (fe_of a) = fe_of a.
Proof.
  intro a. apply (rep_inj _ _ a); [|apply rep_fe_of]. pose proof (rep_fe_of a). lzr.
Qed.
Lemma drawn_gen : forall rnd pos v, drawn rnd pos v ->
  generate_randomness rnd pos (length v) = (fes v, pos + length v).
Proof.
  intros rnd pos v H. unfold generate_randomness. f_equal. unfold fes.
  apply nth_ext with (d := u512_mod (rnd (pos + 0))) (d' := fe_of 0%F); rewrite !map_length, seq_length; [reflexivity|].
  intros k Hk. rewrite (map_nth (fun i => u512_mod (rnd (pos + i)))), seq_nth by exact Hk. simpl (0 + k).
  rewrite H by exact Hk. rewrite fe_of_mod. rewrite (map_nth fe_of). reflexivity.
Qed.

Record vst {S} (C : layered_circuit) (m i : nat) (st : vstate S) (a be : F) (R0 R1 : list F) : Prop := {
  vs_a : rep (s_alpha st) a; vs_b : rep (s_beta st) be;
  vs_r0 : reps (s_r0 st) R0; vs_r1 : reps (s_r1 st) R1;
  vs_o0 : reps (s_o0 st) (comp R0); vs_o1 : reps (s_o1 st) (comp R1);
  vs_l0 : length R0 = bit_length (layer_at C i); vs_l1 : length R1 = bit_length (layer_at C i);
  vs_B : length (b_g0 (s_B st)) = 2 ^ m /\ length (b_g1 (s_B st)) = 2 ^ m /\
         length (b_u (s_B st)) = 2 ^ m /\ length (b_v (s_B st)) = 2 ^ m }.

(** Random linear combination of two claims. *)
Lemma combination_few : forall vu vv tu tv : F, vu <> tu \/ vv <> tv ->
  few 2 1 (fun t => exists al be, t = [al; be] /\ (al * vu + be * vv = al * tu + be * tv)%F).
Proof.
  intros vu vv tu tv N. destruct (F_eq_dec vv tv) as [E|Nv].
  - destruct N as [N|N]; [|contradiction]. apply (few_cons 1 1 0 (fun al => al = 0%F)).
    + exists [0%F]. split; [simpl; lia|]. intros t ->. left. reflexivity.
    + intros al Na. apply few_none. intros v _ (al' & be & Ev & K). injection Ev as <- ->. apply Na.
      assert (Z : (al * (vu - tu) = 0)%F).
      { replace (al * (vu - tu))%F with ((al * vu + be * vv) - (al * tu + be * tv) - be * (vv - tv))%F by ring.
        rewrite K, E. ring. }
      apply F_integral in Z. destruct Z as [Z|Z]; [exact Z|]. exfalso. apply N.
      replace vu with (tu + (vu - tu))%F by ring. rewrite Z. ring.
  - apply (few_cons 1 0 1 (fun _ => False)).
    + exists []. split; [simpl; lia|]. intros t [].
    + intros al _. destruct (linear_roots (vv - tv)%F (al * (vu - tu))%F) as (l & Ll & Hl).
      { left. intro Z. apply Nv. replace vv with (tv + (vv - tv))%F by ring. rewrite Z. ring. }
      eapply few_weaken; [apply (few_one 1 _ l Ll Hl)|apply Nat.le_refl|].
      intros v _ (al' & be & Ev & K). injection Ev as <- ->. exists be. split; [reflexivity|].
      replace ((vv - tv) * be + al * (vu - tu))%F with ((al * vu + be * vv) - (al * tu + be * tv))%F by ring.
      rewrite K. ring.
Qed.

Section OneLayer.
Context {S : Type}.
Variable I : prover_if S.
Hypothesis TI : typed I.
Variables (C : layered_circuit) (m i : nat).
Hypothesis CC : complete_circuit C.
Hypothesis Hi : 1 < i < total_depth C.
Hypothesis Hm : forall k, k < total_depth C -> bit_length (layer_at C k) <= m.
Let L := layer_at C i.
Let Lm := layer_at C (i - 1).
Let lg := bit_length L.
Let b := bit_length Lm.
Let V := vals C (i - 1).

(** The value the verifier computes from the claimed values [vu], [vv]. *)
Definition final_value (a be : F) (R0 R1 ru rv : list F) (vu vv : F) : F :=
  sumn (2 ^ lg) (fun g => (fval (fo (gate_at L) g) vu vv * (gw a be R0 R1 g *
       lsum (wires (gate_at L g)) (fun w => w_c w * eqw ru (w_l w) * eqw rv (w_r w))))%F).

Definition lb : nat := b.
Lemma layer_inv : forall st a be R0 R1 rnd ru rv al' be' st',
  vst C m i st a be R0 R1 -> reduced (s_sum st) ->
  length ru = b -> length rv = b -> drawn rnd (s_pos st) (ru ++ rv ++ [al'; be']) ->
  verify_layer I C rnd i st = Ok st' ->
  (exists s0, if_sumcheck_init I (s_p st) i lg b b (s_alpha st) (s_beta st)
         (s_r0 st) (s_r1 st) (s_o0 st) (s_o1 st) = Ok s0 /\
   exists s1, if_phase1_init I s0 = Ok s1 /\
   exists t1, for_ b 0 (body1 I (fes ru)) (fe_of_int 0, s_sum st, s1) = Ok t1 /\
   exists s3, if_phase2_init I (snd t1) (fst (fst t1)) (fes ru) (fes (comp ru)) = Ok s3 /\
   exists t2, for_ b 0 (body2 I fe_zero) (fe_of_int 0, snd (fst t1), fes rv, s3) = Ok t2 /\
   exists t3, if_finalize I (snd t2) (fst (fst (fst t2))) = Ok t3 /\
     let '((v_u, v_v), s5) := t3 in let '(_, sum2, _, _) := t2 in
     exists vu vv, rep v_u vu /\ rep v_v vv /\ rep sum2 (final_value a be R0 R1 ru rv vu vv) /\
       rep (s_sum st') (al' * vu + be' * vv)%F) /\
  vst C m (i - 1) st' al' be' ru rv /\ s_pos st' = s_pos st + (b + b + 2) /\ reduced (s_sum st').
Proof.
  intros st a be R0 R1 rnd ru rv al' be' st' [Ka Kb Kr0 Kr1 Ko0 Ko1 Kl0 Kl1 (KB0 & KB1 & KB2 & KB3)] Hs Lru Lrv Hd H.
  fold L lg in Kl0, Kl1. pose proof (cc_depth C CC) as D.
  destruct (drawn_app _ _ _ _ Hd) as [D1 Hd']. destruct (drawn_app _ _ _ _ Hd') as [D2 D3]. clear Hd'.
  rewrite Lru in D2, D3. rewrite Lrv in D3.
  assert (Hb : b <= m) by (apply Hm; lia). assert (Hlg : lg <= m) by (apply Hm; lia).
  assert (HG : 2 ^ lg <= length (gates L)) by (apply (cc_gates C CC); lia).
  unfold verify_layer in H.
  assert (EL : rd (circuit C) i = Ok L) by (unfold rd; rewrite layer_rd by lia; reflexivity).
  assert (ELm : rd (circuit C) (i - 1) = Ok Lm) by (unfold rd; rewrite layer_rd by lia; reflexivity).
  rewrite EL, bind_Ok, ELm, bind_Ok in H. cbv zeta in H. fold lg b in H.
  apply bind_inv in H. destruct H as (s0 & E0 & H). apply bind_inv in H. destruct H as (s1 & E1 & H).
  pose proof (drawn_gen _ _ _ D1) as G1. rewrite Lru in G1. rewrite G1 in H. clear G1.
  pose proof (drawn_gen _ _ _ D2) as G2. rewrite Lrv in G2. rewrite G2 in H. clear G2.
  rewrite !direct_relay_0 in H by lia. rewrite !bind_Ok in H.
  set (drv := fe_add (fe_mul (s_alpha st) (fe_of_int 0)) (fe_mul (s_beta st) (fe_of_int 0))) in H.
  assert (Ed : drv = fe_zero).
  { apply (rep_inj _ _ 0%F); [|exact rep_0]. unfold drv. eapply rep_eq.
    - apply rep_add; apply rep_mul; [exact Ka|exact rep_i0|exact Kb|exact rep_i0].
    - ring. }
  clearbody drv. subst drv.
  apply bind_inv in H. destruct H as (o_u & Eou & H).
  pose proof (returns_inv _ _ _ _ (one_minus_ok _ ru b (reps_fes ru) (eq_sym Lru)) Eou) as Hou.
  apply bind_inv in H. destruct H as (o_v & Eov & H).
  pose proof (returns_inv _ _ _ _ (one_minus_ok _ rv b (reps_fes rv) (eq_sym Lrv)) Eov) as Hov. cbv beta in Hou, Hov.
  apply reps_inj in Hou. apply reps_inj in Hov. subst o_u o_v.
  apply bind_inv in H. destruct H as ([[prev1 sum1] s2] & Et1 & H).
  rewrite phase1_rounds_body in Et1.
  assert (Rsum1 : reduced sum1).
  { eapply (phase1_reduced I TI); [exact Hs|exact Et1|]. clear. induction ru; constructor; [eapply rep_reduced, rep_fe_of|assumption]. }
  apply bind_inv in H. destruct H as (s3 & E3 & H).
  replace (i =? 1) with false in H by (symmetry; apply Nat.eqb_neq; lia).
  apply bind_inv in H. destruct H as ([[[prev2 sum2] r_v'] s4] & Et2 & H).
  rewrite phase2_rounds_body in Et2.
  destruct (phase2_inv I TI _ _ _ _ _ _ _ _ _ _ _ rep_0 Rsum1 Et2) as [Rsum2 ->].
  { clear. induction rv; constructor; [eapply rep_reduced, rep_fe_of|assumption]. }
  apply bind_inv in H. destruct H as ([[v_u v_v] s5] & E5 & H).
  destruct (ty_f I TI _ _ _ _ _ E5) as [Rvu Rvv]. apply reduced_rep in Rvu. apply reduced_rep in Rvv.
  set (vu := ofZ (val512 v_u)) in *. set (vv := ofZ (val512 v_v)) in *.
  apply bind_inv in H. destruct H as (B' & EB & H).
  assert (Hbeta : returns (beta_init lg b (s_alpha st) (s_beta st) (s_r0 st) (s_r1 st) (fes ru) (fes rv)
         (s_o0 st) (s_o1 st) (fes (comp ru)) (fes (comp rv)) (s_B st)) (fun B' =>
    btabs (2 ^ m) lg b B' (gw a be R0 R1) (eqw ru) (eqg (prs rv (comp rv) 0 b)) /\
    length (b_g0 B') = 2 ^ m /\ length (b_g1 B') = 2 ^ m /\ length (b_u B') = 2 ^ m /\ length (b_v B') = 2 ^ m)).
  { apply (beta_init_btabs (2 ^ m) lg b); try assumption; try apply reps_fes.
    - rewrite comp_length. exact Lrv.
    - apply Nat.pow_le_mono_r; [lia|exact Hlg].
    - apply Nat.pow_le_mono_r; [lia|exact Hb]. }
  pose proof (returns_inv _ _ _ _ Hbeta EB) as HB. cbv beta in HB.
  destruct HB as (BT & LB). clear Hbeta.
  pose proof (this_layer_ok C i CC ltac:(lia)) as LO. fold L Lm lg b in LO.
  apply bind_inv in H. destruct H as (mult_v & Q & H).
  pose proof (returns_inv _ _ _ _ (mult_pred_ok (2 ^ m) lg b L B' _ _ _ BT eq_refl HG LO) Q) as R_mult. clear Q.
  apply bind_inv in H. destruct H as (add_v & Q & H).
  pose proof (returns_inv _ _ _ _ (add_pred_ok (2 ^ m) lg b L B' _ _ _ BT eq_refl HG LO) Q) as R_add. clear Q.
  apply bind_inv in H. destruct H as (not_v & Q & H).
  pose proof (returns_inv _ _ _ _ (not_pred_ok (2 ^ m) lg b L B' _ _ _ BT eq_refl HG LO) Q) as R_not. clear Q.
  apply bind_inv in H. destruct H as (minus_v & Q & H).
  pose proof (returns_inv _ _ _ _ (minus_pred_ok (2 ^ m) lg b L B' _ _ _ BT eq_refl HG LO) Q) as R_minus. clear Q.
  apply bind_inv in H. destruct H as (xor_v & Q & H).
  pose proof (returns_inv _ _ _ _ (xor_pred_ok (2 ^ m) lg b L B' _ _ _ BT eq_refl HG LO) Q) as R_xor. clear Q.
  apply bind_inv in H. destruct H as (naab_v & Q & H).
  pose proof (returns_inv _ _ _ _ (NAAB_pred_ok (2 ^ m) lg b L B' _ _ _ BT eq_refl HG LO) Q) as R_naab. clear Q.
  apply bind_inv in H. destruct H as (sum_v & Q & H).
  pose proof (returns_inv _ _ _ _ (sum_pred_ok' (2 ^ m) lg b L B' _ _ _ BT eq_refl HG LO) Q) as R_sum. clear Q.
  apply bind_inv in H. destruct H as (relay_v & Q & H).
  pose proof (returns_inv _ _ _ _ (relay_pred_ok (2 ^ m) lg b L B' _ _ _ BT eq_refl HG LO) Q) as R_relay. clear Q.
  cbv beta in R_mult, R_add, R_not, R_minus, R_xor, R_naab, R_sum, R_relay.
  apply reject_inv in H. destruct H as [Hc H]. rewrite if_negb in H.
  pose proof (D3 0 ltac:(simpl; lia)) as A1. pose proof (D3 1 ltac:(simpl; lia)) as A2.
  rewrite Nat.add_0_r in A1. cbn [nth] in A1, A2. rewrite A1, A2, !fe_of_mod in H. apply Ok_inj in H. subst st'.
  assert (Rnew : rep (fe_add (fe_mul (fe_of al') v_u) (fe_mul (fe_of be') v_v)) (al' * vu + be' * vv)%F).
  { apply rep_add; apply rep_mul; try assumption; apply rep_fe_of. }
  assert (HB : exists vu vv, rep v_u vu /\ rep v_v vv /\ rep sum2 (final_value a be R0 R1 ru rv vu vv) /\
       rep (fe_add (fe_mul (fe_of al') v_u) (fe_mul (fe_of be') v_v)) (al' * vu + be' * vv)%F).
  { exists vu, vv. split; [exact Rvu|]. split; [exact Rvv|]. split; [|exact Rnew].
    pose proof (combine_ok lg L (gw a be R0 R1) (eqw ru) (eqg (prs rv (comp rv) 0 b)) _ _ _ _ _ _ _ _ fe_zero v_u v_v 0%F vu vv
      R_add R_mult R_not R_minus R_xor R_naab R_sum R_relay rep_0 Rvu Rvv) as CO.
    eapply rep_eq; [apply reduced_rep, Rsum2|]. rewrite (fne_inv _ _ _ _ (reduced_rep _ Rsum2) CO Hc).
    rewrite <- (pred_split (2 ^ lg) (gate_at L) (gw a be R0 R1) ptypes vu vv (eqw ru) _ ptypes_nodup
               (layer_types lg b L LO)).
    rewrite <- Lrv, prs_point. unfold final_value, eqw. ring. }
  split; [|split; [|split]].
  - exists s0. split; [exact E0|]. exists s1. split; [exact E1|]. exists (prev1, sum1, s2). split; [exact Et1|].
    cbn [fst snd]. exists s3. split; [exact E3|]. exists (prev2, sum2, fes rv, s4). split; [exact Et2|].
    cbn [fst snd]. exists ((v_u, v_v), s5). split; [exact E5|]. exact HB.
  - constructor; cbn [s_p s_alpha s_beta s_r0 s_r1 s_o0 s_o1 s_B s_sum]; try apply rep_fe_of; try apply reps_fes; assumption.
  - cbn [s_pos]. lia.
  - cbn [s_sum]. eapply rep_reduced, Rnew.
Qed.

Let W (a be : F) (R0 R1 : list F) := gw a be R0 R1.
Let M1 a be R0 R1 := scat (2 ^ lg) (tM1 (gate_at L) (gw a be R0 R1) V).
Let A1 a be R0 R1 := scat (2 ^ lg) (tA1 (gate_at L) (gw a be R0 R1) V).
Let M2 a be R0 R1 ru := scat (2 ^ lg) (tM2 (gate_at L) (gw a be R0 R1) (mle ru V) (eqw ru)).
Let A2 a be R0 R1 ru := scat (2 ^ lg) (tA2 (gate_at L) (gw a be R0 R1) (mle ru V) (eqw ru)).

Lemma layer_gates : forall g, g < 2 ^ lg -> proto_gate (2 ^ b) (gate_at L g).
Proof. intros g Hg. apply (cc_wires C CC); [lia|exact Hg]. Qed.
Lemma layer_start : forall a be R0 R1, length R0 = lg -> length R1 = lg ->
  psum b V (M1 a be R0 R1) (A1 a be R0 R1) = (a * mle R0 (vals C i) + be * mle R1 (vals C i))%F.
Proof.
  intros a be R0 R1 L0 L1. rewrite (weighted_claim C i a be R0 R1 L0 L1). fold L lg.
  rewrite (vals_this C i CC ltac:(lia)). unfold M1, A1.
  rewrite (phase1_start (2 ^ lg) (gate_at L) (gw a be R0 R1) V b).
  - apply sumn_ext. intros g Hg. rewrite (proto_value (2 ^ b)) by (apply layer_gates, Hg). reflexivity.
  - intros g Hg. apply proto_range; [apply pow2_pos|apply layer_gates, Hg].
Qed.
Lemma layer_link : forall a be R0 R1 ru, length ru = b ->
  (mle ru V * mle ru (M1 a be R0 R1) + mle ru (A1 a be R0 R1))%F = psum b V (M2 a be R0 R1 ru) (A2 a be R0 R1 ru).
Proof.
  intros a be R0 R1 ru Lu. apply (phase1_end (2 ^ lg) (gate_at L) (gw a be R0 R1) V b); [|exact Lu].
  intros g Hg. apply proto_range; [apply pow2_pos|apply layer_gates, Hg].
Qed.
Lemma layer_end : forall a be R0 R1 ru rv, length rv = b ->
  (mle rv V * mle rv (M2 a be R0 R1 ru) + mle rv (A2 a be R0 R1 ru))%F =
  final_value a be R0 R1 ru rv (mle ru V) (mle rv V).
Proof.
  intros a be R0 R1 ru rv Lv.
  apply (phase2_end (2 ^ lg) (gate_at L) (gw a be R0 R1) V b); [|exact Lv].
  intros g Hg. apply proto_range; [apply pow2_pos|apply layer_gates, Hg].
Qed.

(** The claim held by the verifier is about the true values of layer [i]. *)
Definition true_claim {S} (C : layered_circuit) (i : nat) (st : vstate S) : Prop :=
  exists a be R0 R1, rep (s_alpha st) a /\ rep (s_beta st) be /\ reps (s_r0 st) R0 /\ reps (s_r1 st) R1 /\
    rep (s_sum st) (a * mle R0 (vals C i) + be * mle R1 (vals C i))%F.

Lemma app_inv_len : forall A (x y u v : list A), length x = length y -> x ++ u = y ++ v -> x = y /\ u = v.
Proof.
  induction x as [|a x IH]; intros [|c y] u v E H; try discriminate; [auto|]. injection H as -> H. injection E as E.
  destruct (IH y u v E H) as [-> ->]. auto.
Qed.
Lemma reps_fun : forall l R R', reps l R -> reps l R' -> R = R'.
Proof.
  intros l R R' H. revert R'. induction H as [|x a l R Hx H IH]; intros R' H'; inversion H'; subst; [reflexivity|].
  f_equal; [eapply rep_fun; eassumption|]. apply IH. assumption.
Qed.

Theorem layer_sound : forall st a be R0 R1 w, vst C m i st a be R0 R1 ->
  rep (s_sum st) w -> w <> (a * mle R0 (vals C i) + be * mle R1 (vals C i))%F ->
  few (b + (b + 2)) (2 * b + (2 * b + 1)) (fun v => exists rnd st', drawn rnd (s_pos st) v /\
    verify_layer I C rnd i st = Ok st' /\ true_claim C (i - 1) st').
Proof.
  intros st a be R0 R1 w VS Rw N.
  assert (L0 : length R0 = lg) by (apply (vs_l0 _ _ _ _ _ _ _ _ VS)).
  assert (L1 : length R1 = lg) by (apply (vs_l1 _ _ _ _ _ _ _ _ VS)).
  rewrite <- (layer_start a be R0 R1 L0 L1) in N.
  set (init := if_sumcheck_init I (s_p st) i lg b b (s_alpha st) (s_beta st) (s_r0 st) (s_r1 st) (s_o0 st) (s_o1 st)).
  set (E1 := fun h => exists s0, init = Ok s0 /\ exists s1, if_phase1_init I s0 = Ok s1 /\
    exists t1, for_ b 0 (body1 I (fes h)) (fe_of_int 0, s_sum st, s1) = Ok t1 /\
      let '(_, sm', _) := t1 in rep sm' (mle h V * mle h (M1 a be R0 R1) + mle h (A1 a be R0 R1))%F).
  apply (few_bind b (b + 2) (2 * b) (2 * b + 1) E1).
  { unfold E1. apply few_outcome. intros s0 _. apply few_outcome. intros s1 _.
    exact (phase1_sound I TI b V (M1 a be R0 R1) (A1 a be R0 R1) [] (fe_of_int 0) (s_sum st) w s1 Rw N). }
  intros ru Lru NE1.
  eapply (few_weaken _ _ _ (fun t => exists s0, init = Ok s0 /\ exists s1, if_phase1_init I s0 = Ok s1 /\
    exists t1, for_ b 0 (body1 I (fes ru)) (fe_of_int 0, s_sum st, s1) = Ok t1 /\
    exists s3, if_phase2_init I (snd t1) (fst (fst t1)) (fes ru) (fes (comp ru)) = Ok s3 /\
    exists rv al' be', length rv = b /\ t = rv ++ [al'; be'] /\
    exists t2, for_ b 0 (body2 I fe_zero) (fe_of_int 0, snd (fst t1), fes rv, s3) = Ok t2 /\
    exists t3, if_finalize I (snd t2) (fst (fst (fst t2))) = Ok t3 /\
     let '((v_u, v_v), s5) := t3 in let '(_, sum2, _, _) := t2 in
     exists vu vv, rep v_u vu /\ rep v_v vv /\ rep sum2 (final_value a be R0 R1 ru rv vu vv) /\
       (al' * vu + be' * vv = al' * mle ru V + be' * mle rv V)%F)); [|apply Nat.le_refl|].
  2:{ intros t Lt (rnd & st' & Hd & Hv & TC).
      set (rv := firstn b t). assert (Lrv : length rv = b) by (unfold rv; rewrite firstn_length; lia).
      assert (Et : exists al' be', t = rv ++ [al'; be']).
      { assert (Ls : length (skipn b t) = 2) by (rewrite skipn_length; lia).
        pose proof (firstn_skipn b t) as FS. fold rv in FS. destruct (skipn b t) as [|x [|y [|]]]; try discriminate.
        exists x, y. symmetry. exact FS. }
      destruct Et as (al' & be' & Et). rewrite Et in Hd.
      destruct (layer_inv st a be R0 R1 rnd ru rv al' be' st' VS (rep_reduced _ _ Rw) Lru Lrv Hd Hv)
        as ((s0 & F0 & s1 & F1 & t1 & F2 & s3 & F3 & t2 & F4 & t3 & F5 & K) & VS' & _ & _).
      exists s0. split; [exact F0|]. exists s1. split; [exact F1|]. exists t1. split; [exact F2|].
      exists s3. split; [exact F3|]. exists rv, al', be'. split; [exact Lrv|]. split; [exact Et|].
      exists t2. split; [exact F4|]. exists t3. split; [exact F5|].
      destruct t3 as [[v_u v_v] s5]. destruct t2 as [[[? sum2] ?] ?]. destruct K as (vu & vv & Ru & Rv & Rs & Rn).
      exists vu, vv. split; [exact Ru|]. split; [exact Rv|]. split; [exact Rs|].
      destruct TC as (a1 & b1 & Q0 & Q1 & Ta & Tb & T0 & T1 & Ts). destruct VS' as [Va Vb V0 V1 _ _ _ _ _].
      rewrite (rep_fun _ _ _ Ta Va), (rep_fun _ _ _ Tb Vb), (reps_fun _ _ _ T0 V0), (reps_fun _ _ _ T1 V1) in Ts.
      apply (rep_fun _ _ _ Rn Ts). }
  apply few_outcome. intros s0 F0. apply few_outcome. intros s1 F1. apply few_outcome. intros [[prev1 sum1] s2] F2.
  apply few_outcome. intros s3 F3. cbn [fst snd] in F3 |- *.
  assert (Rs1 : reduced sum1).
  { eapply (phase1_reduced I TI); [exact (rep_reduced _ _ Rw)|exact F2|].
    clear. induction ru; constructor; [eapply rep_reduced, rep_fe_of|assumption]. }
  assert (N1 : ofZ (val512 sum1) <> psum b V (M2 a be R0 R1 ru) (A2 a be R0 R1 ru)).
  { intro K. rewrite <- (layer_link a be R0 R1 ru Lru) in K. apply NE1. exists s0. split; [exact F0|].
    exists s1. split; [exact F1|]. exists (prev1, sum1, s2). split; [exact F2|]. rewrite <- K. apply reduced_rep, Rs1. }
  set (E2 := fun rv => exists t2, for_ b 0 (body2 I fe_zero) (fe_of_int 0, sum1, fes rv, s3) = Ok t2 /\
    let '(_, sm', _, _) := t2 in rep sm' (mle rv V * mle rv (M2 a be R0 R1 ru) + mle rv (A2 a be R0 R1 ru))%F).
  apply (few_bind b 2 (2 * b) 1 E2).
  { exact (phase2_sound I TI fe_zero b V (M2 a be R0 R1 ru) (A2 a be R0 R1 ru) [] (fe_of_int 0) sum1
      (ofZ (val512 sum1)) s3 rep_0 (reduced_rep _ Rs1) N1). }
  intros rv Lrv NE2.
  eapply (few_weaken _ _ _ (fun t => 
    exists t2, for_ b 0 (body2 I fe_zero) (fe_of_int 0, sum1, fes rv, s3) = Ok t2 /\
    exists t3, if_finalize I (snd t2) (fst (fst (fst t2))) = Ok t3 /\
     let '((v_u, v_v), s5) := t3 in let '(_, sum2, _, _) := t2 in
     exists vu vv, rep v_u vu /\ rep v_v vv /\ rep sum2 (final_value a be R0 R1 ru rv vu vv) /\
       exists al' be', t = [al'; be'] /\ (al' * vu + be' * vv = al' * mle ru V + be' * mle rv V)%F)); [|apply Nat.le_refl|].
  2:{ intros t Lt (rv' & al' & be' & Lrv' & Et & t2 & F4 & t3 & F5 & K).
      assert (rv' = rv /\ t = [al'; be']) as [-> ->].
      { destruct (app_inv_len _ rv rv' t [al'; be'] ltac:(lia) Et) as [-> ->]. auto. }
      exists t2. split; [exact F4|]. exists t3. split; [exact F5|].
      destruct t3 as [[v_u v_v] s5]. destruct t2 as [[[? sum2] ?] ?]. destruct K as (vu & vv & Ru & Rv & Rs & Rn).
      exists vu, vv. split; [exact Ru|]. split; [exact Rv|]. split; [exact Rs|]. exists al', be'. auto. }
  apply few_outcome. intros [[[prev2 sum2] rv'] s4] F4. apply few_outcome. intros [[v_u v_v] s5] F5.
  destruct (ty_f I TI _ _ _ _ _ F5) as [Rvu Rvv]. apply reduced_rep in Rvu. apply reduced_rep in Rvv.
  set (vu := ofZ (val512 v_u)) in *. set (vv := ofZ (val512 v_v)) in *.
  assert (DD : (vu = mle ru V /\ vv = mle rv V) \/ (vu <> mle ru V \/ vv <> mle rv V)).
  { destruct (F_eq_dec vu (mle ru V)); [destruct (F_eq_dec vv (mle rv V))|]; auto. }
  destruct DD as [[Eu Ev]|Nuv].
  - apply few_none. intros t _ (vu' & vv' & Ru & Rv & Rs & _).
    rewrite (rep_fun _ _ _ Ru Rvu), (rep_fun _ _ _ Rv Rvv), Eu, Ev in Rs.
    apply NE2. exists (prev2, sum2, rv', s4). split; [exact F4|].
    rewrite (layer_end a be R0 R1 ru rv Lrv). exact Rs.
  - eapply few_weaken; [apply (combination_few vu vv (mle ru V) (mle rv V) Nuv)|apply Nat.le_refl|].
    intros t _ (vu' & vv' & Ru & Rv & Rs & al' & be' & Et & K).
    rewrite (rep_fun _ _ _ Ru Rvu), (rep_fun _ _ _ Rv Rvv) in K. exists al', be'. auto.
Qed.
End OneLayer.

(** ** All layers above the copy layer *)
(** Number of challenges drawn while reducing layer [n + 1] to layer 1, and the
    numerator of the error. *)
Fixpoint n_challenges (C : layered_circuit) (n : nat) : nat :=
  match n with O => 0 | S n' => (2 * bit_length (layer_at C n) + 2) + n_challenges C n' end.
Fixpoint error (C : layered_circuit) (n : nat) : nat :=
  match n with O => 0 | S n' => (4 * bit_length (layer_at C n) + 1) + error C n' end.

Lemma few_eq : forall n n' k k' E, few n k E -> n = n' -> k = k' -> few n' k' E.
Proof. intros; subst; assumption. Qed.

Section Layers.
Context {S : Type}.
Variable I : prover_if S.
Hypothesis TI : typed I.
Variables (C : layered_circuit) (m : nat).
Hypothesis CC : complete_circuit C.
Hypothesis Hm : forall k, k < total_depth C -> bit_length (layer_at C k) <= m.
Let d := total_depth C.

Lemma layers_sound : forall n k st a be R0 R1 w, d - 1 - k = n + 1 -> k < d ->
  vst C m (n + 1) st a be R0 R1 ->
  rep (s_sum st) w -> w <> (a * mle R0 (vals C (n + 1)) + be * mle R1 (vals C (n + 1)))%F ->
  few (n_challenges C n) (error C n) (fun v => exists rnd st', drawn rnd (s_pos st) v /\
    for_ n k (fun k st => verify_layer I C rnd (d - 1 - k) st) st = Ok st' /\ true_claim C 1 st').
Proof.
  induction n as [|n IH]; intros k st a be R0 R1 w Hk Hkd VS Rw N.
  - apply few_none. intros v _ (rnd & st' & _ & E & a' & b' & Q0 & Q1 & Ta & Tb & T0 & T1 & Ts).
    cbn [for_] in E. apply Ok_inj in E. subst st'. apply N.
    destruct VS as [Va Vb V0 V1 _ _ _ _ _].
    rewrite (rep_fun _ _ _ Ta Va), (rep_fun _ _ _ Tb Vb), (reps_fun _ _ _ T0 V0), (reps_fun _ _ _ T1 V1) in Ts.
    exact (rep_fun _ _ _ Rw Ts).
  - set (i := Datatypes.S n + 1) in *. set (b := bit_length (layer_at C (i - 1))).
    assert (Ei : i - 1 = n + 1) by (unfold i; lia).
    assert (Hi : 1 < i < total_depth C) by (fold d; unfold i; lia).
    assert (Eb : b = bit_length (layer_at C (Datatypes.S n))) by (unfold b; rewrite Ei; f_equal; f_equal; lia).
    eapply few_eq with (n := b + (b + 2) + n_challenges C n) (k := 2 * b + (2 * b + 1) + error C n).
    2,3: cbn [n_challenges error]; rewrite <- Eb; lia.
    apply (few_bind _ _ _ _ (fun v => exists rnd st', drawn rnd (s_pos st) v /\
      verify_layer I C rnd i st = Ok st' /\ true_claim C (i - 1) st')).
    { exact (layer_sound I TI C m i CC Hi Hm st a be R0 R1 w VS Rw N). }
    intros h Lh NE.
    set (ru := firstn b h). set (rest := skipn b h).
    assert (Lru : length ru = b) by (unfold ru; rewrite firstn_length; lia).
    assert (Lrest : length rest = b + 2) by (unfold rest; rewrite skipn_length; lia).
    set (rv := firstn b rest). assert (Lrv : length rv = b) by (unfold rv; rewrite firstn_length; lia).
    assert (Eh : exists al' be', h = ru ++ rv ++ [al'; be']).
    { assert (Ls : length (skipn b rest) = 2) by (rewrite skipn_length; lia).
      pose proof (firstn_skipn b rest) as FS. fold rv in FS. destruct (skipn b rest) as [|x [|y [|]]]; try discriminate.
      exists x, y. rewrite FS. unfold ru, rest. symmetry. apply firstn_skipn. }
    destruct Eh as (al' & be' & Eh).
    (* whatever rnd is, the state after the layer is determined by h *)
    set (rnd0 := fun k => if k <? s_pos st then fe_zero else fe_of (nth (k - s_pos st) h 0%F)).
    assert (D0 : drawn rnd0 (s_pos st) h).
    { intros j Hj. unfold rnd0. destruct (Nat.ltb_spec (s_pos st + j) (s_pos st)); [lia|]. f_equal. f_equal. lia. }
    assert (Same : forall rnd, drawn rnd (s_pos st) h -> verify_layer I C rnd i st = verify_layer I C rnd0 i st).
    { intros rnd D. unfold verify_layer.
      assert (EL : rd (circuit C) i = Ok (layer_at C i)) by (unfold rd; rewrite layer_rd by (rewrite <- (cc_depth C CC); lia); reflexivity).
      assert (ELm : rd (circuit C) (i - 1) = Ok (layer_at C (i - 1))) by (unfold rd; rewrite layer_rd by (rewrite <- (cc_depth C CC); lia); reflexivity).
      rewrite EL, !bind_Ok, ELm, !bind_Ok. cbv zeta. fold b.
      rewrite Eh in D, D0. destruct (drawn_app _ _ _ _ D) as [D1 D']. destruct (drawn_app _ _ _ _ D') as [D2 D3].
      destruct (drawn_app _ _ _ _ D0) as [D01 D0']. destruct (drawn_app _ _ _ _ D0') as [D02 D03].
      pose proof (drawn_gen _ _ _ D1) as G1. pose proof (drawn_gen _ _ _ D2) as G2.
      pose proof (drawn_gen _ _ _ D01) as G01. pose proof (drawn_gen _ _ _ D02) as G02.
      rewrite Lru in *. rewrite Lrv in *. rewrite G1, G01, G2, G02.
      pose proof (D3 0 ltac:(simpl; lia)) as X1. pose proof (D3 1 ltac:(simpl; lia)) as X2.
      pose proof (D03 0 ltac:(simpl; lia)) as Y1. pose proof (D03 1 ltac:(simpl; lia)) as Y2.
      rewrite Nat.add_0_r in X1, Y1. rewrite X1, X2, Y1, Y2. reflexivity. }
    destruct (verify_layer I C rnd0 i st) as [st1| | | | | |] eqn:EV.
    2-7: apply few_none; intros t _ (rnd & st' & D & E & _); destruct (drawn_app _ _ _ _ D) as [Dh _];
      cbn [for_] in E; apply bind_inv in E; destruct E as (st2 & E2 & _);
      replace (d - 1 - k) with i in E2 by lia; rewrite (Same rnd Dh) in E2; discriminate.
    rewrite Eh in D0.
    destruct (layer_inv I TI C m i CC Hi Hm st a be R0 R1 rnd0 ru rv al' be' st1 VS (rep_reduced _ _ Rw) Lru Lrv D0 EV)
      as (_ & VS' & Pos' & Red').
    rewrite Ei in VS'. fold b in Pos'.
    eapply few_weaken; [apply (IH (Datatypes.S k) st1 al' be' ru rv (ofZ (val512 (s_sum st1))) ltac:(lia) ltac:(lia) VS' (reduced_rep _ Red'))| |].
    + intro K. apply NE. exists rnd0, st1. rewrite Eh. split; [exact D0|]. split; [exact EV|]. rewrite Ei.
      destruct VS' as [Va Vb V0 V1 _ _ _ _ _]. exists al', be', ru, rv.
      split; [exact Va|]. split; [exact Vb|]. split; [exact V0|]. split; [exact V1|]. rewrite <- K. apply reduced_rep, Red'.
    + apply Nat.le_refl.
    + intros t Lt (rnd & st' & D & E & TC). destruct (drawn_app _ _ _ _ D) as [Dh Dt].
      exists rnd, st'. rewrite Pos'. replace (b + b + 2) with (length h) by lia. split; [exact Dt|].
      cbn [for_] in E. apply bind_inv in E. destruct E as (st2 & E2 & E).
      replace (d - 1 - k) with i in E2 by lia. rewrite (Same rnd Dh) in E2. apply Ok_inj in E2. subst st2.
      split; [exact E|exact TC].
Qed.
End Layers.

(** The verifier up to (and excluding) the copy layer; the same code as
    [verify_body]. *)
Definition verify_upper {S} (I : prover_if S) (C : layered_circuit) (rnd : nat -> fe) (B0 : betas) (s0 : S)
  : outcome (vstate S) :=
  let d := total_depth C in
  ' (result, s) <- if_evaluate I s0 ;;
  let alpha := fe_of_int 1 in
  let beta := fe_of_int 0 in
  Lout <- rd (circuit C) (d - 1) ;;
  let blo := bit_length Lout in
  let '(r_0, pos) := generate_randomness rnd 0 blo in
  let '(r_1, pos) := generate_randomness rnd pos blo in
  o_0 <- one_minus r_0 blo ;;
  o_1 <- one_minus r_1 blo ;;
  ' (a_0, s) <- if_V_res I s o_0 r_0 result blo (2 ^ blo) ;;
  let a_0 := fe_mul alpha a_0 in
  for_ (d - 2) 0 (fun k st => verify_layer I C rnd (d - 1 - k) st)
     (VState alpha beta a_0 r_0 r_1 o_0 o_1 B0 pos s).
Lemma for_split : forall S n n' j (body : nat -> S -> outcome S) s,
  for_ (n + n') j body s = (s' <- for_ n j body s ;; for_ n' (j + n) body s').
Proof.
  induction n as [|n IH]; intros n' j body s; cbn [Nat.add for_].
  - rewrite bind_Ok, Nat.add_0_r. reflexivity.
  - destruct (body j s); try reflexivity. rewrite !bind_Ok, IH. rewrite Nat.add_succ_r. reflexivity.
Qed.
(** An accepting run passes through the upper part. *)
Lemma verify_upper_runs : forall S (I : prover_if S) C rnd B0 s0, 2 <= total_depth C ->
  verify I C rnd B0 s0 = Ok true -> exists st, verify_upper I C rnd B0 s0 = Ok st.
Proof.
  intros S I C rnd B0 s0 Hd H. unfold verify in H.
  destruct (verify_body I C rnd B0 s0) as [x| | | | | |] eqn:E; try discriminate. clear H.
  unfold verify_body in E. unfold verify_upper. cbv zeta in E |- *.
  apply bind_inv in E. destruct E as ([row s] & -> & E). rewrite bind_Ok.
  apply bind_inv in E. destruct E as (Lo & -> & E). rewrite bind_Ok.
  destruct (generate_randomness rnd 0 (bit_length Lo)) as [r0 pos0].
  destruct (generate_randomness rnd pos0 (bit_length Lo)) as [r1 pos1].
  apply bind_inv in E. destruct E as (o0 & -> & E). rewrite bind_Ok.
  apply bind_inv in E. destruct E as (o1 & -> & E). rewrite bind_Ok.
  apply bind_inv in E. destruct E as ([a0 s'] & -> & E). rewrite bind_Ok.
  apply bind_inv in E. destruct E as (st & E1 & E).
  replace (total_depth C - 1) with (total_depth C - 2 + 1) in E1 at 1 by lia. rewrite for_split in E1.
  apply bind_inv in E1. destruct E1 as (st' & E1 & _). eauto.
Qed.

(** The verifier evaluates the claimed output itself (not through the prover). *)
Definition trusted_V_res {S} (I : prover_if S) : Prop := forall s o r row n k x s',
  if_V_res I s o r row n k = Ok (x, s') -> V_res o r row n k = Ok x.

Theorem upper_sound : forall S (I : prover_if S) C m s0 row s1 out B0,
  typed I -> trusted_V_res I -> complete_circuit C -> 2 <= total_depth C ->
  (forall k, k < total_depth C -> bit_length (layer_at C k) <= m) ->
  length (b_g0 B0) = 2 ^ m /\ length (b_g1 B0) = 2 ^ m /\ length (b_u B0) = 2 ^ m /\ length (b_v B0) = 2 ^ m ->
  if_evaluate I s0 = Ok (row, s1) ->
  let lo := bit_length (layer_at C (total_depth C - 1)) in
  tab (2 ^ lo) row (2 ^ lo) out ->
  (exists x, x < 2 ^ lo /\ out x <> vals C (total_depth C - 1) x) ->
  few (lo + (lo + n_challenges C (total_depth C - 2))) (lo + error C (total_depth C - 2)) (fun v =>
    exists st, verify_upper I C (stream v) B0 s0 = Ok st /\ true_claim C 1 st).
Proof.
  intros S I C m s0 row s1 out B0 TI TV CC Hd Hm HB Ee lo Trow Wrong. set (d := total_depth C) in *.
  apply (few_bind lo _ lo _ (fun R0 => mle R0 out = mle R0 (vals C (d - 1)))); [apply schwartz_zippel, Wrong|].
  intros R0 L0 N0. 
  apply (few_bind lo _ 0 (error C (d - 2)) (fun _ => False)); [apply few_none; intros ? ? []|].
  intros R1 L1 _.
  assert (EL : rd (circuit C) (d - 1) = Ok (layer_at C (d - 1)))
    by (unfold rd; rewrite layer_rd by (rewrite <- (cc_depth C CC); fold d; lia); reflexivity).
  assert (Decomp : forall t st, verify_upper I C (stream (R0 ++ R1 ++ t)) B0 s0 = Ok st -> true_claim C 1 st ->
    exists ab, (if_V_res I s1 (fes (comp R0)) (fes R0) row lo (2 ^ lo)) = Ok ab /\
      for_ (d - 2) 0 (fun k st => verify_layer I C (stream (R0 ++ R1 ++ t)) (d - 1 - k) st)
        (VState (fe_of_int 1) (fe_of_int 0) (fe_mul (fe_of_int 1) (fst ab)) (fes R0) (fes R1) (fes (comp R0)) (fes (comp R1))
           B0 (lo + lo) (snd ab)) = Ok st).
  { intros t st H TC. unfold verify_upper in H. fold d in H. rewrite Ee, bind_Ok, EL, bind_Ok in H. cbv zeta in H.
    assert (D : drawn (stream (R0 ++ R1 ++ t)) 0 (R0 ++ R1 ++ t)) by (intros k Hk; reflexivity).
    destruct (drawn_app _ _ _ _ D) as [D0 D']. destruct (drawn_app _ _ _ _ D') as [D1 _].
    pose proof (drawn_gen _ _ _ D0) as G0. pose proof (drawn_gen _ _ _ D1) as G1. rewrite L0 in G0, G1. rewrite L1 in G1.
    fold lo in H. rewrite G0, G1 in H.
    apply bind_inv in H. destruct H as (o0 & Eo & H).
    pose proof (returns_inv _ _ _ _ (one_minus_ok _ R0 lo (reps_fes R0) (eq_sym L0)) Eo) as Ho. cbv beta in Ho.
    apply reps_inj in Ho. subst o0. clear Eo.
    apply bind_inv in H. destruct H as (o1 & Eo & H).
    pose proof (returns_inv _ _ _ _ (one_minus_ok _ R1 lo (reps_fes R1) (eq_sym L1)) Eo) as Ho. cbv beta in Ho.
    apply reps_inj in Ho. subst o1. clear Eo.
    apply bind_inv in H. destruct H as ([a0 s2] & Ea & H). exists (a0, s2). split; [exact Ea|exact H]. }
  eapply (few_weaken _ _ _ (fun t => exists ab, (if_V_res I s1 (fes (comp R0)) (fes R0) row lo (2 ^ lo)) = Ok ab /\
    exists rnd st', drawn rnd (lo + lo) t /\ 
      for_ (d - 2) 0 (fun k st => verify_layer I C rnd (d - 1 - k) st)
        (VState (fe_of_int 1) (fe_of_int 0) (fe_mul (fe_of_int 1) (fst ab)) (fes R0) (fes R1) (fes (comp R0)) (fes (comp R1))
           B0 (lo + lo) (snd ab)) = Ok st' /\ true_claim C 1 st')); [|apply Nat.le_refl|].
  2:{ intros t Lt (st & H & TC). destruct (Decomp t st H TC) as (ab & Ea & E). exists ab. split; [exact Ea|].
      exists (stream (R0 ++ R1 ++ t)), st. split; [|split; assumption].
      assert (D : drawn (stream (R0 ++ R1 ++ t)) 0 (R0 ++ R1 ++ t)) by (intros k Hk; reflexivity).
      destruct (drawn_app _ _ _ _ D) as [_ D']. destruct (drawn_app _ _ _ _ D') as [_ D2].
      rewrite L0, L1 in D2. exact D2. }
  apply few_outcome. intros [a0 s2] Ea. cbn [fst snd].
  assert (Ra : rep a0 (mle R0 out)).
  { apply TV in Ea. rewrite <- L0 in Ea, Trow. eapply (returns_inv _ _ (fun x => rep x (mle R0 out))); [|exact Ea].
    eapply V_res_ok; [apply reps_fes|apply reps_fes|exact Trow]. }
  assert (Rs : rep (fe_mul (fe_of_int 1) a0) (mle R0 out)).
  { eapply rep_eq; [apply rep_mul; [exact rep_i1|exact Ra]|ring]. }
  set (st0 := VState (fe_of_int 1) (fe_of_int 0) (fe_mul (fe_of_int 1) a0) (fes R0) (fes R1) (fes (comp R0)) (fes (comp R1))
           B0 (lo + lo) s2).
  assert (VS0 : vst C m (d - 2 + 1) st0 1%F 0%F R0 R1).
  { constructor; cbn [st0 s_alpha s_beta s_r0 s_r1 s_o0 s_o1 s_B]; try apply reps_fes; try exact HB.
    - exact rep_i1.
    - exact rep_i0.
    - replace (d - 2 + 1) with (d - 1) by lia. exact L0.
    - replace (d - 2 + 1) with (d - 1) by lia. exact L1. }
  eapply few_weaken; [apply (layers_sound I TI C m CC Hm (d - 2) 0 st0 1%F 0%F R0 R1 (mle R0 out) ltac:(fold d; lia) ltac:(lia) VS0 Rs)| |].
  - intro K. apply N0. rewrite K. replace (d - 2 + 1) with (d - 1) by lia. ring.
  - apply Nat.le_refl.
  - intros t _ H. exact H.
Qed.
