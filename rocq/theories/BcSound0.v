(** * Soundness of the block verifier: counting and phase 0 (C60) *)
From Coq Require Import ZArith List Bool Arith Lia Ring.
From Verif Require Import Limbs Field FieldProofs Fp ArithProofs Base MleSpec SpecGkr GkrMath Poly PolyProofs Circuit
  FastProver FastVerifier Lazy TablesProofs FastProverProofs PhaseProofs FastVerifierProofs Count SoundProofs
  TradProver TradVerifier TradProofs TradPhase TradVerifierProofs TradSound
  BcProver BcVerifier BcPhase0 BcPhase BcVerifierProofs.
Import ListNotations.
Open Scope nat_scope.

(** ** Counting *)
Lemma cubic_roots : forall a b c e : F, a <> 0%F \/ b <> 0%F \/ c <> 0%F \/ e <> 0%F ->
  exists l, length l <= 3 /\ forall t, (a * t * t * t + b * t * t + c * t + e = 0)%F -> In t l.
Proof.
  intros a b c e N. destruct (F_search (fun t => a * t * t * t + b * t * t + c * t + e = 0)%F) as [[t0 R]|R]; [intro; apply F_eq_dec| |].
  - destruct (quadratic_roots a (a * t0 + b) (a * t0 * t0 + b * t0 + c)) as (l & L & H).
    { destruct (F_eq_dec a 0%F) as [Ea|]; [|left; assumption]. right. rewrite Ea in *.
      destruct (F_eq_dec b 0%F) as [Eb|Nb].
      2:{ left. intro K. apply Nb. rewrite <- K. ring. }
      rewrite Eb in *. right. intro E.
      assert (Ec : c = 0%F) by (rewrite <- E; ring). rewrite Ec in *.
      assert (Ee : e = 0%F) by (rewrite <- R; ring). destruct N as [N|[N|[N|N]]]; contradiction. }
    exists (t0 :: l). split; [simpl; lia|]. intros t Rt.
    assert (E : ((t - t0) * (a * t * t + (a * t0 + b) * t + (a * t0 * t0 + b * t0 + c)) = 0)%F).
    { replace ((t - t0) * (a * t * t + (a * t0 + b) * t + (a * t0 * t0 + b * t0 + c)))%F
        with (a * t * t * t + b * t * t + c * t + e - (a * t0 * t0 * t0 + b * t0 * t0 + c * t0 + e))%F by ring.
      rewrite Rt, R. ring. }
    apply F_integral in E. destruct E as [E|E].
    + left. replace t with (t0 + (t - t0))%F by ring. rewrite E. ring.
    + right. apply H, E.
  - exists []. split; [simpl; lia|]. intros t Rt. destruct (R t Rt).
Qed.
(** The order in which two groups of challenges are drawn does not matter. *)
Lemma few_swap : forall n1 n2 m k (E : list F -> Prop),
  few (n2 + (n1 + m)) k (fun v => exists x y z, length x = n1 /\ length y = n2 /\ v = y ++ x ++ z /\ E (x ++ y ++ z)) ->
  few (n1 + (n2 + m)) k E.
Proof.
  intros n1 n2 m k E (l & B & H).
  set (sw := fun v : list F => firstn n1 (skipn n2 v) ++ firstn n2 v ++ skipn n1 (skipn n2 v)).
  exists (map sw l). split.
  - rewrite map_length. replace (n1 + (n2 + m)) with (n2 + (n1 + m)) by lia. exact B.
  - intros v Lv Ev. set (x := firstn n1 v). set (y := firstn n2 (skipn n1 v)). set (z := skipn n2 (skipn n1 v)).
    assert (Lx : length x = n1) by (unfold x; rewrite firstn_length; lia).
    assert (Ly : length y = n2) by (unfold y; rewrite firstn_length, skipn_length; lia).
    assert (Ex : v = x ++ y ++ z) by (unfold x, y, z; rewrite !firstn_skipn; reflexivity).
    apply in_map_iff. exists (y ++ x ++ z). split.
    + assert (F1 : forall (p q : list F) n, length p = n -> firstn n (p ++ q) = p).
      { intros p q n <-. rewrite firstn_app, Nat.sub_diag, firstn_all. simpl. apply app_nil_r. }
      assert (F2 : forall (p q : list F) n, length p = n -> skipn n (p ++ q) = q).
      { intros p q n <-. rewrite skipn_app, Nat.sub_diag, skipn_all. reflexivity. }
      unfold sw. rewrite (F1 y _ n2 Ly), (F2 y _ n2 Ly), (F1 x _ n1 Lx), (F2 x _ n1 Lx). symmetry. exact Ex.
    + apply H.
      * rewrite !app_length, Lx, Ly. apply (f_equal (@length F)) in Ex. rewrite !app_length, Lx, Ly in Ex. lia.
      * exists x, y, z. split; [exact Lx|]. split; [exact Ly|]. split; [reflexivity|]. rewrite <- Ex. exact Ev.
Qed.

(** ** The messages of phase 0 are cubic *)
Definition quad (g : F -> F) : Prop := exists a b c, forall t, g t = (a * t * t + b * t + c)%F.
Definition cub (g : F -> F) : Prop := exists a b c e, forall t, g t = (a * t * t * t + b * t * t + c * t + e)%F.
Lemma quad_sum : forall n (f : nat -> F -> F), (forall i, i < n -> quad (f i)) -> quad (fun t => sumn n (fun i => f i t)).
Proof.
  induction n as [|n IH]; intros f H; [exists 0%F, 0%F, 0%F; intro t; cbn [sumn]; ring|].
  destruct (IH f) as (a & b & c & E); [intros; apply H; lia|]. destruct (H n ltac:(lia)) as (a' & b' & c' & E').
  exists (a + a')%F, (b + b')%F, (c + c')%F. intro t. cbn [sumn]. rewrite E, E'. ring.
Qed.
Lemma cub_sum : forall n (f : nat -> F -> F), (forall i, i < n -> cub (f i)) -> cub (fun t => sumn n (fun i => f i t)).
Proof.
  induction n as [|n IH]; intros f H; [exists 0%F, 0%F, 0%F, 0%F; intro t; cbn [sumn]; ring|].
  destruct (IH f) as (a & b & c & e & E); [intros; apply H; lia|]. destruct (H n ltac:(lia)) as (a' & b' & c' & e' & E').
  exists (a + a')%F, (b + b')%F, (c + c')%F, (e + e')%F. intro t. cbn [sumn]. rewrite E, E'. ring.
Qed.
Section Degree.
Variables (G b : nat) (L : layer) (W : nat -> F).
Hypothesis TG : forall g, g < G -> bc_gate (2 ^ b) (gate_at L g).
Lemma gate_quad : forall g V B, g < G -> quad (fun t => W g * gate_spec (foldV t V B) (gate_at L g))%F.
Proof.
  intros g V B Hg. destruct (TG g Hg) as [T _]. unfold gate_spec. set (u := Z.to_nat (g_u _)). set (v := Z.to_nat (g_v _)).
  unfold foldV, fold1.
  set (u0 := V (2 * B) u). set (u1 := V (2 * B + 1) u). set (v0 := V (2 * B) v). set (v1 := V (2 * B + 1) v).
  destruct T as [K|[K|K]]; rewrite K.
  - exists 0%F, (W g * ((u1 - u0) + (v1 - v0)))%F, (W g * (u0 + v0))%F. intro t. ring.
  - exists (W g * (u1 - u0) * (v1 - v0))%F, (W g * (u0 * (v1 - v0) + v0 * (u1 - u0)))%F, (W g * u0 * v0)%F. intro t. ring.
  - exists 0%F, 0%F, 0%F. intro t. ring.
Qed.
Lemma round0_cubic : forall n beta V, cub (round0 G L W n beta V).
Proof.
  intros n beta V. unfold round0, bsum. apply (cub_sum _ (fun B t => fold1 t beta B * gsumF G L W (foldV t V B))%F).
  intros B _. unfold gsumF.
  destruct (quad_sum G (fun g t => W g * gate_spec (foldV t V B) (gate_at L g))%F) as (x & y & z & E);
    [intros; apply gate_quad; assumption|].
  set (b0 := beta (2 * B)). set (b1 := beta (2 * B + 1)).
  exists ((b1 - b0) * x)%F, ((b1 - b0) * y + b0 * x)%F, ((b1 - b0) * z + b0 * y)%F, (b0 * z)%F. intro t. cbv beta in E. rewrite E. unfold fold1.
  fold b0 b1. ring.
Qed.
Lemma round0_bad : forall n beta V a c e f,
  (peval [a; c; e; f] 0 + peval [a; c; e; f] 1)%F <> bsum (2 ^ S n) G L W beta V ->
  exists l, length l <= 3 /\ forall t, peval [a; c; e; f] t = round0 G L W n beta V t -> In t l.
Proof.
  intros n beta V a c e f N. rewrite <- (round0_01 G b L W TG) in N.
  destruct (round0_cubic n beta V) as (a' & c' & e' & f' & H). rewrite !H in N.
  destruct (cubic_roots (a - a') (c - c') (e - e') (f - f')) as (l & Ll & R).
  - destruct (F_eq_dec (a - a') 0) as [Ea|]; [|left; assumption].
    destruct (F_eq_dec (c - c') 0) as [Ec|]; [|right; left; assumption].
    destruct (F_eq_dec (e - e') 0) as [Ee|]; [|right; right; left; assumption].
    destruct (F_eq_dec (f - f') 0) as [Ef|]; [|right; right; right; assumption].
    exfalso. apply N. replace a with (a' + (a - a'))%F by ring. replace c with (c' + (c - c'))%F by ring.
    replace e with (e' + (e - e'))%F by ring. replace f with (f' + (f - f'))%F by ring.
    rewrite Ea, Ec, Ee, Ef. cbn [peval length Fpow]. ring.
  - exists l. split; [exact Ll|]. intros t Ht. apply R. rewrite H in Ht. cbn [peval length Fpow] in Ht.
    replace ((a - a') * t * t * t + (c - c') * t * t + (e - e') * t + (f - f'))%F with
      (a * (t * (t * (t * 1))) + (c * (t * (t * 1)) + (e * (t * 1) + (f * 1 + 0))) - (a' * t * t * t + c' * t * t + e' * t + f'))%F by ring.
    rewrite Ht. ring.
Qed.
End Degree.

(** ** A block prover whose messages are field elements *)
Definition reduced_cubic (q : cubic_poly) : Prop :=
  reduced (c_a q) /\ reduced (c_b q) /\ reduced (c_c q) /\ reduced (c_d q).
Record btyped {S} (I : bprover_if S) : Prop := {
  bty_0 : forall s x j q s', bi_phase0_update I s x j = Ok (q, s') -> reduced_cubic q;
  bty_1 : forall s x j q s', bi_phase1_update I s x j = Ok (q, s') -> reduced_quad q;
  bty_2 : forall s x j q s', bi_phase2_update I s x j = Ok (q, s') -> reduced_quad q;
  bty_f : forall s x u v s', bi_finalize I s x = Ok ((u, v), s') -> reduced u /\ reduced v }.
Lemma cubic_rep : forall q, reduced_cubic q -> exists a b c e, crep q [a; b; c; e].
Proof.
  intros q (A & B & C & E). exists (ofZ (val512 (c_a q))), (ofZ (val512 (c_b q))), (ofZ (val512 (c_c q))), (ofZ (val512 (c_d q))).
  eexists _, _, _, _. split; [reflexivity|]. split; [apply reduced_rep, A|]. split; [apply reduced_rep, B|]. split; apply reduced_rep; assumption.
Qed.
(** The two later phases have the rounds of the traditional verifier. *)
Definition only {S} (u : S -> fe -> nat -> outcome (quadratic_poly * S)) : prover_if S := {|
  if_evaluate := fun _ => UB; if_V_res := fun _ _ _ _ _ _ => UB; if_sumcheck_init := fun _ _ _ _ _ _ _ _ _ _ _ => UB;
  if_phase1_init := fun _ => UB; if_phase1_update := u;
  if_phase2_init := fun _ _ _ _ => UB; if_phase2_update := u;
  if_finalize := fun _ _ => UB; if_v_u := fun _ => fe_of_int 0 |}.
Lemma only_typed : forall S (u : S -> fe -> nat -> outcome (quadratic_poly * S)),
  (forall s x j q s', u s x j = Ok (q, s') -> reduced_quad q) -> typed (only u).
Proof.
  intros S u H. constructor; cbn [only if_phase1_update if_phase2_update if_finalize if_v_u]; try exact H.
  - discriminate.
  - intros _. exact (rep_reduced _ _ rep_i0).
Qed.
Lemma bc_rounds_body : forall S (u : S -> fe -> nat -> outcome (quadratic_poly * S)) n r prev sum s,
  bc_rounds u n r prev sum s = for_ n 0 (body1 (only u) r) (prev, sum, s).
Proof. reflexivity. Qed.
Definition body0 {S} (I : bprover_if S) (r_b : list fe) := fun j (st : fe * fe * S) =>
    let '(prev, sum, s) := st in
    ' (poly, s) <- bi_phase0_update I s prev j ;;
    r <- rd r_b j ;;
    reject_if (fe_ne (fe_add (cubic_eval poly (fe_of_int 0)) (cubic_eval poly (fe_of_int 1))) sum) ;;;
    Ok (r, cubic_eval poly r, s).
Lemma bc_rounds0_body : forall S (I : bprover_if S) n r sum s,
  bc_rounds0 (bi_phase0_update I) n r sum s = for_ n 0 (body0 I r) (fe_of_int 0, sum, s).
Proof. reflexivity. Qed.

Section Phase0.
Context {S : Type}.
Variable I : bprover_if S.
Hypothesis TI : btyped I.
Lemma body0_inv : forall pre t R prev sm sum s st',
  rep sm sum -> body0 I (fes (pre ++ t :: R)) (length pre) (prev, sm, s) = Ok st' ->
  exists poly s' a b c e, bi_phase0_update I s prev (length pre) = Ok (poly, s') /\ crep poly [a; b; c; e] /\
    (peval [a; b; c; e] 0 + peval [a; b; c; e] 1)%F = sum /\
    st' = (fe_of t, cubic_eval poly (fe_of t), s').
Proof.
  intros pre t R prev sm sum s st' Rs H. unfold body0 in H. apply bind_inv in H.
  destruct H as ([poly s'] & Ep & H). rewrite fes_rd, bind_Ok in H.
  apply reject_inv in H. destruct H as [Hc H]. destruct (cubic_rep poly (bty_0 I TI _ _ _ _ _ Ep)) as (a & b & c & e & Q).
  exists poly, s', a, b, c, e. split; [exact Ep|]. split; [exact Q|]. split; [|injection H as <-; reflexivity].
  exact (fne_inv _ _ _ _ (rep_add _ _ _ _ (cubic_eval_ok _ _ _ _ Q rep_i0)
      (cubic_eval_ok _ _ _ _ Q rep_i1)) Rs Hc).
Qed.
Lemma crep_fun : forall q c c', crep q c -> crep q c' -> c = c'.
Proof.
  intros q c c' (a & b & x & e & -> & A & B & X & E) (a' & b' & x' & e' & -> & A' & B' & X' & E').
  rewrite (rep_fun _ _ _ A A'), (rep_fun _ _ _ B B'), (rep_fun _ _ _ X X'), (rep_fun _ _ _ E E'). reflexivity.
Qed.
Variables (G b : nat) (L : layer) (W : nat -> F).
Hypothesis TG : forall g, g < G -> bc_gate (2 ^ b) (gate_at L g).
Lemma phase0_sound : forall n beta V pre prev sm sum s, rep sm sum -> sum <> bsum (2 ^ n) G L W beta V ->
  few n (3 * n) (fun R => exists st, for_ n (length pre) (body0 I (fes (pre ++ R))) (prev, sm, s) = Ok st /\
    let '(_, sm', _) := st in rep sm' (mle R beta * gsumF G L W (fun x => mle R (fun B => V B x)))%F).
Proof.
  induction n as [|n IH]; intros beta V pre prev sm sum s Rs N.
  - apply few_none. intros [|] Ln; [|discriminate]. intros ([[? ?] ?] & E & K). cbn [for_] in E.
    injection E as <- <- <-. apply N. rewrite (rep_fun _ _ _ Rs K). unfold bsum. simpl (2 ^ 0). cbn [sumn].
    rewrite (gsumF_ext G b L W TG (fun x => mle [] (fun B => V B x)) (V 0)) by (intros; rewrite mle_folds; reflexivity).
    rewrite mle_folds. simpl (folds [] beta 0). ring.
  - replace (3 * Datatypes.S n) with (3 + 3 * n) by lia.
    destruct (bi_phase0_update I s prev (length pre)) as [[poly s1]| | | | | |] eqn:Ep.
    2-7: apply few_none; intros [|t R] Ln; [discriminate|]; intros (st & E & _); cbn [for_] in E;
      apply bind_inv in E; destruct E as (st1 & E & _); destruct (body0_inv _ _ _ _ _ _ _ _ Rs E) as (p' & s' & _ & _ & _ & _ & K & _);
      congruence.
    destruct (cubic_rep poly (bty_0 I TI _ _ _ _ _ Ep)) as (a & c & e & f & Q).
    destruct (F_eq_dec (peval [a; c; e; f] 0 + peval [a; c; e; f] 1)%F sum) as [Es|Ns].
    2:{ apply few_none. intros [|t R] Ln; [discriminate|]. intros (st & E & _). cbn [for_] in E.
        apply bind_inv in E. destruct E as (st1 & E & _).
        destruct (body0_inv _ _ _ _ _ _ _ _ Rs E) as (p' & s' & a' & c' & e' & f' & K & Q' & K' & _). apply Ns.
        assert (p' = poly) by congruence. subst p'. rewrite (crep_fun _ _ _ Q Q'). exact K'. }
    apply (few_cons n 3 (3 * n) (fun t => peval [a; c; e; f] t = round0 G L W n beta V t)).
    + apply (round0_bad G b L W TG). rewrite Es. exact N.
    + intros t Nt. specialize (IH (fold1 t beta) (foldV t V) (pre ++ [t]) (fe_of t)
        (cubic_eval poly (fe_of t)) (peval [a; c; e; f] t) s1 (cubic_eval_ok _ _ _ _ Q (rep_fe_of t)) Nt).
      eapply few_weaken; [exact IH|lia|]. intros R Ln (st & E & K). cbn [for_] in E. apply bind_inv in E.
      destruct E as (st1 & E1 & E). destruct (body0_inv _ _ _ _ _ _ _ _ Rs E1) as (p' & s' & _ & _ & _ & _ & K1 & _ & _ & ->).
      rewrite Ep in K1. injection K1 as <- <-.
      exists st. rewrite <- app_assoc, app_length, Nat.add_1_r. cbn [app]. split; [exact E|].
      destruct st as [[? ?] ?]. rewrite mle_cons in K.
      rewrite (gsumF_ext G b L W TG _ (fun x => mle R (fun B => foldV t V B x))) in K by (intros; rewrite mle_cons; reflexivity).
      exact K.
Qed.
Lemma phase0_reduced : forall n r_b j prev sm s prev' sm' s', reduced sm ->
  for_ n j (body0 I r_b) (prev, sm, s) = Ok (prev', sm', s') -> Forall reduced r_b -> reduced sm'.
Proof.
  induction n as [|n IH]; intros r_b j prev sm s prev' sm' s' Hs E Hr; cbn [for_] in E; [congruence|].
  apply bind_inv in E. destruct E as ([[p1 sm1] s1] & E1 & E). eapply IH; [|exact E|exact Hr].
  unfold body0 in E1. apply bind_inv in E1. destruct E1 as ([poly s2] & Ep & E1). apply bind_inv in E1.
  destruct E1 as (r & Er & E1). apply reject_inv in E1. destruct E1 as [_ E1]. injection E1 as <- <- <-.
  destruct (cubic_rep poly (bty_0 I TI _ _ _ _ _ Ep)) as (a & c & e & f & Q).
  assert (Rr : reduced r).
  { unfold rd in Er. destruct (nth_error r_b j) eqn:En; [|discriminate]. injection Er as <-.
    rewrite Forall_forall in Hr. apply Hr. eapply nth_error_In, En. }
  eapply rep_reduced, cubic_eval_ok; [exact Q|apply reduced_rep, Rr].
Qed.
End Phase0.
