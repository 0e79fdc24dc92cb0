(** * The zk prover's rounds *)
From Coq Require Import ZArith List Bool Arith Lia Ring.
From Verif Require Import Limbs Field Fp Base ArithProofs MleSpec GkrMath Poly PolyProofs Circuit
  FastProver Lazy TablesProofs FastProverProofs PhaseProofs FastVerifierProofs SpecVpd VpdGroup VpdR VpdMask VpdInput
  ZkProver ZkPhaseProofs ZkMaskProofs.
Import ListNotations.
Open Scope nat_scope.

(** ** Tables *)
Section Table.
Variable next : fe -> list linear_poly -> nat -> outcome (list linear_poly).
Hypothesis next_ok : forall T m r a, rep r a ->
  binds (next r) m (fun i => T (2 * i + 1)%nat - T (2 * i)%nat)%F (fun i => T (2 * i)%nat)
    (fun i => fold1 a T (2 * i + 1)%nat - fold1 a T (2 * i)%nat)%F (fun i => fold1 a T (2 * i)%nat).
Lemma table_round_ok : forall N n p V M A R prev,
  length R < n ->
  tabs_bound N n p V M A R ->
  rep prev (last R 0%F) ->
  returns (table_round next p prev (length R)) (fun res =>
    let '(poly, p') := res in
    (forall a, tabs_bound N n p' V M A (R ++ [a])) /\
    (exists lV lA lM, p' = set_arrays p (2 ^ (n - S (length R))) lV lA lM) /\
    exists c, qrep poly c /\
      forall t, peval c t = round (n - S (length R)) (folds R V) (folds R M) (folds R A) t).
Proof.
  intros N n p V M A R prev HR (BV & BM & BA & HU) Hprev.
  unfold table_round. rewrite HU. set (m := n - S (length R)).
  replace (n - length R) with (S m) by lia. rewrite shr1_pow2.
  set (be := if length R =? 0 then bind_first else next prev).
  assert (K : exists Va Vb Aa Ab Ma Mb,
    binds be (2 ^ m) Va Vb (fun i => folds R V (2 * i + 1)%nat - folds R V (2 * i)%nat)%F (fun i => folds R V (2 * i)%nat) /\
    binds be (2 ^ m) Aa Ab (fun i => folds R A (2 * i + 1)%nat - folds R A (2 * i)%nat)%F (fun i => folds R A (2 * i)%nat) /\
    binds be (2 ^ m) Ma Mb (fun i => folds R M (2 * i + 1)%nat - folds R M (2 * i)%nat)%F (fun i => folds R M (2 * i)%nat) /\
    ltab N (p_Vmult p) (2 * 2 ^ m) Va Vb /\ ltab N (p_addV p) (2 * 2 ^ m) Aa Ab /\
    ltab N (p_addmult p) (2 * 2 ^ m) Ma Mb).
  {
    assert (ER : R = [] \/ exists R' a, R = R' ++ [a]).
    { destruct R as [|x R0]; [left; reflexivity|right].
      destruct (@exists_last _ (x :: R0)) as (R' & a & ES); [discriminate|]. exists R', a. exact ES. }
    destruct ER as [->|(R' & a & ->)].
    - cbn [length] in *. destruct BV as [fV TV]. destruct BM as [fM TM]. destruct BA as [fA TA].
      replace n with (S m) in TV, TM, TA by lia. rewrite pow2_S in TV, TM, TA.
      exists fV, V, fA, A, fM, M. subst be. cbn [Nat.eqb folds].
      split; [apply bind_first_ok|]. split; [apply bind_first_ok|]. split; [apply bind_first_ok|].
      split; [exact TV|]. split; [exact TA|exact TM].
    - apply bound_snoc in BV. apply bound_snoc in BM. apply bound_snoc in BA. cbv zeta in BV, BM, BA.
      rewrite last_last in Hprev. rewrite app_length in HR. cbn [length] in HR.
      assert (Em : n - S (length R') = S m) by (subst m; rewrite app_length; cbn [length]; lia).
      rewrite Em, pow2_S in BV, BM, BA. subst be. rewrite app_length. cbn [length].
      destruct (Nat.eqb_spec (length R' + 1) 0); [lia|]. rewrite !folds_snoc.
      do 6 eexists. split; [apply next_ok, Hprev|]. split; [apply next_ok, Hprev|]. split; [apply next_ok, Hprev|].
      split; [exact BV|]. split; [exact BA|exact BM]. }
  destruct K as (Va & Vb & Aa & Ab & Ma & Mb & KV & KA & KM & TV & TA & TM).
  eapply returns_bind; [apply (update_loop_ok be (2 ^ m) Va Vb Aa Ab Ma Mb _ _ _ KV KA KM N _ _ _ TV TA TM)|].
  intros [[[lV lA] lM] ret] (TV' & TA' & TM' & Ra & Rb & Rc). apply returns_ok.
  split; [|split].
  - intro a. unfold tabs_bound. cbn [set_arrays p_Vmult p_addmult p_addV p_total_uv].
    rewrite !bound_snoc. cbv zeta. fold m.
    split; [exact TV'|]. split; [exact TM'|]. split; [exact TA'|].
    rewrite app_length. cbn [length]. f_equal. lia.
  - exists lV, lA, lM. reflexivity.
  - eexists. split; [|intro t; symmetry; apply round_coefs].
    do 3 eexists. split; [reflexivity|]. split; [exact Ra|]. split; [exact Rb|exact Rc].
Qed.
End Table.

(** The pair kept for a table before its last variable is bound. *)
Lemma bound_last : forall N n l T R, S (length R) = n -> (forall a, bound N n l T (R ++ [a])) ->
  exists x, nth_error l 0 = Some x /\ rep (l_a x) (folds R T 1 - folds R T 0)%F /\ rep (l_b x) (folds R T 0).
Proof.
  intros N n l T R E H. specialize (H 0%F). apply bound_snoc in H. cbv zeta in H. destruct H as (_ & _ & H).
  destruct (H 0) as (x & Ex & Ra & Rb); [apply pow2_pos|]. exists x. split; [exact Ex|]. split; [exact Ra|exact Rb].
Qed.

(** ** The value masks *)
(** Products of the complements of the challenges and of [r (1 - r)]. *)
Fixpoint op (R : list F) : F := match R with [] => 1%F | r :: R' => ((1 - r) * op R')%F end.
Fixpoint zp (R : list F) : F := match R with [] => 1%F | r :: R' => ((1 - r) * r * zp R')%F end.
Lemma op_app : forall R S, op (R ++ S) = (op R * op S)%F.
Proof. induction R as [|r R IH]; intro S; cbn [app op]; [ring|]. rewrite IH. ring. Qed.
Lemma zp_app : forall R S, zp (R ++ S) = (zp R * zp S)%F.
Proof. induction R as [|r R IH]; intro S; cbn [app zp]; [ring|]. rewrite IH. ring. Qed.
Lemma op_snoc : forall R a, op (R ++ [a]) = (op R * (1 - a))%F.
Proof. intros. rewrite op_app. cbn [op]. ring. Qed.
Lemma zp_snoc : forall R a, zp (R ++ [a]) = (zp R * (1 - a) * a)%F.
Proof. intros. rewrite zp_app. cbn [zp]. ring. Qed.

Lemma mul1m_ok : forall x r a b, rep x a -> rep r b -> rep (mul1m x r) (a * (1 - b))%F.
Proof. intros. unfold mul1m. apply rep_mul; [assumption|]. apply rep_sub; [exact rep_i1|assumption]. Qed.

(** Fields that a layer's rounds leave alone. *)
Record rsame (r0 r : rpart) : Prop := {
  rs_maskR : r_maskR r = r_maskR r0; rs_preR : r_preR r = r_preR r0; rs_rf : r_rf r = r_rf r0;
  rs_preZu : r_preZu r = r_preZu r0; rs_preZv : r_preZv r = r_preZv r0;
  rs_ppu : r_prepreu1 r = r_prepreu1 r0; rs_ppv : r_preprev1 r = r_preprev1 r0;
  rs_Rg1 : r_Rg1 r = r_Rg1 r0; rs_Rg2 : r_Rg2 r = r_Rg2 r0; rs_sumRc : r_sumRc r = r_sumRc r0 }.
Lemma rsame_refl : forall r, rsame r r.
Proof. intro r. constructor; reflexivity. Qed.
Lemma rsame_trans : forall r s t, rsame r s -> rsame s t -> rsame r t.
Proof. intros r s t [] []. constructor; congruence. Qed.
(** Fields that change. *)
Record rdyn (r : rpart) (cu cv iuv zu zv : F) : Prop := {
  rd_cu : rep (r_sumcu r) cu; rd_cv : rep (r_sumcv r) cv; rd_iuv : rep (r_Iuv r) iuv;
  rd_zu : rep (r_Zu r) zu; rd_zv : rep (r_Zv r) zv }.

Lemma last_snoc_cases : forall (R : list F), R = [] \/ exists R' a, R = R' ++ [a].
Proof.
  intros [|x R0]; [left; reflexivity|right].
  destruct (@exists_last _ (x :: R0)) as (R' & a & ES); [discriminate|]. exists R', a. exact ES.
Qed.
(** The state of the value masks when the challenges so far are [pre ++ R] but the
    last one is not yet worked in; [pre] is empty in phase 1. *)
Definition rphase (ph2 : bool) (r : rpart) (cu cv : F) (pre R : list F) : Prop :=
  rdyn r (cu * op (pre ++ R))%F (cv * op (pre ++ R))%F (op (pre ++ R))
    (if ph2 then zp pre else zp R) (if ph2 then zp R else 1%F).
(** Entering a round: the previous challenge is worked in. *)
Lemma r_step_ok : forall ph2 always r cu cv pre R prev, rep prev (last R 0%F) ->
  rphase ph2 r cu cv pre (removelast R) ->
  let r' := r_step ph2 always (length R) prev r in
  rphase ph2 r' cu cv pre R /\ rsame r r' /\ r_preu1 r' = r_preu1 r /\ r_prev1 r' = r_prev1 r.
Proof.
  intros ph2 always r cu cv pre R prev Rp [D1 D2 D3 D4 D5] r'.
  split; [|split; [constructor; reflexivity|split; reflexivity]].
  destruct (last_snoc_cases R) as [->|(R' & a & ->)].
  - cbn [length removelast last] in *. subst r'. unfold r_step. cbn [Nat.ltb Nat.leb andb].
    constructor; cbn [r_sumcu r_sumcv r_Iuv r_Zu r_Zv]; try assumption.
    destruct always; cbn [orb]; [|exact D3].
    eapply rep_eq; [apply mul1m_ok; eassumption|]. ring.
  - rewrite removelast_snoc in *. rewrite last_last in Rp. subst r'. unfold r_step.
    rewrite app_length. cbn [length]. rewrite Nat.add_1_r. cbn [Nat.ltb Nat.leb andb]. rewrite orb_true_r.
    unfold rphase. rewrite app_assoc, op_snoc, zp_snoc.
    constructor; cbn [r_sumcu r_sumcv r_Iuv r_Zu r_Zv].
    + eapply rep_eq; [apply mul1m_ok; eassumption|ring].
    + eapply rep_eq; [apply mul1m_ok; eassumption|ring].
    + eapply rep_eq; [apply mul1m_ok; eassumption|ring].
    + destruct ph2; cbn [negb] in *; [exact D4|].
      eapply rep_eq; [apply rep_mul; [apply mul1m_ok; eassumption|eassumption]|ring].
    + destruct ph2; [|exact D5].
      eapply rep_eq; [apply rep_mul; [apply mul1m_ok; eassumption|eassumption]|ring].
Qed.
Lemma r_add_ok : forall r q cu cv iuv zu zv a b c, rdyn r cu cv iuv zu zv -> rep (q_a q) a -> rep (q_b q) b -> rep (q_c q) c ->
  rep (q_a (r_add r q)) a /\ rep (q_b (r_add r q)) (b - cu - cv)%F /\ rep (q_c (r_add r q)) (c + cu + cv)%F.
Proof.
  intros r q cu cv iuv zu zv a b c [D1 D2 _ _ _] Ra Rb Rc. unfold r_add. cbn [q_a q_b q_c].
  split; [exact Ra|]. split; [repeat (apply rep_sub; [|assumption]); exact Rb|repeat (apply rep_add; [|assumption]); exact Rc].
Qed.
Lemma addm_ok : forall x y a b, rep x a -> rep y b -> rep (addm x y) (a + b)%F.
Proof. intros. unfold addm. lzr. Qed.
Lemma addm_modv : forall x a, rep x a -> rep (addm x modv) a.
Proof. intros. unfold addm. lzr. Qed.
Lemma addm3_ok : forall x y w a b d, rep x a -> rep y b -> rep w d -> rep (u512_mod (u512_add (u512_add x y) w)) (a + b + d)%F.
Proof. intros. lzr. Qed.


(** ** The state during a phase *)
Record zs (N n : nat) (c : nat -> F) (cu cv : F) (V M A : nat -> F) (ph2 : bool) (pre R : list F) (z0 z : zprover) : Prop := {
  zs_tabs : tabs_bound N n (z_p z) V M A R;
  zs_m : mstate n c (z_m z) (length pre + length R) (qsum c n (pre ++ removelast R));
  zs_r : rphase ph2 (z_r z) cu cv pre (removelast R);
  zs_pp : exists k lV lA lM, z_p z = set_arrays (z_p z0) k lV lA lM;
  zs_mm : exists sc sr, z_m z = set_sums (z_m z0) sc sr;
  zs_rr : rsame (z_r z0) (z_r z);
  zs_rest : z = set_pmr z0 (z_p z) (z_m z) (z_r z);
  zs_u1 : r_preu1 (z_r z) = r_preu1 (z_r z0);
  zs_v1 : r_prev1 (z_r z) = r_prev1 (z_r z0) }.

(** The challenges' part of the mask. *)
Lemma qsum_step : forall c n pre R, 0 < n -> length pre = 0 \/ length pre = n -> 0 < length R < n ->
  (qsum c n (pre ++ removelast R) + lo c (length pre + length R - 1) (last R 0))%F = qsum c n (pre ++ R).
Proof.
  intros c n pre R Hn Hp HR. destruct (last_snoc_cases R) as [->|(R' & a & ->)]; [cbn [length] in HR; lia|].
  rewrite app_length in *. cbn [length] in *.
  rewrite removelast_snoc, last_last, app_assoc, qsum_snoc, app_length.
  replace (length pre + (length R' + 1) - 1) with (length pre + length R') by lia.
  unfold qv. destruct (Nat.eqb_spec (length pre + length R') (n - 1)); [lia|].
  destruct (Nat.eqb_spec (length pre + length R') (2 * n - 1)); [lia|]. cbn [ind]. ring.
Qed.

(** What a round polynomial must be, the challenges so far being [pre ++ R]. *)
Definition zround (n : nat) (c : nat -> F) (k : F) (V M A : nat -> F) (pre R : list F) (t : F) : F :=
  (round (n - S (length R)) (folds R V) (folds R M) (folds R A) t + k * op (pre ++ R) * (1 - t) + mround c n (pre ++ R) t)%F.
Definition zsum (n : nat) (c : nat -> F) (k : F) (V M A : nat -> F) (pre R : list F) : F :=
  (psum (n - length R) (folds R V) (folds R M) (folds R A) + k * op (pre ++ R) + Mk c n (pre ++ R))%F.
Lemma zround_01 : forall n c k V M A pre R, length R < n -> length pre <= n ->
  (zround n c k V M A pre R 0 + zround n c k V M A pre R 1)%F = zsum n c k V M A pre R.
Proof.
  intros n c k V M A pre R H H'. unfold zround, zsum.
  rewrite <- (mround_01 c n (pre ++ R)) by (rewrite app_length; lia).
  replace (n - length R) with (S (n - S (length R))) by lia. rewrite <- round_01. ring.
Qed.
Lemma zround_next : forall n c k V M A pre R t, length R < n -> length pre <= n ->
  zround n c k V M A pre R t = zsum n c k V M A pre (R ++ [t]).
Proof.
  intros n c k V M A pre R t H H'. unfold zround, zsum.
  rewrite (mround_next c n (pre ++ R)) by (rewrite app_length; lia).
  rewrite !folds_snoc, !app_assoc, op_snoc, app_length. cbn [length].
  replace (n - (length R + 1)) with (n - S (length R)) by lia. unfold round. ring.
Qed.

(** The mask's share of a round that is not the last of its phase. *)
Lemma zmask_ok : forall n c Mp pre R prev dosumr, 0 < n -> length pre = 0 \/ length pre = n -> S (length R) < n ->
  mstate n c Mp (length pre + length R) (qsum c n (pre ++ removelast R)) -> rep prev (last R 0%F) ->
  dosumr = (0 <? length pre + length R) ->
  returns (mask_round Mp (2 * n) (length pre + length R) dosumr prev) (fun x => let '(t1, t2, t3, M') := x in
    mstate n c M' (length pre + S (length R)) (qsum c n (pre ++ R)) /\ (exists sc sr, M' = set_sums Mp sc sr) /\
    exists a b d d', rep t1 a /\ rep t2 b /\ rep t3 d /\ rep (m_sumc M') d' /\
      forall t, mround c n (pre ++ R) t = (a * (t * t) + b * t + d + d')%F).
Proof.
  intros n c Mp pre R prev dosumr Hn Hp HR MS Rp Ed.
  set (j := length pre + length R).
  assert (Eq : qsum c n (pre ++ R) = if dosumr then (qsum c n (pre ++ removelast R) + lo c (j - 1) (last R 0))%F
                                     else qsum c n (pre ++ removelast R)).
  { subst dosumr j. destruct (Nat.ltb_spec 0 (length pre + length R)).
    - destruct (Nat.eq_dec (length R) 0) as [E|E].
      + apply length_zero_iff_nil in E. subst R. cbn [removelast last]. rewrite lo_0. ring.
      + symmetry. apply qsum_step; [exact Hn|exact Hp|lia].
    - assert (E : length R = 0) by lia. apply length_zero_iff_nil in E. subst R. reflexivity. }
  eapply returns_conseq.
  { apply (mask_round_ok n c Mp j (qsum c n (pre ++ removelast R)) dosumr prev (last R 0%F) MS); subst j; try lia; [| |exact Rp].
    - intro E. rewrite E in Ed. symmetry in Ed. apply Nat.ltb_lt in Ed. exact Ed.
    - intro E. rewrite E in Ed. symmetry in Ed. apply Nat.ltb_ge in Ed.
      assert (E1 : length R = 0) by lia. assert (E2 : length pre = 0) by lia.
      apply length_zero_iff_nil in E1. apply length_zero_iff_nil in E2. subst. reflexivity. }
  intros [[[t1 t2] t3] M']. cbv zeta. rewrite <- Eq. intros (R1 & R2 & R3 & MS' & EX).
  replace (length pre + S (length R)) with (S j) by (subst j; lia).
  split; [exact MS'|]. split; [exact EX|].
  do 4 eexists. split; [exact R1|]. split; [exact R2|]. split; [exact R3|]. split; [exact (ms_sumc _ _ _ _ _ MS')|].
  intro t. unfold mround, qv, lo. rewrite app_length. fold j.
  destruct (Nat.eqb_spec j (n - 1)); [subst j; lia|]. destruct (Nat.eqb_spec j (2 * n - 1)); [subst j; lia|]. cbn [ind]. ring.
Qed.

(** Bookkeeping shared by the rounds. *)
Lemma zs_next : forall N n c cu cv V M A ph2 pre R z0 z p' m' r',
  zs N n c cu cv V M A ph2 pre R z0 z ->
  (forall a, tabs_bound N n p' V M A (R ++ [a])) ->
  (exists lV lA lM, p' = set_arrays (z_p z) (2 ^ (n - S (length R))) lV lA lM) ->
  mstate n c m' (length pre + S (length R)) (qsum c n (pre ++ R)) ->
  (exists sc sr, m' = set_sums (z_m z) sc sr) ->
  rphase ph2 r' cu cv pre R -> rsame (z_r z) r' -> r_preu1 r' = r_preu1 (z_r z) -> r_prev1 r' = r_prev1 (z_r z) ->
  forall a, zs N n c cu cv V M A ph2 pre (R ++ [a]) z0 (set_pmr z p' m' r').
Proof.
  intros N n c cu cv V M A ph2 pre R z0 z p' m' r' [_ _ _ Ep Em Er Ez Eu Ev] T (lV & lA & lM & E1) MS (sc & sr & E2) RP RS U1 V1 a.
  destruct Ep as (k & lV0 & lA0 & lM0 & Ep). destruct Em as (sc0 & sr0 & Em).
  constructor; cbn [set_pmr z_p z_m z_r].
  - apply T.
  - rewrite removelast_snoc, app_length. cbn [length]. rewrite Nat.add_1_r. exact MS.
  - rewrite removelast_snoc. exact RP.
  - exists (2 ^ (n - S (length R))), lV, lA, lM. rewrite E1, Ep. reflexivity.
  - exists sc, sr. rewrite E2, Em. reflexivity.
  - eapply rsame_trans; eassumption.
  - rewrite Ez. reflexivity.
  - rewrite U1. exact Eu.
  - rewrite V1. exact Ev.
Qed.

Section Rounds.
Variables (N n : nat) (c : nat -> F) (cu cv : F) (V M A : nat -> F) (z0 : zprover).
Hypothesis Hn : 0 < n.
Hypothesis Hlu : p_length_u (z_p z0) = n.
Hypothesis Hlv : p_length_v (z_p z0) = n.

Lemma zk_phase1_update_ok : forall R z prev, S (length R) < n -> zs N n c cu cv V M A false [] R z0 z ->
  rep prev (last R 0%F) ->
  returns (zk_phase1_update z prev (length R)) (fun res => let '(poly, z') := res in
    (forall a, zs N n c cu cv V M A false [] (R ++ [a]) z0 z') /\
    exists q, qrep poly q /\ forall t, peval q t = zround n c (cu + cv)%F V M A [] R t).
Proof.
  intros R z prev HR Z Rp. unfold zk_phase1_update.
  eapply returns_bind; [apply (table_round_ok bind_next1 next1_ok N n (z_p z) V M A R prev ltac:(lia) (zs_tabs _ _ _ _ _ _ _ _ _ _ _ _ _ Z) Rp)|].
  intros [ret p'] (TB & EX & q & Qr & Hq). cbv zeta.
  assert (El : p_length_u p' + p_length_v p' = 2 * n).
  { destruct EX as (lV & lA & lM & ->). destruct (zs_pp _ _ _ _ _ _ _ _ _ _ _ _ _ Z) as (k & l1 & l2 & l3 & ->).
    cbn [set_arrays p_length_u p_length_v]. lia. }
  rewrite El.
  destruct (r_step_ok false true _ _ _ _ _ _ Rp (zs_r _ _ _ _ _ _ _ _ _ _ _ _ _ Z)) as (RP & RS & U1 & V1).
  set (r' := r_step false true (length R) prev (z_r z)) in *.
  eapply returns_bind.
  { apply (zmask_ok n c (z_m z) [] R prev (0 <? length R) Hn (or_introl eq_refl) HR (zs_m _ _ _ _ _ _ _ _ _ _ _ _ _ Z) Rp eq_refl). }
  intros [[[t1 t2] t3] m'] (MS & EM & a1 & b1 & d1 & e1 & T1 & T2 & T3 & T4 & HM).
  apply returns_ok. split.
  - eapply zs_next; eassumption.
  - destruct Qr as (a & b & d & -> & Ra & Rb & Rc).
    destruct (r_add_ok _ ret _ _ _ _ _ _ _ _ RP Ra Rb Rc) as (Ra' & Rb' & Rc').
    eexists. split.
    + do 3 eexists. split; [reflexivity|]. cbn [q_a q_b q_c].
      split; [apply rep_add; [exact Ra'|exact T1]|]. split; [apply rep_add; [exact Rb'|exact T2]|].
      apply rep_add; [apply rep_add; [exact Rc'|exact T4]|exact T3].
    + intro t. unfold zround. rewrite <- Hq, HM. cbn [peval length Fpow]. ring.
Qed.

Variable ru : list F.
Hypothesis Hru : length ru = n.
Lemma zk_phase2_update_ok : forall R z prev, S (length R) < n -> zs N n c cu cv V M A true ru R z0 z ->
  rep prev (last R 0%F) ->
  returns (zk_phase2_update z prev (length R)) (fun res => let '(poly, z') := res in
    (forall a, zs N n c cu cv V M A true ru (R ++ [a]) z0 z') /\
    exists q, qrep poly q /\ forall t, peval q t = zround n c (cu + cv)%F V M A ru R t).
Proof.
  intros R z prev HR Z Rp. unfold zk_phase2_update.
  eapply returns_bind; [apply (table_round_ok bind_next2 next2_ok N n (z_p z) V M A R prev ltac:(lia) (zs_tabs _ _ _ _ _ _ _ _ _ _ _ _ _ Z) Rp)|].
  intros [ret p'] (TB & EX & q & Qr & Hq). cbv zeta.
  assert (El : p_length_u p' = n /\ p_length_v p' = n).
  { destruct EX as (lV & lA & lM & ->). destruct (zs_pp _ _ _ _ _ _ _ _ _ _ _ _ _ Z) as (k & l1 & l2 & l3 & ->).
    cbn [set_arrays p_length_u p_length_v]. split; assumption. }
  destruct El as [-> ->]. replace (n + n) with (2 * n) by lia.
  replace (length R + n) with (length ru + length R) by lia.
  destruct (r_step_ok true false _ _ _ _ _ _ Rp (zs_r _ _ _ _ _ _ _ _ _ _ _ _ _ Z)) as (RP & RS & U1 & V1).
  set (r' := r_step true false (length R) prev (z_r z)) in *.
  eapply returns_bind.
  { apply (zmask_ok n c (z_m z) ru R prev true Hn (or_intror Hru) HR (zs_m _ _ _ _ _ _ _ _ _ _ _ _ _ Z) Rp).
    symmetry. apply Nat.ltb_lt. lia. }
  intros [[[t1 t2] t3] m'] (MS & EM & a1 & b1 & d1 & e1 & T1 & T2 & T3 & T4 & HM).
  apply returns_ok. split.
  - eapply zs_next; eassumption.
  - destruct Qr as (a & b & d & -> & Ra & Rb & Rc).
    destruct (r_add_ok _ ret _ _ _ _ _ _ _ _ RP Ra Rb Rc) as (Ra' & Rb' & Rc').
    eexists. split.
    + do 3 eexists. split; [reflexivity|]. cbn [q_a q_b q_c].
      split; [apply addm_modv, addm_ok; [exact Ra'|exact T1]|]. split; [apply addm_modv, addm_ok; [exact Rb'|exact T2]|].
      apply addm_modv, addm3_ok; [exact Rc'|exact T4|exact T3].
    + intro t. unfold zround. rewrite <- Hq, HM. cbn [peval length Fpow]. ring.
Qed.
End Rounds.

(** ** The last round of a phase *)
(** The masked factor: [S] the coefficients of the mask sum, [d x + e] the
    multiplier, [z] the product of the earlier [r(1-r)]. *)
Lemma last_terms_ok : forall S ms Zt ret a b c d e z qa qb qc,
  rep (q_a S) a -> rep (q_b S) b -> rep (q_c S) c -> rep (l_a ms) d -> rep (l_b ms) e -> rep Zt z ->
  rep (q_a ret) qa -> rep (q_b ret) qb -> rep (q_c ret) qc ->
  let '((p5, p4, p3), q) := last_terms S ms Zt ret in
  rep p5 ((0 - a) * d * z)%F /\ rep p4 ((a * (d - e) - b * d) * z)%F /\ rep p3 ((a * e + b * (d - e) - c * d) * z)%F /\
  rep (q_a q) (qa + (c * (d - e) + b * e) * z)%F /\ rep (q_b q) (qb + c * e * z)%F /\ rep (q_c q) qc.
Proof.
  intros S ms Zt ret a b c d e z qa qb qc Ra Rb Rc Rd Re Rz R1 R2 R3. unfold last_terms. cbn [q_a q_b q_c].
  assert (Rde : rep (fe_sub (l_a ms) (l_b ms)) (d - e)%F) by (apply rep_sub; assumption).
  split; [apply rep_mul; [apply rep_mul; [apply rep_sub; [exact rep_i0|exact Ra]|exact Rd]|exact Rz]|].
  split; [apply rep_mul; [apply rep_sub; apply rep_mul; assumption|exact Rz]|].
  split; [apply rep_mul; [apply rep_sub; [apply rep_add; apply rep_mul; assumption|apply rep_mul; assumption]|exact Rz]|].
  split; [apply rep_add; [exact R1|apply rep_mul; [apply rep_add; apply rep_mul; assumption|exact Rz]]|].
  split; [apply rep_add; [exact R2|apply rep_mul; [apply rep_mul; assumption|exact Rz]]|exact R3].
Qed.
(** What is added in the last round: [M(t) z t (1-t) S(t)]. *)
Definition zlast (Mt : nat -> F) (z : F) (S : F -> F) (t : F) : F := (fold1 t Mt 0 * z * (t * (1 - t)) * S t)%F.

(** The mask's share of the last round of a phase. *)
Lemma zmask5_ok : forall n c Mp pre R prev dosumr h, 0 < n -> (length pre = 0 /\ h = 1 \/ length pre = n /\ h = 4) -> S (length R) = n ->
  mstate n c Mp (length pre + length R) (qsum c n (pre ++ removelast R)) -> rep prev (last R 0%F) ->
  dosumr = (0 <? length pre + length R) ->
  returns (mask_round5 Mp (2 * n) (length pre + length R) h dosumr prev) (fun x => let '(t1, t2, t3, (t4, t5, t6), M') := x in
    mstate n c M' (length pre + S (length R)) (qsum c n (pre ++ R)) /\ (exists sc sr, M' = set_sums Mp sc sr) /\
    exists a b d d' e4 e5 e6, rep t1 a /\ rep t2 b /\ rep t3 d /\ rep (m_sumc M') d' /\ rep t4 e4 /\ rep t5 e5 /\ rep t6 e6 /\
      forall t, mround c n (pre ++ R) t = (e4 * Fpow t 5 + e5 * Fpow t 4 + e6 * Fpow t 3 + a * (t * t) + b * t + d + d')%F).
Proof.
  intros n c Mp pre R prev dosumr h Hn Hp HR MS Rp Ed.
  set (j := length pre + length R).
  assert (Eq : qsum c n (pre ++ R) = if dosumr then (qsum c n (pre ++ removelast R) + lo c (j - 1) (last R 0))%F
                                     else qsum c n (pre ++ removelast R)).
  { subst dosumr j. destruct (Nat.ltb_spec 0 (length pre + length R)).
    - destruct (Nat.eq_dec (length R) 0) as [E|E].
      + apply length_zero_iff_nil in E. subst R. cbn [removelast last]. rewrite lo_0. ring.
      + symmetry. apply qsum_step; lia.
    - assert (E : length R = 0) by lia. apply length_zero_iff_nil in E. subst R. reflexivity. }
  eapply returns_conseq.
  { apply (mask_round5_ok n c Mp j h (qsum c n (pre ++ removelast R)) dosumr prev (last R 0%F) MS Hn); subst j; try lia; [| |exact Rp].
    - intro E. rewrite E in Ed. symmetry in Ed. apply Nat.ltb_lt in Ed. exact Ed.
    - intro E. rewrite E in Ed. symmetry in Ed. apply Nat.ltb_ge in Ed.
      assert (E1 : length R = 0) by lia. assert (E2 : length pre = 0) by lia.
      apply length_zero_iff_nil in E1. apply length_zero_iff_nil in E2. subst. reflexivity. }
  intros [[[[t1 t2] t3] [[t4 t5] t6]] M']. cbv zeta. rewrite <- Eq. intros (R1 & R2 & R3 & R4 & R5 & R6 & MS' & EX).
  replace (length pre + S (length R)) with (S j) by (subst j; lia).
  split; [exact MS'|]. split; [exact EX|].
  do 7 eexists. split; [exact R1|]. split; [exact R2|]. split; [exact R3|]. split; [exact (ms_sumc _ _ _ _ _ MS')|].
  split; [exact R4|]. split; [exact R5|]. split; [exact R6|].
  intro t. unfold mround, qv, lo. rewrite app_length. fold j.
  destruct Hp as [[Hp ->]|[Hp ->]].
  - destruct (Nat.eqb_spec j (n - 1)); [|subst j; lia]. destruct (Nat.eqb_spec j (2 * n - 1)); [subst j; lia|]. cbn [ind]. unfold hi. ring.
  - destruct (Nat.eqb_spec j (n - 1)); [subst j; lia|]. destruct (Nat.eqb_spec j (2 * n - 1)); [|subst j; lia]. cbn [ind]. unfold hi. ring.
Qed.

Section Last.
Variables (N n : nat) (c : nat -> F) (cu cv : F) (V M A : nat -> F) (z0 : zprover) (sc : list F).
Hypothesis Hn : 0 < n.
Hypothesis Hlu : p_length_u (z_p z0) = n.
Hypothesis Hlv : p_length_v (z_p z0) = n.
Hypothesis Hsc : qrep (r_sumRc (z_r z0)) sc.

Lemma lastbit_finish_ok : forall ph2 pre R z prev p' r' Zt ret q h dosumr,
  (length pre = 0 /\ h = 1 \/ length pre = n /\ h = 4) -> S (length R) = n ->
  zs N n c cu cv V M A ph2 pre R z0 z -> rep prev (last R 0%F) ->
  (forall a, tabs_bound N n p' V M A (R ++ [a])) ->
  (exists lV lA lM, p' = set_arrays (z_p z) (2 ^ (n - S (length R))) lV lA lM) ->
  qrep ret q -> (forall t, peval q t = round (n - S (length R)) (folds R V) (folds R M) (folds R A) t) ->
  rphase ph2 r' cu cv pre R -> rsame (z_r z) r' -> r_preu1 r' = r_preu1 (z_r z) -> r_prev1 r' = r_prev1 (z_r z) ->
  rep Zt (zp R) -> dosumr = (0 <? length pre + length R) ->
  returns (lastbit_finish z p' r' Zt true (length pre + length R) h dosumr prev ret) (fun res => let '(poly, z') := res in
    (forall a, zs N n c cu cv V M A ph2 pre (R ++ [a]) z0 z') /\
    exists q, prep poly q /\
      forall t, peval q t = (zround n c (cu + cv) V M A pre R t + zlast (folds R M) (zp R) (peval sc) t)%F).
Proof.
  intros ph2 pre R z prev p' r' Zt ret q h dosumr Hp HR Z Rp TB EX Qr Hq RP RS U1 V1 RZ Ed. unfold lastbit_finish. cbv zeta.
  destruct (bound_last N n (p_addmult p') M R HR) as (ms & Ems & Rd & Re); [intro a; apply (TB a)|].
  eapply rb_nth; [exact Ems|].
  assert (El : p_length_u p' + p_length_v p' = 2 * n).
  { destruct EX as (lV & lA & lM & ->). destruct (zs_pp _ _ _ _ _ _ _ _ _ _ _ _ _ Z) as (k & l1 & l2 & l3 & ->).
    cbn [set_arrays p_length_u p_length_v]. lia. }
  rewrite El.
  destruct Qr as (a & b & d & -> & Ra & Rb & Rc).
  destruct (r_add_ok _ ret _ _ _ _ _ _ _ _ RP Ra Rb Rc) as (Ra' & Rb' & Rc').
  assert (ES : r_sumRc r' = r_sumRc (z_r z0)).
  { rewrite (rs_sumRc _ _ RS). apply (rs_sumRc _ _ (zs_rr _ _ _ _ _ _ _ _ _ _ _ _ _ Z)). }
  rewrite ES. destruct Hsc as (sa & sb & sd & Esc & RSa & RSb & RSc).
  pose proof (last_terms_ok _ _ _ _ _ _ _ _ _ _ _ _ _ RSa RSb RSc Rd Re RZ Ra' Rb' Rc') as LT.
  destruct (last_terms (r_sumRc (z_r z0)) ms Zt (r_add r' ret)) as [[[p5 p4] p3] ret'].
  destruct LT as (L5 & L4 & L3 & L2 & L1 & L0).
  eapply returns_bind.
  { apply (zmask5_ok n c (z_m z) pre R prev dosumr h Hn Hp HR (zs_m _ _ _ _ _ _ _ _ _ _ _ _ _ Z) Rp Ed). }
  intros [[[[t1 t2] t3] [[t4 t5] t6]] m'] (MS & EM & a1 & b1 & d1 & e1 & e4 & e5 & e6 & T1 & T2 & T3 & T4 & T5 & T6 & T7 & HM).
  apply returns_ok. split.
  - eapply zs_next; eassumption.
  - eexists. split.
    + do 6 eexists. split; [reflexivity|]. cbn [p_a p_b p_c p_d p_e p_f].
      split; [apply rep_add; [exact L5|exact T5]|]. split; [apply rep_add; [exact L4|exact T6]|].
      split; [apply rep_add; [exact L3|exact T7]|]. split; [apply addm_ok; [exact L2|exact T1]|].
      split; [apply addm_ok; [exact L1|exact T2]|]. apply addm3_ok; [exact L0|exact T4|exact T3].
    + intro t. unfold zround, zlast. rewrite <- Hq, HM, Esc. unfold fold1. cbn [peval length Fpow Nat.mul Nat.add]. ring.
Qed.

Lemma zk_phase1_lastbit_ok : forall R z prev, S (length R) = n -> zs N n c cu cv V M A false [] R z0 z ->
  rep prev (last R 0%F) ->
  returns (zk_phase1_lastbit z prev (length R)) (fun res => let '(poly, z') := res in
    (forall a, zs N n c cu cv V M A false [] (R ++ [a]) z0 z') /\
    exists q, prep poly q /\
      forall t, peval q t = (zround n c (cu + cv) V M A [] R t + zlast (folds R M) (zp R) (peval sc) t)%F).
Proof.
  intros R z prev HR Z Rp. unfold zk_phase1_lastbit.
  eapply returns_bind; [apply (table_round_ok bind_next1 next1_ok N n (z_p z) V M A R prev ltac:(lia) (zs_tabs _ _ _ _ _ _ _ _ _ _ _ _ _ Z) Rp)|].
  intros [ret p'] (TB & EX & q & Qr & Hq). cbv zeta.
  assert (El : p_length_u p' = n).
  { destruct EX as (lV & lA & lM & ->). destruct (zs_pp _ _ _ _ _ _ _ _ _ _ _ _ _ Z) as (k & l1 & l2 & l3 & ->). exact Hlu. }
  rewrite El. replace (length R + 1 =? n) with true by (symmetry; apply Nat.eqb_eq; lia).
  destruct (r_step_ok false true _ _ _ _ _ _ Rp (zs_r _ _ _ _ _ _ _ _ _ _ _ _ _ Z)) as (RP & RS & U1 & V1).
  apply (lastbit_finish_ok false [] R z prev p' _ _ ret q 1 (0 <? length R)); try assumption; try reflexivity.
  - left. split; reflexivity.
  - exact (rd_zu _ _ _ _ _ _ RP).
Qed.
Lemma zk_phase2_lastbit_ok : forall ru R z prev, length ru = n -> S (length R) = n -> zs N n c cu cv V M A true ru R z0 z ->
  rep prev (last R 0%F) ->
  returns (zk_phase2_lastbit z prev (length R)) (fun res => let '(poly, z') := res in
    (forall a, zs N n c cu cv V M A true ru (R ++ [a]) z0 z') /\
    exists q, prep poly q /\
      forall t, peval q t = (zround n c (cu + cv) V M A ru R t + zlast (folds R M) (zp R) (peval sc) t)%F).
Proof.
  intros ru R z prev Hru HR Z Rp. unfold zk_phase2_lastbit.
  eapply returns_bind; [apply (table_round_ok bind_next2 next2_ok N n (z_p z) V M A R prev ltac:(lia) (zs_tabs _ _ _ _ _ _ _ _ _ _ _ _ _ Z) Rp)|].
  intros [ret p'] (TB & EX & q & Qr & Hq). cbv zeta.
  assert (El : p_length_u p' = n /\ p_length_v p' = n).
  { destruct EX as (lV & lA & lM & ->). destruct (zs_pp _ _ _ _ _ _ _ _ _ _ _ _ _ Z) as (k & l1 & l2 & l3 & ->).
    split; [exact Hlu|exact Hlv]. }
  destruct El as [-> ->]. replace (length R + 1 =? n) with true by (symmetry; apply Nat.eqb_eq; lia).
  replace (length R + n) with (length ru + length R) by lia.
  destruct (r_step_ok true true _ _ _ _ _ _ Rp (zs_r _ _ _ _ _ _ _ _ _ _ _ _ _ Z)) as (RP & RS & U1 & V1).
  apply (lastbit_finish_ok true ru R z prev p' _ _ ret q 4 true); try assumption; try reflexivity.
  - right. split; [exact Hru|reflexivity].
  - exact (rd_zv _ _ _ _ _ _ RP).
  - symmetry. apply Nat.ltb_lt. lia.
Qed.
End Last.
