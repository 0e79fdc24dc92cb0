(** * Soundness of the zk sum-check when announcements and openings are true *)
From Coq Require Import ZArith List Bool Arith Lia Ring.
From Verif Require Import Limbs Field Fp Base ArithProofs MleSpec GkrMath Poly PolyProofs Circuit
  FastProver FastVerifier Lazy TablesProofs FastProverProofs PhaseProofs FastVerifierProofs SpecGkr SpecVpd SpecZk
  VpdGroup VpdR VpdMask VpdInput VpdGroupProofs Transcript TranscriptProofs Count SoundProofs SumGame
  ZkEval ZkProver ZkVerifier ZkPhaseProofs ZkMaskProofs ZkRoundProofs ZkLayerProofs ZkPredProofs ZkOpenProofs ZkLinkProofs
  ZkVerifierProofs ZkFacts ZkIdeal ZkTarget ZkSoundProofs ZkSoundLayer.
Import ListNotations.
Open Scope nat_scope.

Lemma red_fz : forall a, red (fz a).
Proof. intro a. apply fz_range. Qed.
Lemma rep_mpz_fz : forall a, rep (fe_of_mpz (fz a)) a.
Proof. intro a. eapply rep_eq; [apply fe_of_mpz_ok, red_fz|apply ofZ_fz]. Qed.
Lemma removelast_snoc : forall A (l : list A) x, removelast (l ++ [x]) = l.
Proof. intros. apply removelast_last. Qed.

Lemma mask_poly_same : forall d c x y, (forall i, x i = y i) -> mask_poly d c x = mask_poly d c y.
Proof.
  intros d c x y H. unfold mask_poly. cbv zeta. rewrite !H.
  rewrite (sumn_ext d _ (fun i => c (2 * i)%nat * (y i * y i) + c (2 * i + 1)%nat * y i)%F); [reflexivity|].
  intros i _. rewrite H. reflexivity.
Qed.
Section TrueMasks.
Context {S : Type}.
Variable D : masks S.
Variable I : zprover_if S.
Hypothesis TI : ztyped I.
Let J := true_masks D I.

Lemma true_typed : ztyped J.
Proof.
  constructor; cbn [J true_masks zi_phase1_update zi_phase1_lastbit zi_phase2_update zi_phase2_lastbit zi_finalize zi_finalround zi_v_u].
  - intros s x j q s' E. apply bind_inv in E. destruct E as ([q' s1] & E1 & E). apply Ok_inj in E. injection E as <- _. exact (zt_1 I TI _ _ _ _ _ E1).
  - intros s x j q s' E. apply bind_inv in E. destruct E as ([q' s1] & E1 & E). apply Ok_inj in E. injection E as <- _. exact (zt_1l I TI _ _ _ _ _ E1).
  - intros s x j q s' E. apply bind_inv in E. destruct E as ([q' s1] & E1 & E). apply Ok_inj in E. injection E as <- _. exact (zt_2 I TI _ _ _ _ _ E1).
  - intros s x j q s' E. apply bind_inv in E. destruct E as ([q' s1] & E1 & E). apply Ok_inj in E. injection E as <- _. exact (zt_2l I TI _ _ _ _ _ E1).
  - intros s x u v s' E. apply bind_inv in E. destruct E as ([[u' v'] s1] & E1 & E). apply Ok_inj in E. injection E as <- <- _. exact (zt_f I TI _ _ _ _ _ E1).
  - intros s x n y q s' E. apply bind_inv in E. destruct E as ([q' s1] & E1 & E). apply Ok_inj in E. injection E as <- _. exact (zt_r I TI _ _ _ _ _ _ E1).
  - intros s. apply (zt_v I TI).
Qed.

(** ** What the wrapper knows *)
Section Ghost.
Variable b : nat.
Hypothesis Hb : 1 <= b.
Variable gen : list F -> list F -> fe -> fe -> outcome fe.
Variable g0 : ghost.

(** The ghost after the message for the prefix [pre], and before it. *)
Definition gafter (pre : list F) : ghost :=
  if length pre <? b then g0 else set_uv g0 (fes (firstn b pre)) (fes (skipn b pre)).
Definition gbefore (pre : list F) : ghost := match pre with [] => g0 | _ => gafter (removelast pre) end.
Lemma gbefore_snoc : forall pre t, gbefore (pre ++ [t]) = gafter pre.
Proof. intros pre t. unfold gbefore. destruct (pre ++ [t]) eqn:E; [destruct pre; discriminate|]. rewrite <- E, removelast_snoc. reflexivity. Qed.
Lemma snoc_cases : forall (R : list F), R = [] \/ exists R' t, R = R' ++ [t].
Proof. intro R. destruct R as [|t R] using rev_ind; eauto. Qed.
Lemma ghost_msg : forall pre s vv p s' g' vv', length pre < 2 * b + 1 ->
  zmsg J b gen pre ((s, gbefore pre), vv) = Ok (p, ((s', g'), vv')) -> g' = gafter pre.
Proof.
  intros pre s vv p s' g' vv' Hl E. unfold zmsg in E. unfold gafter.
  destruct (Nat.ltb_spec (length pre) b) as [H1|H1].
  - assert (Eg : gbefore pre = g0).
    { unfold gbefore. destruct pre as [|x pre]; [reflexivity|]. unfold gafter.
      destruct (Nat.ltb_spec (length (removelast (x :: pre))) b) as [_|H]; [reflexivity|].
      rewrite removelast_firstn_len, firstn_length in H. cbn [length] in *. lia. }
    rewrite Eg in E. cbv zeta in E. cbn [J true_masks zi_phase1_update zi_phase1_lastbit fst snd] in E.
    destruct (length pre + 1 =? b); apply bind_inv in E; destruct E as ([q [s1 g1]] & E1 & E);
      apply bind_inv in E1; destruct E1 as ([q' s2] & _ & E1); apply Ok_inj in E1; injection E1 as _ _ <-;
      apply Ok_inj in E; injection E as _ _ <- _; reflexivity.
  - cbv zeta in E. destruct (split_at b Hb pre H1) as (ru & R & -> & Lu & _).
    rewrite app_length, Lu in Hl, H1, E.
    destruct (firstn_len_app b Hb ru R Lu) as [E1 E2]. rewrite E1, E2 in E |- *. clear E1 E2.
    (* the ghost before *)
    assert (Eg : R = [] /\ gbefore (ru ++ R) = g0 \/ exists R' t, R = R' ++ [t] /\ gbefore (ru ++ R) = set_uv g0 (fes ru) (fes R')).
    { destruct (snoc_cases R) as [->|(R' & t & ->)].
      - left. split; [reflexivity|]. rewrite app_nil_r. destruct (snoc_cases ru) as [->|(ru' & t & ->)]; [reflexivity|].
        rewrite gbefore_snoc. unfold gafter. rewrite app_length in Lu. cbn [length] in Lu.
        destruct (Nat.ltb_spec (length ru') b); [reflexivity|lia].
      - right. exists R', t. split; [reflexivity|]. rewrite app_assoc, gbefore_snoc. unfold gafter. rewrite app_length, Lu.
        destruct (Nat.ltb_spec (b + length R') b); [lia|]. destruct (firstn_len_app b Hb ru R' Lu) as [-> ->]. reflexivity. }
    destruct (Nat.ltb_spec (b + length R) (2 * b)) as [H2|H2].
    + apply bind_inv in E. destruct E as ([s1 g1] & EI & E).
      assert (Eg1 : see_v g1 (fe_of (last R 0%F)) (length R) = set_uv g0 (fes ru) (fes R)).
      { destruct Eg as [[-> Eg]|(R' & t & -> & Eg)]; rewrite Eg in EI.
        - cbn [length Nat.eqb J true_masks zi_phase2_init fst snd] in EI. apply bind_inv in EI. destruct EI as (s2 & _ & EI).
          apply Ok_inj in EI. injection EI as _ <-. reflexivity.
        - rewrite app_length in EI |- *. cbn [length] in EI |- *. rewrite Nat.add_1_r in EI |- *. cbn [Nat.eqb] in EI.
          apply Ok_inj in EI. injection EI as _ <-. unfold see_v. cbn [Nat.eqb]. rewrite last_last, fes_app. reflexivity. }
      cbn [J true_masks zi_phase2_update zi_phase2_lastbit fst snd] in E.
      destruct (length R + 1 =? b); apply bind_inv in E; destruct E as ([q [s2 g2]] & E1 & E);
        apply bind_inv in E1; destruct E1 as ([q' s3] & _ & E1); apply Ok_inj in E1; injection E1 as _ _ <-;
        apply Ok_inj in E; injection E as _ _ <- _; exact Eg1.
    + destruct Eg as [[-> _]|(R' & t & -> & Eg)]; [cbn [length] in H2; lia|]. rewrite Eg in E.
      cbn [J true_masks zi_finalize zi_finalround fst snd set_uv gh_u gh_v] in E. 
      apply bind_inv in E. destruct E as ([[vu v_v] [s1 g1]] & E1 & E).
      apply bind_inv in E1. destruct E1 as ([q' s2] & _ & E1). apply Ok_inj in E1. injection E1 as _ _ <-.
      apply bind_inv in E. destruct E as (x & _ & E). apply bind_inv in E. destruct E as ([q [s3 g3]] & E1 & E).
      apply bind_inv in E1. destruct E1 as ([q'' s4] & _ & E1). apply Ok_inj in E1. injection E1 as _ _ <-.
      apply Ok_inj in E. injection E as _ _ <- _. rewrite last_last, fes_app. reflexivity.
Qed.
Lemma ghost_play : forall R pre sum s vv w' s' g' vv', length (pre ++ R) <= 2 * b + 1 ->
  play (zmsg J b gen) R pre sum ((s, gbefore pre), vv) = Ok (w', ((s', g'), vv')) -> g' = gbefore (pre ++ R).
Proof.
  induction R as [|t R IH]; intros pre sum s vv w' s' g' vv' Hl E; cbn [play] in E.
  - apply Ok_inj in E. injection E as _ _ <- _. rewrite app_nil_r. reflexivity.
  - apply bind_inv in E. destruct E as ([p [[s1 g1] vv1]] & E1 & E).
    apply ghost_msg in E1; [|rewrite app_length in Hl; cbn [length] in Hl; lia]. subst g1.
    destruct (F_eq_dec _ _); [|discriminate]. rewrite <- (gbefore_snoc pre t) in E.
    replace (pre ++ t :: R) with ((pre ++ [t]) ++ R) in * by (rewrite <- app_assoc; reflexivity).
    eapply IH; eassumption.
Qed.
End Ghost.

(** ** True openings *)
Lemma prepreu1_eq : forall s g, zi_prepreu1 J (s, g) = fe_of (last (flds (gh_r0 g)) 0%F).
Proof. reflexivity. Qed.
Lemma preprev1_eq : forall s g, zi_preprev1 J (s, g) = fe_of (last (flds (gh_r1 g)) 0%F).
Proof. reflexivity. Qed.
Lemma prove_R_inv : forall s g x y v w wa s', zi_prove_R J (s, g) [fz x; fz y] = Ok (v, w, wa, s') ->
  v = fz (poly_R (fun j => nth j (md_value D (gh_i g)) 0%F) x y) /\ exists s1, s' = (s1, g).
Proof.
  intros s g x y v w wa s' E. unfold J, true_masks, zi_prove_R at 1 in E. change (fst (s, g)) with s in E. change (snd (s, g)) with g in E.
  apply bind_inv in E. destruct E as ([[[x' w'] wa'] s1'] & _ & E). apply Ok_inj in E.
  change (nth 0 [fz x; fz y] 0%Z) with (fz x) in E. change (nth 1 [fz x; fz y] 0%Z) with (fz y) in E. rewrite !ofZ_fz in E. split; [congruence|]. exists s1'. congruence.
Qed.
Lemma prove_mask_inv : forall s g r v w wa s', zi_prove_mask J (s, g) r = Ok (v, w, wa, s') ->
  v = fz (mask_poly (gh_d g) (fun j => nth j (gh_c g) 0%F) (fun j => ofZ (nth j r 0%Z))) /\ exists s1, s' = (s1, g).
Proof.
  intros s g r v w wa s' E. unfold J, true_masks, zi_prove_mask at 1 in E. change (fst (s, g)) with s in E. change (snd (s, g)) with g in E.
  apply bind_inv in E. destruct E as ([[[x' w'] wa'] s1'] & _ & E). apply Ok_inj in E. cbv zeta in E.
  split; [congruence|]. exists s1'. congruence.
Qed.
Lemma open_R_true : forall enc rc d t s g v1 v2 ok t' s', open_R enc J (fe_of rc) d t (s, g) = Ok (v1, v2, ok, t', s') ->
  let mk := fun j => nth j (md_value D (gh_i g)) 0%F in
  (exists s1, s' = (s1, g)) /\ v1 = fz (poly_R mk (last (flds (gh_r0 g)) 0%F) rc) /\ v2 = fz (poly_R mk (last (flds (gh_r1 g)) 0%F) rc).
Proof.
  intros enc rc d t s g v1 v2 ok t' s' E mk. unfold open_R in E.
  rewrite prepreu1_eq, !(gmp_ok _ _ (rep_fe_of _)), !bind_Ok in E.
  apply bind_inv in E. destruct E as ([[[x w] wa] s1] & E1 & E).
  apply prove_R_inv in E1. destruct E1 as [-> [s1' ->]]. 
  apply bind_inv in E. destruct E as (b1 & _ & E). 
  rewrite preprev1_eq, (gmp_ok _ _ (rep_fe_of _)), bind_Ok in E.
  apply bind_inv in E. destruct E as ([[[y w2] wa2] s2] & E2 & E).
  apply prove_R_inv in E2. destruct E2 as [-> [s2' ->]]. 
  apply bind_inv in E. destruct E as (b2 & _ & E).
  apply Ok_inj in E. unfold mk. split; [|split; congruence]. exists s2'. congruence.
Qed.
Lemma open_mask_true : forall enc n ru rv rc d t s g v ok t' s', length ru = n -> length rv = n ->
  open_mask enc J n (fes ru) (fes rv) (fe_of rc) d t (s, g) = Ok (v, ok, t', s') ->
  (exists s1, s' = (s1, g)) /\ v = fz (mask_poly (gh_d g) (fun j => nth j (gh_c g) 0%F) (fun j => nth j (ru ++ rv ++ [rc]) 0%F)).
Proof.
  intros enc n ru rv rc d t s g v ok t' s' Lu Lv E. unfold open_mask in E.
  rewrite !firstn_all2 in E by (rewrite fes_length; lia).
  rewrite !(gmps_ok _ _ (reps_fes _)), !bind_Ok, (gmp_ok _ _ (rep_fe_of _)), bind_Ok in E. cbv zeta in E.
  apply bind_inv in E. destruct E as ([[[x w] wa] s1] & E1 & E).
  apply prove_mask_inv in E1. destruct E1 as [-> [s1' ->]]. 
  apply bind_inv in E. destruct E as (b1 & _ & E).
  apply Ok_inj in E. split; [exists s1'; congruence|]. 
  match type of E with (?a, _, _, _) = _ => transitivity a; [congruence|] end.
  f_equal. apply mask_poly_same. intro j.
  change [fz rc] with (map fz [rc]). rewrite <- !map_app. apply ofZ_nth_fz.
Qed.
End TrueMasks.

(** ** One layer *)
(** The verifier's state holds a claim about layer [i]. *)
Record zvst {S} (C : layered_circuit) (m i : nat) (st : zvstate S) (a be : F) (R0 R1 : list F) : Prop := {
  zs_a : rep (t_alpha st) a; zs_b : rep (t_beta st) be;
  zs_r0 : reps (t_r0 st) R0; zs_r1 : reps (t_r1 st) R1;
  zs_o0 : reps (t_o0 st) (comp R0); zs_o1 : reps (t_o1 st) (comp R1);
  zs_l0 : length R0 = bit_length (layer_at C i); zs_l1 : length R1 = bit_length (layer_at C i);
  zs_B : bsizes m (t_B st) }.

Section TrueLayer.
Context {S : Type}.
Variable enc : F -> list Z.
Variable D : masks S.
Variable I : zprover_if S.
Hypothesis TI : ztyped I.
Variables (C : layered_circuit) (m i : nat).
Hypothesis CC : zcomplete_circuit C.
Hypothesis Hi : 1 < i < total_depth C.
Hypothesis Hm : forall k, k < total_depth C -> bit_length (layer_at C k) <= m.
Let J := true_masks D I.
Let L := layer_at C i.
Let lg := bit_length L.
Let b := bit_length (layer_at C (i - 1)).
Let V := vals C (i - 1).
Let mk := md_value D i.
Let mk' := md_value D (i - 1).
Let G x := poly_R (fun j => nth j mk 0%F) x.
Definition lM2 (a be : F) (R0 R1 : list F) (vu : F) (ru : list F) : nat -> F :=
  scat (2 ^ lg) (tM2 (gate_at L) (gw a be R0 R1) vu (eqw ru)).
Definition lA2 (a be : F) (R0 R1 : list F) (vu : F) (ru : list F) : nat -> F :=
  scat (2 ^ lg) (tA2 (gate_at L) (gw a be R0 R1) vu (eqw ru)).
(** The mask polynomial times [rho]. *)
Definition lc (s2 : S * ghost) (rho : F) : nat -> F := fun j => (nth j (md_poly D (fst s2) i) 0 * rho)%F.

Lemma Lb : 1 <= b.
Proof. destruct (zc_bits C CC (i - 1) ltac:(lia)) as [H _]. exact H. Qed.

Lemma setup_ghost : forall st dR dRa dM dMa s2, zsetup J C i st = Ok (dR, dRa, dM, dMa, s2) ->
  snd s2 = Ghost i (t_r0 st) (t_r1 st) (b * 2 + 1) (md_poly D (fst s2) i) fe_zero [] [].
Proof.
  intros st dR dRa dM dMa s2 E. unfold zsetup in E.
  apply bind_inv in E. destruct E as ([[d1 d2] s1] & E1 & E).
  unfold J, true_masks, zi_sumcheck_init at 1 in E1.
  apply bind_inv in E1. destruct E1 as ([[e1 e2] s1'] & _ & E1). apply Ok_inj in E1. injection E1 as _ _ <-.
  apply bind_inv in E. destruct E as ([[d3 d4] s3] & E2 & E).
  unfold J, true_masks, zi_pre_rho at 1 in E2.
  apply bind_inv in E2. destruct E2 as ([[e3 e4] s2'] & _ & E2). cbv zeta in E2. apply Ok_inj in E2. injection E2 as _ _ <-.
  apply Ok_inj in E. injection E as _ _ _ _ <-. reflexivity.
Qed.
Lemma setup2_ghost : forall s2 rho s4 s5, zsetup2 J C i s2 rho = Ok (s4, s5) ->
  let g := snd s2 in let g' := Ghost (gh_i g) (gh_r0 g) (gh_r1 g) (gh_d g) (gh_c g) (fe_of rho) (gh_u g) (gh_v g) in
  snd s4 = g' /\ snd s5 = g'.
Proof.
  intros s2 rho s4 s5 E. unfold zsetup2 in E.
  apply bind_inv in E. destruct E as (s4' & E1 & E).
  unfold J, true_masks, zi_after_rho at 1, zi_set_rho at 1 in E1.
  apply bind_inv in E1. destruct E1 as (s1' & _ & E1). apply Ok_inj in E1. subst s4'.
  apply bind_inv in E. destruct E as (s5' & E2 & E).
  unfold J, true_masks, zi_phase1_init at 1 in E2.
  apply bind_inv in E2. destruct E2 as (s2' & _ & E2). apply Ok_inj in E2. subst s5'.
  apply Ok_inj in E. injection E as <- <-. split; reflexivity.
Qed.
Lemma sumc_true : forall s4 dR, gh_d (snd s4) = b * 2 + 1 -> gh_c (snd s4) = md_poly D dR i -> forall rho, gh_rho (snd s4) = fe_of rho ->
  zi_sumc J s4 = fe_of (Mk (fun j => nth j (md_poly D dR i) 0 * rho)%F b []).
Proof.
  intros s4 s Ed Ec rho Er. unfold J, true_masks, zi_sumc at 1. cbv zeta. rewrite Ed, Ec, Er, fld_of. f_equal.
  rewrite Mk_nil, (Nat.mul_comm b 2). pose proof Lb as Hb.
  rewrite <- (hyper_mask (fun j => nth j (md_poly D s i) 0 * rho)%F b Hb).
  unfold hyper. rewrite <- sumn_scal. apply sumn_ext. intros x _. symmetry. apply mask_poly_scal.
Qed.

Lemma predicates_true : forall (st : zvstate (S * ghost)) a be R0 R1 ru rv BB pv, zvst C m i st a be R0 R1 -> length ru = b -> length rv = b ->
  zpreds C i st ru rv = Ok (BB, pv) ->
  bsizes m BB /\ forall v_u v_v vu vv, rep v_u vu -> rep v_v vv ->
    let x := gval (lM2 a be R0 R1) (lA2 a be R0 R1) vu vv ru rv in
    returns (zgeneral' pv v_u v_v) (fun y => rep y x).
Proof.
  intros st a be R0 R1 ru rv BB pv [Za Zb Z0 Z1 Zo0 Zo1 Zl0 Zl1 ZB] Lu Lv E. unfold zpreds in E.
  apply bind_inv in E. destruct E as (BB' & E1 & E). apply bind_inv in E. destruct E as (pv' & E2 & E).
  apply Ok_inj in E. injection E as -> ->.
  assert (Hi' : 0 < i < total_depth C) by lia.
  assert (Ei : (i =? 1) = false) by (apply Nat.eqb_neq; lia).
  pose proof (zgeneral_value C m i CC Hi' Hm (t_B st) (t_alpha st) (t_beta st) (t_r0 st) (t_r1 st) (fes ru) (fes rv)
    (t_o0 st) (t_o1 st) (fes (comp ru)) (fes (comp rv)) a be R0 R1 ru rv) as K.
  rewrite Ei in K. cbv zeta in K. unfold rv_point in K.
  specialize (K Z0 Z1 (reps_fes _) (reps_fes _) Zo0 Zo1 (reps_fes _) (reps_fes _) Zl0 Zl1 Lu Lv ZB Za Zb).
  pose proof (returns_inv _ _ _ _ K E1) as [ZB' K2]. cbv beta in K2. split; [exact ZB'|].
  pose proof (returns_inv _ _ _ _ K2 E2) as (PR & T & KP). cbv beta in KP.
  intros v_u v_v vu vv Ru Rv x.
  destruct (zgeneral_ok pv PR v_u v_v vu vv T Ru Rv) as [_ Q].
  eapply returns_conseq; [exact Q|]. intros y Hy. cbv beta in Hy. rewrite KP in Hy. exact Hy.
Qed.

Lemma zstep : forall rng st a be R0 R1 w rho ru rv rc al bt st',
  zvst C m i st a be R0 R1 -> rep (t_sum st) w -> length ru = b -> length rv = b ->
  follows rng (draws (t_tr st)) (rho :: ru ++ rv ++ [rc; al; bt]) ->
  zverify_layer enc rng J C i st = Ok st' ->
  exists dR dRa dM dMa s2 s4 s5 w' s9 v_u v_v,
    zsetup J C i st = Ok (dR, dRa, dM, dMa, s2) /\ zsetup2 J C i s2 rho = Ok (s4, s5) /\
    play (zmsg J b (zgen C i st)) (ru ++ rv ++ [rc]) [] (w + Mk (lc s2 rho) b [])%F (s5, (fe_zero, fe_zero)) = Ok (w', (s9, (v_u, v_v))) /\
    w' = (op (ru ++ rv) * (a * vanishing R0 * G (last R0 0) rc + be * vanishing R1 * G (last R1 0) rc) +
          gval (lM2 a be R0 R1) (lA2 a be R0 R1) (fld v_u) (fld v_v) ru rv * rc + Mk (lc s2 rho) b ((ru ++ rv) ++ [rc]))%F /\
    zvst C m (i - 1) st' al bt ru rv /\ rep (t_sum st') (al * fld v_u + bt * fld v_v)%F /\
    draws (t_tr st') = draws (t_tr st) + (2 * b + 4).
Proof.
  intros rng st a be R0 R1 w rho ru rv rc al bt st' VS Rw Lu Lv Fo E. pose proof Lb as Hb.
  destruct (zlayer_inv enc J (true_typed D I TI) C i CC Hi rng st a be w rho ru rv rc al bt st'
    (zs_a _ _ _ _ _ _ _ _ VS) (zs_b _ _ _ _ _ _ _ _ VS) Rw Lu Lv Fo E) as [K].
  destruct K as (dR & dRa & dM & dMa & s2 & s4 & s5 & w' & s9 & v_u & v_v & BB & pv & E1 & E2 & _ & _ & EP & EB & K).
  destruct K as (sum & vR1 & vR2 & vM & t7 & t8 & t9 & t11 & s10 & s11 & general & drv & EO & EM & EG & Rs & Rd & Rvu & Rvv & EN & Dr & ->).
  fold b in EP, EM, Dr.
  pose proof (setup_ghost _ _ _ _ _ _ E1) as G2. destruct (setup2_ghost _ _ _ _ E2) as [G4 G5].
  rewrite G2 in G4, G5. cbn [gh_i gh_r0 gh_r1 gh_d gh_c gh_u gh_v] in G4, G5.
  set (g0 := Ghost _ _ _ _ _ _ _ _) in G4, G5.
  assert (Esc : zi_sumc J s4 = fe_of (Mk (lc s2 rho) b [])).
  { apply sumc_true; rewrite G4; reflexivity. }
  rewrite Esc in EP, Rs. rewrite fld_of in EP. specialize (EP (rep_reduced _ _ (rep_fe_of _))).
  specialize (Rs (rep_reduced _ _ (rep_fe_of _))).
  exists dR, dRa, dM, dMa, s2, s4, s5, w', s9, v_u, v_v. split; [exact E1|]. split; [exact E2|]. split; [exact EP|].
  (* the ghost at the end *)
  destruct s5 as [z5 g5]. cbn [snd] in G5. subst g5. destruct s9 as [z9 g9].
  assert (G9 : g9 = set_uv g0 (fes ru) (fes rv)).
  { change g0 with (gbefore b g0 []) in EP.
    apply (ghost_play D I b Hb) in EP; [|cbn [app]; rewrite !app_length, Lu, Lv; cbn [length]; lia].
    rewrite EP. cbn [app]. rewrite app_assoc, gbefore_snoc. unfold gafter. rewrite app_length, Lu.
    destruct (Nat.ltb_spec (b + length rv) b); [lia|]. destruct (firstn_len_app b Hb ru rv Lu) as [-> ->]. reflexivity. }
  destruct (open_R_true D I enc rc dR t7 z9 g9 vR1 vR2 true t8 s10 EO) as [[z10 ->] [Ev1 Ev2]].
  destruct (open_mask_true D I enc b ru rv rc dM t8 z10 g9 vM true t9 s11 Lu Lv EM) as [[z11 ->] EvM].
  pose proof VS as [Za Zb Z0 Z1 Zo0 Zo1 Zl0 Zl1 ZB].
  destruct (predicates_true st a be R0 R1 ru rv BB pv VS Lu Lv EB) as [ZB' KG].
  pose proof (returns_inv _ _ _ _ (KG v_u v_v _ _ (rep_fld _ Rvu) (rep_fld _ Rvv)) EG) as Rg. cbv beta in Rg.
  split; [|split; [|split]].
  - assert (EI : zi_Iuv J (z11, g9) = fe_of (op (ru ++ rv))).
    { rewrite G9. unfold J, true_masks, zi_Iuv at 1. cbv zeta. cbn [snd set_uv gh_u gh_v].
      rewrite <- fes_app, flds_fes, prodn_op. reflexivity. }
    assert (Eu : zi_preZu J (z11, g9) = fe_of (vanishing R0)).
    { rewrite G9. unfold J, true_masks, zi_preZu at 1. cbn [snd set_uv gh_r0 g0]. rewrite (flds_reps _ _ Z0). reflexivity. }
    assert (Ev : zi_preZv J (z11, g9) = fe_of (vanishing R1)).
    { rewrite G9. unfold J, true_masks, zi_preZv at 1. cbn [snd set_uv gh_r1 g0]. rewrite (flds_reps _ _ Z1). reflexivity. }
    rewrite EI, Eu, Ev, Ev1, Ev2, EvM in EN. rewrite G9 in EN. cbn [set_uv gh_i gh_r0 gh_r1 gh_d gh_c g0] in EN.
    rewrite (flds_reps _ _ Z0), (flds_reps _ _ Z1) in EN.
    eapply (fne_inv sum); [exact Rs| |exact EN]. eapply rep_eq.
    + apply rep_add; [apply rep_add; [apply rep_add; [apply rep_add|]|]|].
      * apply rep_mul; [apply rep_fe_of|exact Rg].
      * apply rep_mul; [apply rep_mul; [apply rep_mul; [exact Za|apply rep_fe_of]|apply rep_fe_of]|apply rep_mpz_fz].
      * apply rep_mul; [apply rep_mul; [apply rep_mul; [exact Zb|apply rep_fe_of]|apply rep_fe_of]|apply rep_mpz_fz].
      * apply rep_mul; [apply rep_fe_of|apply rep_mpz_fz].
      * apply rep_mul; [exact Rd|apply rep_fld, Rvu].
    + rewrite (Mk_end _ b ((ru ++ rv) ++ [rc])) by (rewrite ?app_length, ?Lu, ?Lv; cbn [length]; lia).
      unfold lc. rewrite mask_poly_scal, (Nat.mul_comm b 2), <- app_assoc. unfold G, mk. ring.
  - constructor; cbn [t_alpha t_beta t_r0 t_r1 t_o0 t_o1 t_B]; try apply rep_fe_of; try apply reps_fes; assumption.
  - cbn [t_sum]. apply rep_add; (apply rep_mul; [apply rep_fe_of|apply rep_fld; assumption]).
  - cbn [t_tr]. exact Dr.
Qed.

Theorem zlayer_sound : forall st a be R0 R1 w, zvst C m i st a be R0 R1 ->
  rep (t_sum st) w -> w <> (a * masked_value (vals C i) mk R0 + be * masked_value (vals C i) mk R1)%F ->
  few (1 + ((2 * b + 1) + 2)) (4 * b + 9) (fun v => exists rng st', follows rng (draws (t_tr st)) v /\
    zverify_layer enc rng J C i st = Ok st' /\ ztrue_claim C mk' (i - 1) st').
Proof.
  intros st a be R0 R1 w VS Rw N. pose proof Lb as Hb.
  assert (Hi' : 0 < i < total_depth C) by lia.
  assert (Ei : (i =? 1) = false) by (apply Nat.eqb_neq; lia).
  destruct (zphase1_tables C m i CC Hi' a be R0 R1 (zs_l0 _ _ _ _ _ _ _ _ VS) (zs_l1 _ _ _ _ _ _ _ _ VS)) as (tA & tM & _ & St & Lk).
  fold L lg b V in St, Lk. unfold relay_at in Lk. rewrite Ei in Lk.
  set (M1 := scat (2 ^ lg) tM) in *. set (A1 := scat (2 ^ lg) tA) in *.
  assert (Lk' : forall ru vu, length ru = b -> (mle ru M1 * vu + mle ru A1)%F = psum b V (lM2 a be R0 R1 vu ru) (lA2 a be R0 R1 vu ru)).
  { intros ru vu Lu. rewrite (Lk ru vu Lu). unfold lM2, lA2. ring. }
  clear Lk. clearbody M1 A1.
  set (msg := zmsg J b (zgen C i st)).
  set (T := fun s2 rho => target b (lc s2 rho) V M1 A1 (lM2 a be R0 R1) (lA2 a be R0 R1) mk mk' a be
    (vanishing R0) (vanishing R1) (last R0 0%F) (last R1 0%F)).
  eapply (few_weaken _ (0 + (4 * b + 8 + 1)) _ (fun v => exists p, zsetup J C i st = Ok p /\ let '(_, _, _, _, s2) := p in
    exists rho ru rv rc al bt, v = [rho] ++ (ru ++ rv ++ [rc]) ++ [al; bt] /\ length ru = b /\ length rv = b /\
    exists p2, zsetup2 J C i s2 rho = Ok p2 /\ let '(s4, s5) := p2 in
    exists r, play msg (ru ++ rv ++ [rc]) [] (w + Mk (lc s2 rho) b [])%F (s5, (fe_zero, fe_zero)) = Ok r /\ let '(w', (_, (v_u, v_v))) := r in
    w' = (op (ru ++ rv) * (a * vanishing R0 * G (last R0 0) rc + be * vanishing R1 * G (last R1 0) rc) +
          gval (lM2 a be R0 R1) (lA2 a be R0 R1) (fld v_u) (fld v_v) ru rv * rc + Mk (lc s2 rho) b ((ru ++ rv) ++ [rc]))%F /\
    (al * fld v_u + bt * fld v_v = al * masked_value V mk' ru + bt * masked_value V mk' rv)%F)); [|lia|].
  2:{ intros v Lv0 (rng & st' & Fo & E & TC).
      destruct v as [|rho v]; [discriminate|]. injection Lv0 as Lv0.
      destruct (split_at b Hb v ltac:(lia)) as (ru & v1 & -> & Lu & L1). rewrite app_length in Lv0, L1.
      destruct (split_at b Hb v1 ltac:(lia)) as (rv & v2 & -> & Lv & L2). rewrite app_length in Lv0, L1, L2.
      destruct v2 as [|rc [|al [|bt [|]]]]; cbn [length] in Lv0, L1, L2; try lia. clear Lv0 L1 L2.
      destruct (zstep rng st a be R0 R1 w rho ru rv rc al bt st' VS Rw Lu Lv Fo E)
        as (dR & dRa & dM & dMa & s2 & s4 & s5 & w' & s9 & v_u & v_v & E1 & E2 & EP & Ew & VS' & Rs & _).
      exists (dR, dRa, dM, dMa, s2). split; [exact E1|]. exists rho, ru, rv, rc, al, bt.
      split; [rewrite <- !app_assoc; reflexivity|]. split; [exact Lu|]. split; [exact Lv|].
      exists (s4, s5). split; [exact E2|]. exists (w', (s9, (v_u, v_v))). split; [exact EP|]. split; [exact Ew|].
      destruct TC as (a' & b' & Q0 & Q1 & Ta & Tb & T0 & T1 & Ts). destruct VS' as [Va Vb V0 V1 _ _ _ _ _].
      rewrite (rep_fun _ _ _ Ta Va), (rep_fun _ _ _ Tb Vb), (reps_fun _ _ _ T0 V0), (reps_fun _ _ _ T1 V1) in Ts.
      exact (rep_fun _ _ _ Rs Ts). }
  apply few_outcome. intros [[[[dR dRa] dM] dMa] s2] E1.
  apply (few_bind 1 _ 0 _ (fun _ => False)); [apply few_none; intros ? ? []|].
  intros [|rho [|]] Lh _; try discriminate. clear Lh.
  eapply (few_weaken _ _ _ (fun v => exists p2, zsetup2 J C i s2 rho = Ok p2 /\ let '(s4, s5) := p2 in
    exists ru rv rc al bt, v = (ru ++ rv ++ [rc]) ++ [al; bt] /\ length ru = b /\ length rv = b /\
    exists r, play msg (ru ++ rv ++ [rc]) [] (w + Mk (lc s2 rho) b [])%F (s5, (fe_zero, fe_zero)) = Ok r /\ let '(w', (_, (v_u, v_v))) := r in
    w' = (op (ru ++ rv) * (a * vanishing R0 * G (last R0 0) rc + be * vanishing R1 * G (last R1 0) rc) +
          gval (lM2 a be R0 R1) (lA2 a be R0 R1) (fld v_u) (fld v_v) ru rv * rc + Mk (lc s2 rho) b ((ru ++ rv) ++ [rc]))%F /\
    (al * fld v_u + bt * fld v_v = al * masked_value V mk' ru + bt * masked_value V mk' rv)%F)); [|apply Nat.le_refl|].
  2:{ intros v _ (rho' & ru & rv & rc & al & bt & Ev & Lu & Lv & [s4 s5] & E2 & K). injection Ev as <- ->.
      exists (s4, s5). split; [exact E2|]. exists ru, rv, rc, al, bt.
      split; [reflexivity|]. split; [exact Lu|]. split; [exact Lv|]. exact K. }
  apply few_outcome. intros [s4 s5] E2.
  apply (few_bind (2 * b + 1) 2 (4 * b + 8) 1 (fun R => exists g', play msg R [] (w + Mk (lc s2 rho) b [])%F (s5, (fe_zero, fe_zero)) = Ok (T s2 rho ([] ++ R), g'))).
  { assert (Dg : degs (zdeg b) 0 (2 * b + 1) <= 4 * b + 8).
    { pose proof (degs_le b Hb (2 * b + 1) 0) as K. destruct (Nat.leb_spec 0 (b - 1)); lia. }
    refine (few_weaken _ (degs (zdeg b) 0 (2 * b + 1)) _ _ _ (play_sound msg (2 * b + 1) (zdeg b) (T s2 rho) _ _ _ (2 * b + 1) []
      (w + Mk (lc s2 rho) b [])%F (s5, (fe_zero, fe_zero)) _ _) Dg (fun v _ K => K)).
    - intros pre g p g' Hl E. eapply (zmsg_deg J b Hb); eassumption.
    - intros pre Hl. destruct (target_next b (lc s2 rho) V M1 A1 (lM2 a be R0 R1) (lA2 a be R0 R1) mk mk' a be
        (vanishing R0) (vanishing R1) (last R0 0%F) (last R1 0%F) Hb Lk' pre Hl) as (f & F1 & (q & Lq & Fq) & _).
      exists q. split; [exact Lq|]. intro t. unfold T. rewrite F1. apply Fq.
    - intros pre Hl. destruct (target_next b (lc s2 rho) V M1 A1 (lM2 a be R0 R1) (lA2 a be R0 R1) mk mk' a be
        (vanishing R0) (vanishing R1) (last R0 0%F) (last R1 0%F) Hb Lk' pre Hl) as (f & F1 & _ & F01).
      unfold T. rewrite !F1. exact F01.
    - cbn [length]. lia.
    - intro K. apply N. unfold T in K. rewrite target_start in K by exact Hb. rewrite St in K. unfold kmask in K.
      unfold masked_value. 
      match type of K with (_ + ?x = ?y + ?x)%F => assert (K' : w = y) by (replace w with ((w + x) - x)%F by ring; rewrite K; ring) end.
      rewrite K'. change mask_sum with RS. ring. }
  intros R LR NE.
  destruct (split_at b Hb R ltac:(lia)) as (ru & v1 & -> & Lu & L1). rewrite app_length in LR, L1.
  destruct (split_at b Hb v1 ltac:(lia)) as (rv & v2 & -> & Lv & L2). rewrite app_length in LR, L1, L2.
  destruct v2 as [|rc [|]]; cbn [length] in LR, L1, L2; try lia. clear LR L1 L2.
  eapply (few_weaken _ _ _ (fun t => exists r, play msg (ru ++ rv ++ [rc]) [] (w + Mk (lc s2 rho) b [])%F (s5, (fe_zero, fe_zero)) = Ok r /\ let '(w', (_, (v_u, v_v))) := r in
    w' = (op (ru ++ rv) * (a * vanishing R0 * G (last R0 0) rc + be * vanishing R1 * G (last R1 0) rc) +
          gval (lM2 a be R0 R1) (lA2 a be R0 R1) (fld v_u) (fld v_v) ru rv * rc + Mk (lc s2 rho) b ((ru ++ rv) ++ [rc]))%F /\
    exists al bt, t = [al; bt] /\ (al * fld v_u + bt * fld v_v = al * masked_value V mk' ru + bt * masked_value V mk' rv)%F)); [|apply Nat.le_refl|].
  2:{ intros t Lt (ru' & rv' & rc' & al & bt & Et & Lu' & Lv' & [w' [s9 [v_u v_v]]] & EP & Ew & K).
      destruct (app_inv_len _ (ru ++ rv ++ [rc]) (ru' ++ rv' ++ [rc']) t [al; bt]) as [ER ->]; [rewrite !app_length, Lu, Lv, Lu', Lv'; reflexivity|exact Et|].
      apply app_inv_len in ER; [|congruence]. destruct ER as [<- ER]. apply app_inv_len in ER; [|congruence]. destruct ER as [<- ER].
      injection ER as <-. exists (w', (s9, (v_u, v_v))). split; [exact EP|]. split; [exact Ew|]. exists al, bt. split; [reflexivity|exact K]. }
  apply few_outcome. intros [w' [s9 [v_u v_v]]] EP.
  assert (DD : (fld v_u = masked_value V mk' ru /\ fld v_v = masked_value V mk' rv) \/ (fld v_u <> masked_value V mk' ru \/ fld v_v <> masked_value V mk' rv)).
  { destruct (F_eq_dec (fld v_u) (masked_value V mk' ru)); [destruct (F_eq_dec (fld v_v) (masked_value V mk' rv))|]; auto. }
  destruct DD as [[Eu Ev]|Nuv].
  - apply few_none. intros t _ (Ew & _). apply NE. exists (s9, (v_u, v_v)). rewrite EP. f_equal. f_equal.
    unfold T. cbn [app]. rewrite (app_assoc ru rv [rc]), target_4 by assumption. rewrite Ew, Eu, Ev. reflexivity.
  - eapply few_weaken; [apply (combination_few _ _ _ _ Nuv)|apply Nat.le_refl|].
    intros t _ (_ & al & bt & Et & K). exists al, bt. auto.
Qed.
End TrueLayer.
