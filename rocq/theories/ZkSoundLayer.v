(** * What an accepted layer of the zk protocol has passed *)
From Coq Require Import ZArith List Bool Arith Lia Ring.
From Verif Require Import Limbs Field Fp Base ArithProofs MleSpec GkrMath Poly PolyProofs Circuit
  FastProver FastVerifier Lazy TablesProofs FastProverProofs PhaseProofs FastVerifierProofs SpecGkr SpecVpd SpecZk
  VpdGroup VpdR VpdMask VpdInput VpdGroupProofs Transcript TranscriptProofs Count SoundProofs SumGame
  ZkEval ZkProver ZkVerifier ZkPhaseProofs ZkMaskProofs ZkRoundProofs ZkLayerProofs ZkPredProofs ZkOpenProofs ZkLinkProofs
  ZkVerifierProofs ZkFacts ZkIdeal ZkTarget ZkSoundProofs.
Import ListNotations.
Open Scope nat_scope.
(** ** Inversion of a layer *)
Section LayerInv.
Context {S : Type}.
Variable enc : F -> list Z.
Variable J : zprover_if S.
Hypothesis TJ : ztyped J.
Variables (C : layered_circuit) (i : nat).
Hypothesis CC : zcomplete_circuit C.
Hypothesis Hi : 1 < i < total_depth C.
Let L := layer_at C i.
Let Lm := layer_at C (i - 1).
Let lg := bit_length L.
Let b := bit_length Lm.

(** The tables and predicates the verifier computes for the points [ru], [rv]. *)
Definition zpreds (st : zvstate S) (ru rv : list F) : outcome (zbetas * zbetas * list fe) :=
  BB <- zbeta_init i L Lm (t_alpha st) (t_beta st) (t_r0 st) (t_r1 st) (fes ru) (fes rv)
          (t_o0 st) (t_o1 st) (fes (comp ru)) (fes (comp rv)) (t_B st) ;;
  pv <- predicates i L Lm BB (t_r0 st) (t_r1 st) (fes ru) (fes rv) ;; Ok (BB, pv).
Definition zgen (st : zvstate S) (ru rv : list F) (v_u v_v : fe) : outcome fe :=
  ' (_, pv) <- zpreds st ru rv ;; zgeneral pv v_u v_v.
(** The prover's moves before the challenges of phase 1. *)
Definition zsetup (st : zvstate S) : outcome (F * F * F * F * S) :=
  ' (dR, dRa, s1) <- zi_sumcheck_init J (t_p st) i lg b b (t_alpha st) (t_beta st) (t_r0 st) (t_r1 st) (t_o0 st) (t_o1 st) ;;
  ' (dM, dMa, s2) <- zi_pre_rho J s1 (b * 2 + 1) 2 ;; Ok (dR, dRa, dM, dMa, s2).
Definition zsetup2 (s2 : S) (rho : F) : outcome (S * S) :=
  s4 <- zi_after_rho J (zi_set_rho J s2 (fe_of rho)) (b * 2 + 1) 2 ;;
  s5 <- zi_phase1_init J s4 ;; Ok (s4, s5).

(** Everything that is checked in a layer that is accepted. *)
Record zaccept (st : zvstate S) (rho : F) (ru rv : list F) (rc al be : F) (w : F) (st' : zvstate S) : Prop := ZAccept {
  za_ex : exists dR dRa dM dMa s2 s4 s5 w' s9 v_u v_v BB pv,
    zsetup st = Ok (dR, dRa, dM, dMa, s2) /\ zsetup2 s2 rho = Ok (s4, s5) /\
    (* the commitments are well formed *)
    R_check_commit (zi_kR J s4) dR dRa = true /\ M_check_commit (zi_kM J s4) dM dMa = true /\
    (* the sum-check rounds are consistent *)
    (reduced (zi_sumc J s4) ->
     play (zmsg J b (zgen st)) (ru ++ rv ++ [rc]) [] (w + fld (zi_sumc J s4))%F (s5, (fe_zero, fe_zero)) = Ok (w', (s9, (v_u, v_v)))) /\
    zpreds st ru rv = Ok (BB, pv) /\
    (* the openings are accepted and the final equation holds *)
    exists sum vR1 vR2 vM t7 t8 t9 t11 s10 s11 general drv,
      open_R enc J (fe_of rc) dR t7 s9 = Ok (vR1, vR2, true, t8, s10) /\
      open_mask enc J b (fes ru) (fes rv) (fe_of rc) dM t8 s10 = Ok (vM, true, t9, s11) /\
      zgeneral' pv v_u v_v = Ok general /\ (reduced (zi_sumc J s4) -> rep sum w') /\ rep drv 0%F /\ reduced v_u /\ reduced v_v /\
      fe_ne sum
        (fe_add (fe_add (fe_add (fe_add (fe_mul (fe_of rc) general)
           (fe_mul (fe_mul (fe_mul (t_alpha st) (zi_Iuv J s11)) (zi_preZu J s11)) (fe_of_mpz vR1)))
           (fe_mul (fe_mul (fe_mul (t_beta st) (zi_Iuv J s11)) (zi_preZv J s11)) (fe_of_mpz vR2)))
           (fe_mul (fe_of rho) (fe_of_mpz vM)))
           (fe_mul drv v_u)) = false /\
      draws t11 = draws (t_tr st) + (2 * b + 4) /\
      st' = ZVState (fe_of al) (fe_of be) (fe_add (fe_mul (fe_of al) v_u) (fe_mul (fe_of be) v_v))
              (fes ru) (fes rv) (fes (comp ru)) (fes (comp rv)) BB t11 s11 }.

Lemma open_R_draws : forall rc d t s v1 v2 ok t' s', open_R enc J rc d t s = Ok (v1, v2, ok, t', s') -> draws t' = draws t.
Proof.
  intros rc d t s v1 v2 ok t' s' E. unfold open_R in E.
  apply bind_inv in E. destruct E as (ra & _ & E). apply bind_inv in E. destruct E as (rcz & _ & E).
  apply bind_inv in E. destruct E as ([[[x w] wa] s1] & _ & E). cbv zeta in E.
  apply bind_inv in E. destruct E as (b1 & _ & E). apply bind_inv in E. destruct E as (rb & _ & E).
  apply bind_inv in E. destruct E as ([[[y w'] wa'] s2] & _ & E). apply bind_inv in E. destruct E as (b2 & _ & E).
  apply Ok_inj in E. injection E as <- <- <- <- <-. rewrite !draws_app, !draws_curve. lia.
Qed.
Lemma open_mask_draws : forall n ru rv rc d t s v ok t' s', open_mask enc J n ru rv rc d t s = Ok (v, ok, t', s') -> draws t' = draws t.
Proof.
  intros n ru rv rc d t s v ok t' s' E. unfold open_mask in E.
  apply bind_inv in E. destruct E as (ra & _ & E). apply bind_inv in E. destruct E as (rb & _ & E).
  apply bind_inv in E. destruct E as (rcz & _ & E). cbv zeta in E.
  apply bind_inv in E. destruct E as ([[[x w] wa] s1] & _ & E).
  apply bind_inv in E. destruct E as (b1 & _ & E).
  apply Ok_inj in E. injection E as <- <- <- <-. rewrite !draws_app, !draws_curve. lia.
Qed.

Lemma if_false : forall A (x y : A), (if false then x else y) = y.
Proof. reflexivity. Qed.
Lemma rounds1_eq : forall r_u sm t s, zphase1_rounds J b r_u sm t s = for_ b 0 (zbody1 J b r_u) (fe_of_int 0, sm, t, s).
Proof. reflexivity. Qed.
Lemma rounds2_eq : forall relay r_v sm t s,
  zphase2_rounds J b false relay r_v sm t s = for_ b 0 (zbody2 J b relay) (fe_of_int 0, sm, r_v, t, s).
Proof. reflexivity. Qed.
Lemma zlayer_inv : forall rng st a be0 w rho ru rv rc al be st',
  rep (t_alpha st) a -> rep (t_beta st) be0 -> rep (t_sum st) w ->
  length ru = b -> length rv = b ->
  follows rng (draws (t_tr st)) (rho :: ru ++ rv ++ [rc; al; be]) ->
  zverify_layer enc rng J C i st = Ok st' -> zaccept st rho ru rv rc al be w st'.
Proof.
  intros rng st a be0 w rho ru rv rc al be st' Ra Rb Rw Lu Lv Fo E.
  pose proof (zc_depth C CC) as D. destruct (zc_bits C CC (i - 1) ltac:(lia)) as [Hb _]. fold Lm in Hb. fold b in Hb.
  unfold zverify_layer in E.
  assert (EL : rd (circuit C) i = Ok L) by (unfold rd; rewrite layer_rd by lia; reflexivity).
  assert (ELm : rd (circuit C) (i - 1) = Ok Lm) by (unfold rd; rewrite layer_rd by lia; reflexivity).
  rewrite EL, bind_Ok, ELm, bind_Ok in E. clear EL ELm. cbv zeta in E. fold lg b in E.
  destruct (follows_step rng _ [rho] (ru ++ rv ++ [rc; al; be]) (t_tr st) Fo eq_refl) as (G1 & D1 & Fo1).
  cbn [length] in G1, D1, Fo1. rewrite G1, bind_Ok in E. cbn [fes map] in E. unfold rd at 1 in E. cbn [nth_error] in E. rewrite bind_Ok in E.
  cbn [fes map] in D1. set (t1 := t_tr st ++ [MRand (fe_of rho)]) in *. clear G1 Fo.
  apply bind_inv in E. destruct E as ([[dR dRa] s1] & E1 & E). cbv beta iota in E.
  apply bind_inv in E. destruct E as ([[dM dMa] s2] & E2 & E). cbv beta iota in E.
  assert (ES : zsetup st = Ok (dR, dRa, dM, dMa, s2)) by (unfold zsetup; rewrite E1, bind_Ok, E2, bind_Ok; reflexivity).
  clear E1 E2.
  apply bind_inv in E. destruct E as (s4 & E4 & E). apply bind_inv in E. destruct E as (s5 & E5 & E).
  assert (ES2 : zsetup2 s2 rho = Ok (s4, s5)) by (unfold zsetup2; rewrite E4, bind_Ok, E5, bind_Ok; reflexivity).
  clear E4 E5.
  set (t2 := t1 ++ curve_msgs enc [dM; dMa] ++ curve_msgs enc [dR; dRa]) in *.
  assert (D2 : draws t2 = draws (t_tr st) + 1) by (unfold t2; rewrite !draws_app, !draws_curve; lia).
  destruct (follows_step rng _ ru (rv ++ [rc; al; be]) t2 Fo1 D2) as (G2 & D3 & Fo2). clear Fo1.
  rewrite Lu in *. rewrite G2, bind_Ok in E. clear G2. set (t3 := t2 ++ map MRand (fes ru)) in *. clearbody t3. clearbody t2. clearbody t1.
  destruct (follows_step rng _ rv [rc; al; be] t3 Fo2 D3) as (G3 & D4 & Fo3). clear Fo2.
  rewrite Lv in *. rewrite G3, bind_Ok in E. clear G3. set (t4 := t3 ++ map MRand (fes rv)) in *. clearbody t4.
  rewrite (direct_relay_0 i lg (t_r0 st) (fes ru)), bind_Ok in E by lia. rewrite (direct_relay_0 i lg (t_r1 st) (fes ru)), bind_Ok in E by lia.
  set (drv := fe_add (fe_mul (t_alpha st) (fe_of_int 0)) (fe_mul (t_beta st) (fe_of_int 0))) in *.
  assert (Rd : rep drv 0%F).
  { eapply rep_eq; [apply rep_add; (apply rep_mul; [eassumption|exact rep_i0])|ring]. }
  clearbody drv.
  destruct (follows_step rng _ [rc] [al; be] t4 Fo3 D4) as (G4 & D5 & Fo4). clear Fo3. cbn [length] in G4, D5, Fo4.
  rewrite G4, bind_Ok in E. clear G4. cbn [fes map] in E, D5. unfold rd at 1 in E. cbn [nth_error] in E. rewrite bind_Ok in E.
  set (t5 := t4 ++ [MRand (fe_of rc)]) in *. clearbody t5.
  apply bind_inv in E. destruct E as (o_u & Eo & E). apply comp_fes in Eo; [|symmetry; exact Lu]. subst o_u.
  apply bind_inv in E. destruct E as (o_v & Eo & E). apply comp_fes in Eo; [|symmetry; exact Lv]. subst o_v.
  destruct (Nat.eqb_spec i 1) as [|_]; [lia|].
  apply bind_inv in E. destruct E as ([[[prev1 sum1] t6] s6] & EP1 & E). cbv beta iota in E.
  apply bind_inv in E. destruct E as (s7 & EI2 & E).
  apply bind_inv in E. destruct E as ([[[[prev2 sum2] rv'] t7] s8] & EP2 & E). cbv beta iota in E.
  apply bind_inv in E. destruct E as ([[v_u v_v] s9] & EF & E). cbv beta iota in E.
  apply bind_inv in E. destruct E as (BB & EB & E).
  apply bind_inv in E. destruct E as (pv & EPv & E).
  apply bind_inv in E. destruct E as (general & EG & E).
  apply bind_inv in E. destruct E as ([poly s10] & EQ & E). cbv beta iota in E.
  apply reject_inv in E. destruct E as [ER E].
  apply bind_inv in E. destruct E as ([[[[vR1 vR2] r_ok] t8] s11] & EO & E). cbv beta iota in E.
  apply reject_inv in E. destruct E as [ER1 E].
  apply bind_inv in E. destruct E as ([[[vM m_ok] t9] s12] & EM & E). cbv beta iota in E.
  apply reject_inv in E. destruct E as [ER2 E].
  apply bind_inv in E. destruct E as (general' & EG' & E).
  apply reject_inv in E. destruct E as [ER3 E].
  apply negb_false_iff, andb_true_iff in ER1. destruct ER1 as [-> CR].
  apply negb_false_iff, andb_true_iff in ER2. destruct ER2 as [CM ->].
  destruct (zt_f J TJ _ _ _ _ _ EF) as [Rvu Rvv].
  pose proof (qcoefs_rep poly (zt_r J TJ _ _ _ _ _ _ EQ)) as Rq.
  set (sum := addm (t_sum st) (zi_sumc J s4)) in *.
  (* the moves *)
  assert (MV : reduced (zi_sumc J s4) ->
    play (zmsg J b (zgen st)) (ru ++ rv ++ [rc]) [] (w + fld (zi_sumc J s4))%F (s5, (fe_zero, fe_zero)) = Ok (peval (qcoefs poly) rc, (s10, (v_u, v_v))) /\
    rv' = fes rv /\ draws t7 = draws t5).
  { intro Rsc. assert (Rs : rep sum (w + fld (zi_sumc J s4))%F) by (apply addm_ok; [exact Rw|apply rep_fld, Rsc]).
    rewrite rounds1_eq in EP1. rewrite rounds2_eq in EP2.
    rewrite fe_of_0 in EP1, EP2.
    pose proof (phase1_moves J TJ b Hb (zgen st) ru [] sum (w + fld (zi_sumc J s4))%F t5 s5 (fe_zero, fe_zero) prev1 sum1 t6 s6) as K1.
    cbn [app length last] in K1. specialize (K1 Lu Rs). rewrite Lu in K1. specialize (K1 EP1).
    destruct K1 as (w1 & -> & Rs1 & Dt6 & P1).
    pose proof (phase2_moves J TJ b Hb (zgen st) ru drv Lu Rd rv [] sum1 w1 t6 s6 s7 (fe_zero, fe_zero) prev2 sum2 rv' t7 s8) as K2.
    cbn [app length last Nat.eqb] in K2. rewrite Lv in K2. specialize (K2 eq_refl Rs1).
    destruct K2 as (w2 & -> & -> & Rs2 & Dt7 & P2).
    { intros -> _. cbn [length] in Lv. lia. }
    { exact EI2. }
    { exact EP2. }
    split; [|split; [reflexivity|congruence]].
    rewrite app_assoc, play_app, play_app, P1, bind_Ok. cbn [app]. rewrite app_nil_r in P2. rewrite P2, bind_Ok.
    cbn [play]. unfold zmsg at 1. rewrite app_length, Lu, Lv.
    destruct (Nat.ltb_spec (b + b) b); [lia|]. destruct (Nat.ltb_spec (b + b) (2 * b)); [lia|]. cbv zeta.
    destruct (firstn_len_app b Hb ru rv Lu) as [-> ->]. rewrite EF, bind_Ok.
    assert (EGg : zgen st ru rv v_u v_v = Ok general).
    { unfold zgen, zpreds. rewrite EB, bind_Ok, EPv, !bind_Ok. exact EG. }
    rewrite EGg, bind_Ok, EQ, !bind_Ok. 
    destruct (F_eq_dec _ _) as [_|NN]; [reflexivity|]. exfalso. apply NN.
    eapply fne_inv; [|exact Rs2|exact ER]. eapply rep_eq.
    - apply rep_add; [apply rep_add; apply quadratic_eval_ok; try exact Rq; [exact rep_i0|exact rep_i1]|].
      apply rep_mul; [exact Rd|apply rep_fld, Rvu].
    - ring. }
  (* that the point of phase 2 is unchanged does not depend on the sum *)
  assert (Erv : rv' = fes rv /\ draws t7 = draws t5).
  { clear - EP1 EP2 Lv.
    assert (A1 : forall n r_u j p s t z p' s' t' z', for_ n j (zbody1 J b r_u) (p, s, t, z) = Ok (p', s', t', z') -> draws t' = draws t).
    { induction n as [|n IH]; intros r_u j p s t z p' s' t' z' E; cbn [for_] in E; [apply Ok_inj in E; congruence|].
      apply bind_inv in E. destruct E as ([[[p1 s1] t1] z1] & E1 & E). apply IH in E. rewrite E. clear E.
      unfold zbody1 in E1. destruct (j + 1 =? b); apply bind_inv in E1; destruct E1 as ([q z2] & _ & E1);
        apply bind_inv in E1; destruct E1 as (r & _ & E1); apply reject_inv in E1; destruct E1 as [_ E1]; apply Ok_inj in E1;
        injection E1 as <- <- <- <-; rewrite draws_app, ?draws_quad, ?draws_quint; lia. }
    assert (A2 : forall n j p s rv0 t z p' s' rv1 t' z', for_ n j (zbody2 J b drv) (p, s, rv0, t, z) = Ok (p', s', rv1, t', z') -> rv1 = rv0 /\ draws t' = draws t).
    { induction n as [|n IH]; intros j p s rv0 t z p' s' rv1 t' z' E; cbn [for_] in E; [apply Ok_inj in E; split; congruence|].
      apply bind_inv in E. destruct E as ([[[[p1 s1] rv2] t1] z1] & E1 & E). apply IH in E. destruct E as [-> ->].
      unfold zbody2 in E1. rewrite bind_Ok in E1. destruct (j + 1 =? b); apply bind_inv in E1; destruct E1 as ([q z2] & _ & E1);
        apply bind_inv in E1; destruct E1 as (r & _ & E1); apply reject_inv in E1; destruct E1 as [_ E1]; apply Ok_inj in E1;
        injection E1 as <- <- <- <- <-; rewrite draws_app, ?draws_quad, ?draws_quint; split; [reflexivity|lia|reflexivity|lia]. }
    rewrite rounds1_eq in EP1. rewrite rounds2_eq in EP2.
    apply A1 in EP1. apply A2 in EP2. destruct EP2 as [-> EP2]. split; [reflexivity|congruence]. }
  destruct Erv as [-> Dt7].
  assert (D8 : draws t8 = draws t7) by (eapply open_R_draws; exact EO).
  assert (D9 : draws t9 = draws t8) by (eapply open_mask_draws; exact EM).
  assert (D9' : draws t9 = draws (t_tr st) + 1 + b + b + 1) by congruence.
  destruct (follows_step rng _ [al] [be] t9 Fo4 D9') as (G5 & D10 & Fo5). cbn [length] in G5, D10, Fo5.
  rewrite G5, bind_Ok in E. clear G5. set (t10 := t9 ++ map MRand (fes [al])) in *. clearbody t10.
  destruct (follows_step rng _ [be] [] t10 Fo5 D10) as (G6 & D11 & _). cbn [length] in G6, D11.
  rewrite G6, bind_Ok in E. clear G6. set (t11 := t10 ++ map MRand (fes [be])) in *. clearbody t11.
  cbn [fes map] in E. unfold rd in E. cbn [nth_error] in E. rewrite !bind_Ok, if_negb in E. apply Ok_inj in E.
  constructor. exists dR, dRa, dM, dMa, s2, s4, s5, (peval (qcoefs poly) rc), s10, v_u, v_v, BB, pv.
  split; [exact ES|]. split; [exact ES2|]. split; [exact CR|]. split; [exact CM|].
  split; [intro Rsc; exact (proj1 (MV Rsc))|].
  split; [unfold zpreds; rewrite EB, bind_Ok, EPv, !bind_Ok; reflexivity|].
  eexists _, vR1, vR2, vM, t7, t8, t9, t11, s11, s12, general', drv.
  split; [exact EO|]. split; [exact EM|]. split; [exact EG'|]. split; [|split; [exact Rd|split; [exact Rvu|split; [exact Rvv|split; [exact ER3|]]]]].
  - intros _. eapply rep_eq; [apply rep_add; [apply quadratic_eval_ok; [exact Rq|apply rep_fe_of]|apply rep_mul; [exact Rd|apply rep_fld, (zt_v J TJ)]]|ring].
  - split; [rewrite D11; lia|]. symmetry. exact E.
Qed.
End LayerInv.
