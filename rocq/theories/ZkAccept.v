(** * What an accepted zk run has passed *)
From Coq Require Import ZArith List Bool Arith Lia.
From Verif Require Import Limbs Field Fp Base ArithProofs Poly Circuit FastProver FastVerifier Transcript SpecVpd VpdR VpdMask VpdInput SoundProofs ZkProver ZkVerifier.
Import ListNotations.
Open Scope nat_scope.

Section Accept.
Context {S : Type}.
Variable I : zprover_if S.
Variable enc : F -> list Z.
Variable rng : list msg -> nat -> outcome (list fe * list msg).

(** The prover's answer to an opening request of the value mask is accepted. *)
Definition R_opened (dR : F) (r : list Z) (v : Z) (s : S) : Prop :=
  exists w wa s0, zi_prove_R I s0 r = Ok (v, w, wa, s) /\ R_verify (zi_kR I s) r dR v w wa = Ok true.
Definition M_opened (dM : F) (r : list Z) (v : Z) (s : S) : Prop :=
  exists w wa s0, zi_prove_mask I s0 r = Ok (v, w, wa, s) /\ M_verify (zi_kM I s) r dM v w wa = Ok true.
Definition I_opened (dI dI2 : F) (r : list Z) (v : Z) (s : S) : Prop :=
  exists w wa s0 Z0 Z1, gmp (zi_Zu I s0) = Ok Z0 /\ zi_prove_input I s0 r Z0 = Ok (v, w, wa, s) /\
    gmp (zi_Zu I s) = Ok Z1 /\ I_verify (zi_kI I s) r dI dI2 Z1 v w wa = Ok true.

(** The prover's message of round [j] of a phase with [n] rounds, as the function
    it describes. *)
Definition sent (upd : S -> fe -> nat -> outcome (quadratic_poly * S)) (last : S -> fe -> nat -> outcome (quintuple_poly * S))
    (n j : nat) (ev : fe -> fe) (s' : S) : Prop :=
  exists s prev, (j + 1 = n /\ exists q, last s prev j = Ok (q, s') /\ ev = quintuple_eval q) \/
    (j + 1 <> n /\ exists q, upd s prev j = Ok (q, s') /\ ev = quadratic_eval q).
(** The rounds of the two phases: the claims [sums 0], ..., [sums n], each checked
    against the message and replaced by its value at the challenge. *)
Definition rounds1_checked (n : nat) (r : list fe) (sums : nat -> fe) : Prop := forall j, j < n -> exists ev s' x,
  sent (zi_phase1_update I) (zi_phase1_lastbit I) n j ev s' /\
  fe_ne (fe_add (ev (fe_of_int 0)) (ev (fe_of_int 1))) (sums j) = false /\
  rd r j = Ok x /\ sums (Datatypes.S j) = ev x.
Definition rounds2_checked (n : nat) (relay : fe) (r : list fe) (sums : nat -> fe) : Prop := forall j, j < n -> exists ev s' x,
  sent (zi_phase2_update I) (zi_phase2_lastbit I) n j ev s' /\
  fe_ne (fe_add (fe_add (ev (fe_of_int 0)) (ev (fe_of_int 1))) (fe_mul relay (zi_v_u I s'))) (sums j) = false /\
  rd r j = Ok x /\ sums (Datatypes.S j) = fe_add (ev x) (fe_mul relay (zi_v_u I s')).

Lemma rounds1_check : forall n r sm t s prev' sm' t' s', zphase1_rounds I n r sm t s = Ok (prev', sm', t', s') ->
  exists sums, sums 0 = sm /\ sums n = sm' /\ rounds1_checked n r sums.
Proof.
  intros n r sm t s prev' sm' t' s' E. unfold zphase1_rounds in E. unfold rounds1_checked.
  match type of E with for_ _ _ ?body _ = _ => set (bd := body) in E end.
  assert (A : forall k j p sm t z p' sm' t' z', for_ k j bd (p, sm, t, z) = Ok (p', sm', t', z') ->
    exists sums, sums j = sm /\ sums (j + k) = sm' /\ forall i, j <= i < j + k -> exists ev s' x,
      sent (zi_phase1_update I) (zi_phase1_lastbit I) n i ev s' /\
      fe_ne (fe_add (ev (fe_of_int 0)) (ev (fe_of_int 1))) (sums i) = false /\ rd r i = Ok x /\ sums (Datatypes.S i) = ev x).
  { clear E. induction k as [|k IH]; intros j p w t0 z p' w' t1 z' E; cbn [for_] in E.
    - apply Ok_inj in E. injection E as _ <- _ _. exists (fun _ => w). split; [reflexivity|]. split; [reflexivity|]. intros i Hi. lia.
    - apply bind_inv in E. destruct E as ([[[p1 w1] t2] z1] & E1 & E).
      destruct (IH _ _ _ _ _ _ _ _ _ E) as (sums & A0 & An & Ak).
      exists (fun i => if i =? j then w else sums i). rewrite Nat.eqb_refl. split; [reflexivity|].
      split; [destruct (Nat.eqb_spec (j + Datatypes.S k) j); [lia|]; replace (j + Datatypes.S k) with (Datatypes.S j + k) by lia; exact An|].
      intros i Hi. destruct (Nat.eqb_spec (Datatypes.S i) j) as [X|_]; [lia|].
      destruct (Nat.eqb_spec i j) as [->|Hn]; [|apply Ak; lia].
      unfold bd in E1. rewrite A0. destruct (Nat.eqb_spec (j + 1) n) as [Hl|Hl];
        (apply bind_inv in E1; destruct E1 as ([q z2] & Eq & E1); apply bind_inv in E1; destruct E1 as (x & Ex & E1);
         apply reject_inv in E1; destruct E1 as [Er E1]; apply Ok_inj in E1; injection E1 as _ <- _ <-).
      + exists (quintuple_eval q), z2, x. split; [|split; [exact Er|split; [exact Ex|reflexivity]]].
        exists z, p. left. split; [exact Hl|]. exists q. split; [exact Eq|reflexivity].
      + exists (quadratic_eval q), z2, x. split; [|split; [exact Er|split; [exact Ex|reflexivity]]].
        exists z, p. right. split; [exact Hl|]. exists q. split; [exact Eq|reflexivity]. }
  destruct (A _ _ _ _ _ _ _ _ _ _ E) as (sums & A0 & An & Ak). exists sums. split; [exact A0|]. split; [exact An|].
  intros j Hj. apply Ak. lia.
Qed.
Lemma wr_rd_ne : forall (l l' : list fe) j x k, wr l j x = Ok l' -> k <> j -> rd l' k = rd l k.
Proof.
  intros l l' j x k E Hk. unfold wr in E. destruct (j <? length l); [|discriminate]. apply Ok_inj in E. subst l'.
  unfold rd. rewrite nth_upd_other by lia. reflexivity.
Qed.
Lemma rounds2_check : forall n zero relay r sm t s prev' sm' r' t' s',
  zphase2_rounds I n zero relay r sm t s = Ok (prev', sm', r', t', s') ->
  exists sums, sums 0 = sm /\ sums n = sm' /\ rounds2_checked n relay r' sums.
Proof.
  intros n zero relay r sm t s prev' sm' r' t' s' E. unfold zphase2_rounds in E. unfold rounds2_checked.
  match type of E with for_ _ _ ?body _ = _ => set (bd := body) in E end.
  assert (A : forall k j p sm r t z p' sm' r' t' z', for_ k j bd (p, sm, r, t, z) = Ok (p', sm', r', t', z') ->
    (forall i, i < j -> rd r' i = rd r i) /\
    exists sums, sums j = sm /\ sums (j + k) = sm' /\ forall i, j <= i < j + k -> exists ev s' x,
      sent (zi_phase2_update I) (zi_phase2_lastbit I) n i ev s' /\
      fe_ne (fe_add (fe_add (ev (fe_of_int 0)) (ev (fe_of_int 1))) (fe_mul relay (zi_v_u I s'))) (sums i) = false /\
      rd r' i = Ok x /\ sums (Datatypes.S i) = fe_add (ev x) (fe_mul relay (zi_v_u I s'))).
  { clear E. induction k as [|k IH]; intros j p w r0 t0 z p' w' r1 t1 z' E; cbn [for_] in E.
    - apply Ok_inj in E. injection E as _ <- <- _ _. split; [reflexivity|]. exists (fun _ => w). split; [reflexivity|]. split; [reflexivity|]. intros i Hi. lia.
    - apply bind_inv in E. destruct E as ([[[[p1 w1] r2] t2] z1] & E1 & E).
      destruct (IH _ _ _ _ _ _ _ _ _ _ _ E) as (Keep & sums & A0 & An & Ak).
      unfold bd in E1. apply bind_inv in E1. destruct E1 as (r3 & Ew & E1).
      assert (Kp : forall i, i < j -> rd r3 i = rd r0 i).
      { intros i Hi. destruct zero; [apply (wr_rd_ne _ _ _ _ _ Ew); lia|apply Ok_inj in Ew; subst r3; reflexivity]. }
      clear Ew.
      assert (R : exists ev s' x, sent (zi_phase2_update I) (zi_phase2_lastbit I) n j ev s' /\
        fe_ne (fe_add (fe_add (ev (fe_of_int 0)) (ev (fe_of_int 1))) (fe_mul relay (zi_v_u I s'))) w = false /\
        rd r3 j = Ok x /\ w1 = fe_add (ev x) (fe_mul relay (zi_v_u I s')) /\ r2 = r3).
      { destruct (Nat.eqb_spec (j + 1) n) as [Hl|Hl];
        (apply bind_inv in E1; destruct E1 as ([q z2] & Eq & E1); apply bind_inv in E1; destruct E1 as (x & Ex & E1);
         apply reject_inv in E1; destruct E1 as [Er E1]; apply Ok_inj in E1; injection E1 as _ <- <- _ <-).
        + exists (quintuple_eval q), z2, x. split; [|split; [exact Er|split; [exact Ex|split; reflexivity]]].
          exists z, p. left. split; [exact Hl|]. exists q. split; [exact Eq|reflexivity].
        + exists (quadratic_eval q), z2, x. split; [|split; [exact Er|split; [exact Ex|split; reflexivity]]].
          exists z, p. right. split; [exact Hl|]. exists q. split; [exact Eq|reflexivity]. }
      clear E1. destruct R as (ev & z2 & x & Sn & Ck & Ex & Ew1 & ->).
      split; [intros i Hi; rewrite Keep by lia; apply Kp; exact Hi|].
      exists (fun i => if i =? j then w else sums i). rewrite Nat.eqb_refl. split; [reflexivity|].
      split; [destruct (Nat.eqb_spec (j + Datatypes.S k) j); [lia|]; replace (j + Datatypes.S k) with (Datatypes.S j + k) by lia; exact An|].
      intros i Hi. destruct (Nat.eqb_spec (Datatypes.S i) j) as [X|_]; [lia|].
      destruct (Nat.eqb_spec i j) as [->|Hn]; [|apply Ak; lia].
      exists ev, z2, x. split; [exact Sn|]. split; [exact Ck|]. split; [rewrite Keep by lia; exact Ex|]. rewrite A0. exact Ew1. }
  destruct (A _ _ _ _ _ _ _ _ _ _ _ _ E) as (_ & sums & A0 & An & Ak). exists sums. split; [exact A0|]. split; [exact An|].
  intros j Hj. apply Ak. lia.
Qed.

(** Everything layer [i] has passed when it leads from [st] to [st']: all rounds
    were checked, both commitments are well formed and open, at the verifier's
    points, to values that satisfy the final equation of the layer. *)
Definition layer_checked (C : layered_circuit) (i : nat) (st st' : zvstate S) : Prop :=
  exists L Lm dR dRa s1 dM dMa s2 rho s4 ra rb ru rv rcf rc v1 v2 vM s5 s6 s7 pv gen general poly s8 s9 d0 d1 prev v_u v_v sums1 sums2,
    let b := bit_length Lm in
    rd (circuit C) i = Ok L /\ rd (circuit C) (i - 1) = Ok Lm /\
    zi_sumcheck_init I (t_p st) i (bit_length L) b b (t_alpha st) (t_beta st) (t_r0 st) (t_r1 st) (t_o0 st) (t_o1 st) = Ok (dR, dRa, s1) /\
    zi_pre_rho I s1 (b * 2 + 1) 2 = Ok (dM, dMa, s2) /\
    zi_after_rho I (zi_set_rho I s2 rho) (b * 2 + 1) 2 = Ok s4 /\
    R_check_commit (zi_kR I s4) dR dRa = true /\ M_check_commit (zi_kM I s4) dM dMa = true /\
    (exists s, gmp (zi_prepreu1 I s) = Ok ra) /\ (exists s, gmp (zi_preprev1 I s) = Ok rb) /\ gmp rcf = Ok rc /\ 
    (exists t rs t', rng t 1 = Ok (rs, t') /\ (if i =? 1 then rcf = fe_of_int 0 else rd rs 0 = Ok rcf)) /\
    (exists rs t', rng (t_tr st) 1 = Ok (rs, t') /\ rd rs 0 = Ok rho) /\
    R_opened dR [ra; rc] v1 s5 /\ R_opened dR [rb; rc] v2 s6 /\
    gmps (firstn b (t_r0 st')) = Ok ru /\ gmps (firstn b (t_r1 st')) = Ok rv /\
    M_opened dM (ru ++ rv ++ [rc]) vM s7 /\
    (* the claimed values and the last round polynomial *)
    (exists s, zi_finalize I s prev = Ok ((v_u, v_v), s8)) /\ zi_finalround I s8 prev (b * 2) general = Ok (poly, s9) /\
    (* what the verifier computes from the wiring *)
    zbeta_init i L Lm (t_alpha st) (t_beta st) (t_r0 st) (t_r1 st) (t_r0 st') (t_r1 st') (t_o0 st) (t_o1 st) (t_o0 st') (t_o1 st') (t_B st) = Ok (t_B st') /\
    predicates i L Lm (t_B st') (t_r0 st) (t_r1 st) (t_r0 st') (t_r1 st') = Ok pv /\
    zgeneral pv v_u v_v = Ok general /\ zgeneral' pv v_u v_v = Ok gen /\
    direct_relay i (bit_length L) (t_r0 st) (t_r0 st') = Ok d0 /\ direct_relay i (bit_length L) (t_r1 st) (t_r0 st') = Ok d1 /\
    let drv := fe_add (fe_mul (t_alpha st) d0) (fe_mul (t_beta st) d1) in
    (* the rounds *)
    sums1 0 = addm (t_sum st) (zi_sumc I s4) /\ rounds1_checked b (t_r0 st') sums1 /\
    sums2 0 = sums1 b /\ rounds2_checked b drv (t_r1 st') sums2 /\
    fe_ne (fe_add (fe_add (quadratic_eval poly (fe_of_int 0)) (quadratic_eval poly (fe_of_int 1))) (fe_mul drv v_u)) (sums2 b) = false /\
    (* the final equation *)
    fe_ne (fe_add (quadratic_eval poly rcf) (fe_mul drv (zi_v_u I s9)))
      (fe_add (fe_add (fe_add (fe_add (fe_mul rcf gen)
         (fe_mul (fe_mul (fe_mul (t_alpha st) (zi_Iuv I s7)) (zi_preZu I s7)) (fe_of_mpz v1)))
         (fe_mul (fe_mul (fe_mul (t_beta st) (zi_Iuv I s7)) (zi_preZv I s7)) (fe_of_mpz v2)))
         (fe_mul rho (fe_of_mpz vM)))
         (fe_mul drv v_u)) = false /\
    (* the claim handed on *)
    t_sum st' = (if i =? 1 then v_u else fe_add (fe_mul (t_alpha st') v_u) (fe_mul (t_beta st') v_v)) /\ t_p st' = s7.

Variable C : layered_circuit.

Lemma layer_check : forall i st st', zverify_layer enc rng I C i st = Ok st' -> layer_checked C i st st'.
Proof.
  intros i st st' E. unfold zverify_layer in E.
  apply bind_inv in E. destruct E as (L & EL & E). apply bind_inv in E. destruct E as (Lm & ELm & E). cbv zeta in E.
  set (b := bit_length Lm) in *.
  apply bind_inv in E. destruct E as ([rhos t1] & Erh & E). apply bind_inv in E. destruct E as (rho & Erho & E).
  apply bind_inv in E. destruct E as ([[dR dRa] s1] & E1 & E). apply bind_inv in E. destruct E as ([[dM dMa] s2] & E2 & E).
  apply bind_inv in E. destruct E as (s4 & E4 & E). apply bind_inv in E. destruct E as (s5 & _ & E).
  apply bind_inv in E. destruct E as ([r_u t3] & _ & E). apply bind_inv in E. destruct E as ([r_v0 t4] & _ & E).
  apply bind_inv in E. destruct E as (d0 & Ed0 & E). apply bind_inv in E. destruct E as (d1 & Ed1 & E).
  apply bind_inv in E. destruct E as ([r_cs t5] & Ercs & E). apply bind_inv in E. destruct E as (r_c & Er_c & E).
  apply bind_inv in E. destruct E as (o_u & _ & E). apply bind_inv in E. destruct E as (o_v & _ & E).
  apply bind_inv in E. destruct E as ([[[prev1 sum1] t6] s6] & EP1' & E). apply bind_inv in E. destruct E as (s7 & _ & E).
  apply bind_inv in E. destruct E as ([[[[prev2 sum2] r_v] t7] s8] & EP2' & E).
  apply rounds1_check in EP1'. destruct EP1' as (sums1 & S10 & S1n & S1). apply rounds2_check in EP2'. destruct EP2' as (sums2 & S20 & S2n & S2).
  apply bind_inv in E. destruct E as ([[v_u v_v] s9] & EF & E).
  apply bind_inv in E. destruct E as (BB & EB & E). apply bind_inv in E. destruct E as (pv & EPv & E).
  apply bind_inv in E. destruct E as (general & EG & E). apply bind_inv in E. destruct E as ([poly s10] & EQ & E).
  apply reject_inv in E. destruct E as [ER0 E].
  apply bind_inv in E. destruct E as ([[[[vR1 vR2] r_ok] t8] s11] & EO & E). apply reject_inv in E. destruct E as [ER1 E].
  apply bind_inv in E. destruct E as ([[[vM m_ok] t9] s12] & EM & E). apply reject_inv in E. destruct E as [ER2 E].
  apply bind_inv in E. destruct E as (general' & EG' & E). apply reject_inv in E. destruct E as [ER3 E].
  apply negb_false_iff, andb_true_iff in ER1. destruct ER1 as [Eb CR]. subst r_ok.
  apply negb_false_iff, andb_true_iff in ER2. destruct ER2 as [CM Eb]. subst m_ok.
  apply bind_inv in E. destruct E as ([als t10] & _ & E). apply bind_inv in E. destruct E as ([bes t11] & _ & E).
  apply bind_inv in E. destruct E as (al & _ & E). apply bind_inv in E. destruct E as (be & _ & E). apply Ok_inj in E.
  set (rcf := if i =? 1 then fe_of_int 0 else r_c) in *.
  (* the openings *)
  unfold open_R in EO. apply bind_inv in EO. destruct EO as (ra & Era & EO). apply bind_inv in EO. destruct EO as (rc & Erc & EO).
  apply bind_inv in EO. destruct EO as ([[[v1 w1] wa1] s13] & EP1 & EO). apply bind_inv in EO. destruct EO as (b1 & V1 & EO).
  apply bind_inv in EO. destruct EO as (rb & Erb & EO).
  apply bind_inv in EO. destruct EO as ([[[v2 w2] wa2] s14] & EP2 & EO). apply bind_inv in EO. destruct EO as (b2 & V2 & EO).
  apply Ok_inj in EO. injection EO as Ev1 Ev2 Eb Et Es. apply andb_true_iff in Eb. destruct Eb; subst b1 b2 vR1 vR2 s14 t8.
  unfold open_mask in EM. apply bind_inv in EM. destruct EM as (ru & Eru & EM). apply bind_inv in EM. destruct EM as (rv & Erv & EM).
  apply bind_inv in EM. destruct EM as (rc' & Erc' & EM). rewrite Erc in Erc'. apply Ok_inj in Erc'. subst rc'.
  apply bind_inv in EM. destruct EM as ([[[v3 w3] wa3] s15] & EP3 & EM). apply bind_inv in EM. destruct EM as (b3 & V3 & EM).
  apply Ok_inj in EM. injection EM as Ev3 Eb Et Es. subst b3 vM s15 t9.
  unfold layer_checked.
  exists L, Lm, dR, dRa, s1, dM, dMa, s2, rho, s4, ra, rb, ru, rv, rcf, rc, v1, v2, v3, s13, s11, s12.
  exists pv, general', general, poly, s9, s10, d0, d1, prev2, v_u, v_v, sums1, sums2. cbv zeta. fold b.
  split; [exact EL|]. split; [exact ELm|]. split; [exact E1|]. split; [exact E2|]. split; [exact E4|]. split; [exact CR|]. split; [exact CM|].
  split; [exists s10; exact Era|]. split; [exists s13; exact Erb|]. split; [exact Erc|].
  split; [exists t4, r_cs, t5; split; [exact Ercs|unfold rcf; destruct (i =? 1); [reflexivity|exact Er_c]]|].
  split; [exists rhos, t1; split; [exact Erh|exact Erho]|].
  split; [exists w1, wa1, s10; split; [exact EP1|exact V1]|].
  split; [exists w2, wa2, s13; split; [exact EP2|exact V2]|].
  subst st'. cbn [t_r0 t_r1 t_o0 t_o1 t_B t_sum t_p t_alpha t_beta].
  split; [exact Eru|]. split; [exact Erv|].
  split; [exists w3, wa3, s11; split; [exact EP3|exact V3]|].
  split; [exists s8; exact EF|]. split; [exact EQ|]. split; [exact EB|]. split; [exact EPv|]. split; [exact EG|]. split; [exact EG'|].
  split; [exact Ed0|]. split; [exact Ed1|].
  split; [exact S10|]. split; [exact S1|]. split; [rewrite S1n; exact S20|]. split; [exact S2|]. split; [rewrite S2n; exact ER0|].
  split; [exact ER3|]. split; [|reflexivity]. destruct (i =? 1); reflexivity.
Qed.

(** A run: the state before the layer loop, the states between the layers, the
    opening of the input. *)
Theorem accepted_run : forall BB0 s0, zverify enc rng I C BB0 s0 = Ok true ->
  exists dI dI2 (st : nat -> zvstate S) r v s L0,
    zverify_start enc rng I C BB0 s0 = Ok (dI, dI2, st 0) /\
    (forall k, k < total_depth C - 1 -> layer_checked C (total_depth C - 1 - k) (st k) (st (Datatypes.S k))) /\
    rd (circuit C) 0 = Ok L0 /\ gmps (firstn (bit_length L0) (t_r0 (st (total_depth C - 1)))) = Ok r /\
    I_opened dI dI2 r v s /\ fe_ne (t_sum (st (total_depth C - 1))) (fe_of_mpz v) = false.
Proof.
  intros BB0 s0 H. unfold zverify in H.
  destruct (zverify_body enc rng I C BB0 s0) as [x| | | | | |] eqn:E; try discriminate. clear H. unfold zverify_body in E.
  apply bind_inv in E. destruct E as ([[dI dI2] st0] & E0 & E).
  apply bind_inv in E. destruct E as (L0 & EL0 & E). apply bind_inv in E. destruct E as (stn & E1 & E).
  apply bind_inv in E. destruct E as (t & E2 & _).
  assert (A : forall n k0 st0 stn, for_ n k0 (fun k st => zverify_layer enc rng I C (total_depth C - 1 - k) st) st0 = Ok stn ->
    exists st, st 0 = st0 /\ st n = stn /\ forall k, k < n -> layer_checked C (total_depth C - 1 - (k0 + k)) (st k) (st (Datatypes.S k))).
  { clear. induction n as [|n IH]; intros k0 st0 stn E; cbn [for_] in E.
    - apply Ok_inj in E. subst stn. exists (fun _ => st0). split; [reflexivity|]. split; [reflexivity|]. intros k Hk. lia.
    - apply bind_inv in E. destruct E as (st1 & E1 & E). apply layer_check in E1.
      destruct (IH _ _ _ E) as (st & A0 & An & Ak).
      exists (fun k => match k with O => st0 | Datatypes.S k => st k end). split; [reflexivity|]. split; [exact An|].
      intros [|k] Hk.
      + rewrite A0, Nat.add_0_r. exact E1.
      + specialize (Ak k ltac:(lia)). rewrite Nat.add_succ_r. exact Ak. }
  destruct (A _ _ _ _ E1) as (st & A0 & An & Ak).
  unfold zverify_input in E2. cbv zeta in E2.
  apply bind_inv in E2. destruct E2 as (r & Er & E2). apply bind_inv in E2. destruct E2 as (r1 & _ & E2).
  apply bind_inv in E2. destruct E2 as (Z0 & EZ0 & E2). apply bind_inv in E2. destruct E2 as ([[[ans w] wa] s] & EP & E2).
  apply bind_inv in E2. destruct E2 as (Z1 & EZ1 & E2). apply bind_inv in E2. destruct E2 as (ok & EV & E2).
  apply reject_inv in E2. destruct E2 as [R1 E2]. apply reject_inv in E2. destruct E2 as [R2 _]. apply negb_false_iff in R1. subst ok.
  exists dI, dI2, st, r, ans, s, L0. rewrite A0, An. split; [exact E0|]. split; [intros k Hk; exact (Ak k Hk)|].
  split; [exact EL0|]. split; [exact Er|]. split; [|exact R2].
  exists w, wa, (t_p stn), Z0, Z1. split; [exact EZ0|]. split; [exact EP|]. split; [exact EZ1|exact EV].
Qed.
End Accept.
