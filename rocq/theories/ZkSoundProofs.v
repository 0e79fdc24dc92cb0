(** * What it takes to be accepted by the zk verifier *)
From Coq Require Import ZArith List Bool Arith Lia Ring.
From Verif Require Import Limbs Field Fp Base ArithProofs MleSpec GkrMath Poly PolyProofs Circuit
  FastProver FastVerifier Lazy TablesProofs FastProverProofs PhaseProofs FastVerifierProofs SpecGkr SpecVpd SpecZk
  VpdGroup VpdR VpdMask VpdInput VpdGroupProofs Transcript TranscriptProofs Count SoundProofs SumGame
  ZkEval ZkProver ZkVerifier ZkPhaseProofs ZkMaskProofs ZkRoundProofs ZkLayerProofs ZkPredProofs ZkOpenProofs ZkLinkProofs
  ZkVerifierProofs ZkFacts ZkIdeal ZkTarget.
Import ListNotations.
Open Scope nat_scope.

(** ** Small facts *)
Lemma fld_of : forall a, fld (fe_of a) = a.
Proof. exact fe_of_val. Qed.
Lemma flds_fes : forall R, flds (fes R) = R.
Proof. induction R as [|a R IH]; [reflexivity|]. cbn [fes flds map]. rewrite fld_of. f_equal. exact IH. Qed.
Lemma flds_reps : forall l R, reps l R -> flds l = R.
Proof. intros l R H. rewrite (reps_inj _ _ H). apply flds_fes. Qed.
Lemma fe_of_0 : fe_of_int 0 = fe_of 0%F.
Proof. apply (rep_inj _ _ 0%F); [exact rep_i0|apply rep_fe_of]. Qed.
Lemma rep_fld : forall x, reduced x -> rep x (fld x).
Proof. exact reduced_rep. Qed.
Lemma rep_fe_eq : forall x a, rep x a -> x = fe_of a.
Proof. intros x a H. apply (rep_inj _ _ a H), rep_fe_of. Qed.
Lemma fes_app : forall R Q, fes (R ++ Q) = fes R ++ fes Q.
Proof. intros. apply map_app. Qed.
Lemma fes_length : forall R, length (fes R) = length R.
Proof. intros. apply map_length. Qed.
Lemma comp_fes : forall R n o, n = length R -> one_minus (fes R) n = Ok o -> o = fes (comp R).
Proof.
  intros R n o Hn E. apply reps_inj. exact (returns_inv _ _ _ _ (one_minus_ok (fes R) R n (reps_fes R) Hn) E).
Qed.
Lemma ofZ_nth_fz : forall R i, ofZ (nth i (map fz R) 0%Z) = nth i R 0%F.
Proof.
  intros R i. destruct (Nat.lt_ge_cases i (length R)) as [H|H].
  - rewrite (nth_indep _ 0%Z (fz 0%F)) by (rewrite map_length; exact H). rewrite map_nth. apply ofZ_fz.
  - rewrite !nth_overflow by (rewrite ?map_length; exact H). reflexivity.
Qed.
Lemma prodn_op : forall R, prodn (length R) (fun j => 1 - nth j R 0)%F = op R.
Proof.
  induction R as [|a R IH]; [reflexivity|]. cbn [length op]. rewrite <- IH. apply (prodn_shift (length R)).
Qed.

(** ** Draws *)
Lemma draws_app : forall t u, draws (t ++ u) = draws t + draws u.
Proof. intros. unfold draws. rewrite filter_app, app_length. reflexivity. Qed.
Lemma draws_rand : forall l, draws (map MRand l) = length l.
Proof. induction l as [|a l IH]; [reflexivity|]. unfold draws in *. cbn [map filter is_rand length]. rewrite IH. reflexivity. Qed.
Lemma draws_curve : forall enc l, draws (curve_msgs enc l) = 0.
Proof. intros enc l. induction l as [|a l IH]; [reflexivity|]. exact IH. Qed.
Lemma draws_quad : forall q, draws (quad_msgs q) = 0.
Proof. reflexivity. Qed.
Lemma draws_quint : forall q, draws (quint_msgs q) = 0.
Proof. reflexivity. Qed.

(** The challenges number [pos], [pos + 1], ... are the elements of [v]. *)
Definition follows (rng : list msg -> nat -> outcome (list fe * list msg)) (pos : nat) (v : list F) : Prop :=
  forall t n, pos <= draws t -> draws t + n <= pos + length v ->
    let r := fes (firstn n (skipn (draws t - pos) v)) in rng t n = Ok (r, t ++ map MRand r).
Lemma follows_step : forall rng pos v w t, follows rng pos (v ++ w) -> draws t = pos ->
  rng t (length v) = Ok (fes v, t ++ map MRand (fes v)) /\ draws (t ++ map MRand (fes v)) = pos + length v /\
  follows rng (pos + length v) w.
Proof.
  intros rng pos v w t H Hd. split; [|split].
  - rewrite (H t (length v)) by (rewrite ?app_length; lia). rewrite Hd, Nat.sub_diag. cbn [skipn].
    rewrite firstn_app, firstn_all, Nat.sub_diag. cbn [firstn]. rewrite app_nil_r. reflexivity.
  - rewrite draws_app, draws_rand, fes_length. lia.
  - intros t' n H1 H2. rewrite (H t' n) by (rewrite ?app_length; lia). cbv zeta.
    rewrite skipn_app, (skipn_all2 v) by lia. cbn [app].
    replace (draws t' - pos - length v) with (draws t' - (pos + length v)) by lia. reflexivity.
Qed.
Lemma seq_nth_firstn : forall (v : list F) k n, k + n <= length v -> map (fun j => nth (k + j) v 0%F) (seq 0 n) = firstn n (skipn k v).
Proof.
  intros v k n H. apply nth_ext with (d := 0%F) (d' := 0%F).
  - rewrite map_length, seq_length, firstn_length, skipn_length. lia.
  - intros j Hj. rewrite map_length, seq_length in Hj.
    rewrite (nth_indep _ 0%F (nth (k + 0) v 0%F)) by (rewrite map_length, seq_length; exact Hj).
    rewrite (map_nth (fun j => nth (k + j) v 0%F)), seq_nth by exact Hj.
    rewrite <- (firstn_skipn k v) at 1. rewrite app_nth2 by (rewrite firstn_length; lia). rewrite firstn_length.
    replace (k + (0 + j) - Nat.min k (length v)) with j by lia.
    rewrite <- (firstn_skipn n (skipn k v)) at 1. rewrite app_nth1 by (rewrite firstn_length, skipn_length; lia). reflexivity.
Qed.
Lemma tape_follows : forall v, follows (tape v) 0 v.
Proof. intros v t n _ H. unfold tape. cbv zeta. rewrite Nat.sub_0_r, seq_nth_firstn by lia. reflexivity. Qed.

(** ** The messages of a layer as moves of a game *)
Definition qcoefs (q : quadratic_poly) : list F := [fld (q_a q); fld (q_b q); fld (q_c q)].
Definition pcoefs (q : quintuple_poly) : list F :=
  [fld (p_a q); fld (p_b q); fld (p_c q); fld (p_d q); fld (p_e q); fld (p_f q)].
Lemma qcoefs_rep : forall q, reduced_quad q -> qrep q (qcoefs q).
Proof.
  intros q (A & B & C). unfold qcoefs. eexists _, _, _. split; [reflexivity|]. split; [apply rep_fld, A|].
  split; apply rep_fld; assumption.
Qed.
Lemma pcoefs_rep : forall q, reduced_quint q -> prep q (pcoefs q).
Proof.
  intros q (A & B & C & D & E & G). unfold pcoefs. eexists _, _, _, _, _, _. split; [reflexivity|].
  split; [apply rep_fld, A|]. split; [apply rep_fld, B|]. split; [apply rep_fld, C|]. split; [apply rep_fld, D|].
  split; apply rep_fld; assumption.
Qed.

Section Moves.
Context {S : Type}.
Variable J : zprover_if S.
Hypothesis TJ : ztyped J.
Variable b : nat.
Hypothesis Hb : 1 <= b.
Variable gen : list F -> list F -> fe -> fe -> outcome fe.

Definition zmsg (pre : list F) (g : S * (fe * fe)) : outcome (list F * (S * (fe * fe))) :=
  let '(s, vv) := g in
  if length pre <? b then
    let prev := fe_of (last pre 0%F) in
    if length pre + 1 =? b then ' (q, s) <- zi_phase1_lastbit J s prev (length pre) ;; Ok (pcoefs q, (s, vv))
    else ' (q, s) <- zi_phase1_update J s prev (length pre) ;; Ok (qcoefs q, (s, vv))
  else
    let ru := firstn b pre in let R := skipn b pre in
    let prev := fe_of (last R 0%F) in
    if length pre <? 2 * b then
      s <- (if length R =? 0 then zi_phase2_init J s (fe_of (last ru 0%F)) (fes ru) (fes (comp ru)) else Ok s) ;;
      if length R + 1 =? b then ' (q, s) <- zi_phase2_lastbit J s prev (length R) ;; Ok (pcoefs q, (s, vv))
      else ' (q, s) <- zi_phase2_update J s prev (length R) ;; Ok (qcoefs q, (s, vv))
    else
      ' ((v_u, v_v), s) <- zi_finalize J s prev ;;
      general <- gen ru R v_u v_v ;;
      ' (q, s) <- zi_finalround J s prev (b * 2) general ;;
      Ok (qcoefs q, (s, (v_u, v_v))).

Lemma zmsg_deg : forall pre g p g', length pre < 2 * b + 1 -> zmsg pre g = Ok (p, g') -> length p = Datatypes.S (zdeg b (length pre)).
Proof.
  intros pre [s vv] p g' Hl E. unfold zmsg in E. unfold zdeg.
  destruct (Nat.ltb_spec (length pre) b) as [H1|H1].
  - cbv zeta in E. destruct (Nat.eqb_spec (length pre + 1) b); apply bind_inv in E; destruct E as ([q s'] & _ & E); apply Ok_inj in E; injection E as <- _.
    + replace (length pre =? b - 1) with true by (symmetry; apply Nat.eqb_eq; lia). reflexivity.
    + destruct (Nat.eqb_spec (length pre) (b - 1)); [lia|]. destruct (Nat.eqb_spec (length pre) (2 * b - 1)); [lia|]. reflexivity.
  - cbv zeta in E. rewrite skipn_length in E. destruct (Nat.ltb_spec (length pre) (2 * b)) as [H2|H2].
    + apply bind_inv in E. destruct E as (s1 & _ & E).
      destruct (Nat.eqb_spec (length pre - b + 1) b); apply bind_inv in E; destruct E as ([q s'] & _ & E); apply Ok_inj in E; injection E as <- _.
      * replace (length pre =? 2 * b - 1) with true by (symmetry; apply Nat.eqb_eq; lia). rewrite orb_true_r. reflexivity.
      * destruct (Nat.eqb_spec (length pre) (b - 1)); [lia|]. destruct (Nat.eqb_spec (length pre) (2 * b - 1)); [lia|]. reflexivity.
    + apply bind_inv in E. destruct E as ([[vu v_v] s1] & _ & E). apply bind_inv in E. destruct E as (x & _ & E).
      apply bind_inv in E; destruct E as ([q s'] & _ & E); apply Ok_inj in E; injection E as <- _.
      destruct (Nat.eqb_spec (length pre) (b - 1)); [lia|]. destruct (Nat.eqb_spec (length pre) (2 * b - 1)); [lia|]. reflexivity.
Qed.

(** Phase 1. *)
Definition zbody1 (n : nat) (r_u : list fe) := fun j (st : fe * fe * list msg * S) =>
    let '(prev, sum, t, s) := st in
    if j + 1 =? n then
      ' (poly, s) <- zi_phase1_lastbit J s prev j ;;
      r <- rd r_u j ;;
      reject_if (fe_ne (fe_add (quintuple_eval poly (fe_of_int 0)) (quintuple_eval poly (fe_of_int 1))) sum) ;;;
      Ok (r, quintuple_eval poly r, t ++ quint_msgs poly, s)
    else
      ' (poly, s) <- zi_phase1_update J s prev j ;;
      r <- rd r_u j ;;
      reject_if (fe_ne (fe_add (quadratic_eval poly (fe_of_int 0)) (quadratic_eval poly (fe_of_int 1))) sum) ;;;
      Ok (r, quadratic_eval poly r, t ++ quad_msgs poly, s).
Lemma phase1_moves : forall R pre sm w t s vv prev' sm' t' s', length (pre ++ R) = b -> rep sm w ->
  for_ (length R) (length pre) (zbody1 b (fes (pre ++ R))) (fe_of (last pre 0%F), sm, t, s) = Ok (prev', sm', t', s') ->
  exists w', prev' = fe_of (last (pre ++ R) 0%F) /\ rep sm' w' /\ draws t' = draws t /\
    play zmsg R pre w (s, vv) = Ok (w', (s', vv)).
Proof.
  induction R as [|r R IH]; intros pre sm w t s vv prev' sm' t' s' HL Hw E.
  - cbn [length for_] in E. apply Ok_inj in E. injection E as <- <- <- <-. exists w. rewrite app_nil_r.
    split; [reflexivity|]. split; [exact Hw|]. split; reflexivity.
  - cbn [length for_] in E. apply bind_inv in E. destruct E as ([[[prev1 sm1] t1] s1] & E1 & E).
    assert (Hl : length pre < b) by (rewrite app_length in HL; cbn [length] in HL; lia).
    replace (pre ++ r :: R) with ((pre ++ [r]) ++ R) in * by (rewrite <- app_assoc; reflexivity).
    assert (K : exists p, zmsg pre (s, vv) = Ok (p, (s1, vv)) /\ (peval p 0 + peval p 1)%F = w /\ prev1 = fe_of r /\
       rep sm1 (peval p r) /\ draws t1 = draws t).
    { unfold zbody1 in E1. unfold zmsg. destruct (Nat.ltb_spec (length pre) b); [|lia]. cbv zeta.
      destruct (length pre + 1 =? b).
      - apply bind_inv in E1. destruct E1 as ([q s2] & Eq & E1). rewrite Eq, bind_Ok.
        rewrite <- app_assoc in E1. cbn [app] in E1. rewrite fes_rd, bind_Ok in E1. apply reject_inv in E1. destruct E1 as [Er E1].
        apply Ok_inj in E1. injection E1 as <- <- <- <-. exists (pcoefs q). split; [reflexivity|].
        pose proof (pcoefs_rep q (zt_1l J TJ _ _ _ _ _ Eq)) as Rq. split; [|split; [reflexivity|split]].
        + eapply fne_inv; [|exact Hw|exact Er]. apply rep_add; apply quintuple_eval_ok; try exact Rq; [exact rep_i0|exact rep_i1].
        + apply quintuple_eval_ok; [exact Rq|apply rep_fe_of].
        + rewrite draws_app, draws_quint. lia.
      - apply bind_inv in E1. destruct E1 as ([q s2] & Eq & E1). rewrite Eq, bind_Ok.
        rewrite <- app_assoc in E1. cbn [app] in E1. rewrite fes_rd, bind_Ok in E1. apply reject_inv in E1. destruct E1 as [Er E1].
        apply Ok_inj in E1. injection E1 as <- <- <- <-. exists (qcoefs q). split; [reflexivity|].
        pose proof (qcoefs_rep q (zt_1 J TJ _ _ _ _ _ Eq)) as Rq. split; [|split; [reflexivity|split]].
        + eapply fne_inv; [|exact Hw|exact Er]. apply rep_add; apply quadratic_eval_ok; try exact Rq; [exact rep_i0|exact rep_i1].
        + apply quadratic_eval_ok; [exact Rq|apply rep_fe_of].
        + rewrite draws_app, draws_quad. lia. }
    destruct K as (p & Em & Es & -> & Rs & Dt).
    replace (Datatypes.S (length pre)) with (length (pre ++ [r])) in E by (rewrite app_length; cbn [length]; lia).
    replace (fe_of r) with (fe_of (last (pre ++ [r]) 0%F)) in E by (rewrite last_last; reflexivity).
    destruct (IH (pre ++ [r]) sm1 (peval p r) t1 s1 vv prev' sm' t' s' HL Rs E) as (w' & P1 & P2 & P3 & P4).
    exists w'. split; [exact P1|]. split; [exact P2|]. split; [congruence|].
    cbn [play]. rewrite Em, bind_Ok. destruct (F_eq_dec _ _); [exact P4|contradiction].
Qed.

(** Phase 2, when no relay term is added. *)
Definition zbody2 (n : nat) (relay : fe) := fun j (st : fe * fe * list fe * list msg * S) =>
    let '(prev, sum, r_v, t, s) := st in
    r_v <- Ok r_v ;;
    if j + 1 =? n then
      ' (poly, s) <- zi_phase2_lastbit J s prev j ;;
      r <- rd r_v j ;;
      reject_if (fe_ne (fe_add (fe_add (quintuple_eval poly (fe_of_int 0)) (quintuple_eval poly (fe_of_int 1)))
                               (fe_mul relay (zi_v_u J s))) sum) ;;;
      Ok (r, fe_add (quintuple_eval poly r) (fe_mul relay (zi_v_u J s)), r_v, t ++ quint_msgs poly, s)
    else
      ' (poly, s) <- zi_phase2_update J s prev j ;;
      r <- rd r_v j ;;
      reject_if (fe_ne (fe_add (fe_add (quadratic_eval poly (fe_of_int 0)) (quadratic_eval poly (fe_of_int 1)))
                               (fe_mul relay (zi_v_u J s))) sum) ;;;
      Ok (r, fe_add (quadratic_eval poly r) (fe_mul relay (zi_v_u J s)), r_v, t ++ quad_msgs poly, s).
Lemma relay_nothing : forall relay x s a, rep relay 0%F -> rep x a -> rep (fe_add x (fe_mul relay (zi_v_u J s))) a.
Proof.
  intros relay x s a R0 Rx. eapply rep_eq; [apply rep_add; [exact Rx|apply rep_mul; [exact R0|apply rep_fld, (zt_v J TJ)]]|]. ring.
Qed.
Lemma phase2_moves : forall ru relay, length ru = b -> rep relay 0%F ->
  forall R Q sm w t s0 s vv prev' sm' rv' t' s', length (Q ++ R) = b -> rep sm w -> (R = [] -> Q <> []) ->
  (if length Q =? 0 then zi_phase2_init J s0 (fe_of (last ru 0%F)) (fes ru) (fes (comp ru)) else Ok s0) = Ok s ->
  for_ (length R) (length Q) (zbody2 b relay) (fe_of (last Q 0%F), sm, fes (Q ++ R), t, s) = Ok (prev', sm', rv', t', s') ->
  exists w', prev' = fe_of (last (Q ++ R) 0%F) /\ rv' = fes (Q ++ R) /\ rep sm' w' /\ draws t' = draws t /\
    play zmsg R (ru ++ Q) w (s0, vv) = Ok (w', (s', vv)).
Proof.
  intros ru relay Lu Rr. induction R as [|r R IH]; intros Q sm w t s0 s vv prev' sm' rv' t' s' HL Hw NE Ei E.
  - cbn [length for_] in E. apply Ok_inj in E. injection E as <- <- <- <- <-. exists w. rewrite app_nil_r.
    split; [reflexivity|]. split; [reflexivity|]. split; [exact Hw|]. split; [reflexivity|].
    destruct (Nat.eqb_spec (length Q) 0) as [H|H]; [destruct Q; [|discriminate]; exfalso; apply NE; reflexivity|].
    apply Ok_inj in Ei. subst s0. reflexivity.
  - cbn [length for_] in E. apply bind_inv in E. destruct E as ([[[[prev1 sm1] rv1] t1] s1] & E1 & E).
    assert (Hl : length Q < b) by (rewrite app_length in HL; cbn [length] in HL; lia).
    replace (Q ++ r :: R) with ((Q ++ [r]) ++ R) in * by (rewrite <- app_assoc; reflexivity).
    assert (K : exists p, zmsg (ru ++ Q) (s0, vv) = Ok (p, (s1, vv)) /\ (peval p 0 + peval p 1)%F = w /\ prev1 = fe_of r /\
       rv1 = fes ((Q ++ [r]) ++ R) /\ rep sm1 (peval p r) /\ draws t1 = draws t).
    { unfold zbody2 in E1. rewrite bind_Ok in E1. unfold zmsg. rewrite app_length, Lu.
      destruct (Nat.ltb_spec (b + length Q) b); [lia|]. cbv zeta.
      destruct (firstn_len_app b Hb ru Q Lu) as [-> ->].
      destruct (Nat.ltb_spec (b + length Q) (2 * b)); [|lia]. rewrite Ei, bind_Ok.
      destruct (length Q + 1 =? b).
      - apply bind_inv in E1. destruct E1 as ([q s2] & Eq & E1). rewrite Eq, bind_Ok.
        rewrite <- app_assoc in E1. cbn [app] in E1. rewrite fes_rd, bind_Ok in E1. apply reject_inv in E1. destruct E1 as [Er E1].
        apply Ok_inj in E1. injection E1 as <- <- <- <- <-. exists (pcoefs q). split; [reflexivity|].
        pose proof (pcoefs_rep q (zt_2l J TJ _ _ _ _ _ Eq)) as Rq. split; [|split; [reflexivity|split; [rewrite <- app_assoc; reflexivity|split]]].
        + eapply fne_inv; [|exact Hw|exact Er]. apply relay_nothing; [exact Rr|].
          apply rep_add; apply quintuple_eval_ok; try exact Rq; [exact rep_i0|exact rep_i1].
        + apply relay_nothing; [exact Rr|]. apply quintuple_eval_ok; [exact Rq|apply rep_fe_of].
        + rewrite draws_app, draws_quint. lia.
      - apply bind_inv in E1. destruct E1 as ([q s2] & Eq & E1). rewrite Eq, bind_Ok.
        rewrite <- app_assoc in E1. cbn [app] in E1. rewrite fes_rd, bind_Ok in E1. apply reject_inv in E1. destruct E1 as [Er E1].
        apply Ok_inj in E1. injection E1 as <- <- <- <- <-. exists (qcoefs q). split; [reflexivity|].
        pose proof (qcoefs_rep q (zt_2 J TJ _ _ _ _ _ Eq)) as Rq. split; [|split; [reflexivity|split; [rewrite <- app_assoc; reflexivity|split]]].
        + eapply fne_inv; [|exact Hw|exact Er]. apply relay_nothing; [exact Rr|].
          apply rep_add; apply quadratic_eval_ok; try exact Rq; [exact rep_i0|exact rep_i1].
        + apply relay_nothing; [exact Rr|]. apply quadratic_eval_ok; [exact Rq|apply rep_fe_of].
        + rewrite draws_app, draws_quad. lia. }
    destruct K as (p & Em & Es & -> & -> & Rs & Dt).
    replace (Datatypes.S (length Q)) with (length (Q ++ [r])) in E by (rewrite app_length; cbn [length]; lia).
    replace (fe_of r) with (fe_of (last (Q ++ [r]) 0%F)) in E by (rewrite last_last; reflexivity).
    destruct (IH (Q ++ [r]) sm1 (peval p r) t1 s1 s1 vv prev' sm' rv' t' s' HL Rs) as (w' & P1 & P2 & P3 & P4 & P5).
    { intros _ K. destruct Q; discriminate. }
    { rewrite app_length. cbn [length]. rewrite Nat.add_1_r. reflexivity. }
    { exact E. }
    exists w'. split; [exact P1|]. split; [exact P2|]. split; [exact P3|]. split; [congruence|].
    cbn [play]. rewrite Em, bind_Ok. rewrite <- app_assoc. destruct (F_eq_dec _ _); [exact P5|contradiction].
Qed.
End Moves.

