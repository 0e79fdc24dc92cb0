(** * What a layer of the honest prover shows *)
From Coq Require Import ZArith List Bool Arith Lia Ring.
From Verif Require Import Limbs Field FieldProofs Fp Base ArithProofs MleSpec GkrMath Poly PolyProofs Circuit
  FastProver FastVerifier Lazy TablesProofs FastProverProofs PhaseProofs FastVerifierProofs SpecGkr SpecVpd SpecZk
  VpdGroup VpdR VpdMask VpdInput VpdGroupProofs VpdRProofs VpdMaskProofs VpdInputProofs SpecTranscript Transcript TranscriptProofs LoaderProofs Count PropsVpd SoundProofs SumGame
  ZkEval ZkEvalProofs ZkProver ZkVerifier ZkPhaseProofs ZkMaskProofs ZkRoundProofs ZkLayerProofs ZkPredProofs ZkOpenProofs ZkLinkProofs
  ZkVerifierProofs ZkComplete ZkFacts ZkIdeal ZkTarget ZkSoundProofs ZkSoundUpper ZkHide ZkView ZkGroup.
Import ListNotations.
Open Scope nat_scope.

Lemma bind_assoc : forall A B D (m : outcome A) (f : A -> outcome B) (g : B -> outcome D),
  bind (bind m f) g = bind m (fun x => bind (f x) g).
Proof. intros A B D [] f g; reflexivity. Qed.

(** ** Logs of rounds *)
(** [l] is the coefficients of messages [k], ..., [k + n - 1], message [j] being the
    polynomial [f j]. *)
Definition rlog (b k n : nat) (f : nat -> F -> F) (l : list F) : Prop := exists qs, length qs = n /\
  (forall j, j < n -> length (nth j qs []) = S (zdeg b (k + j)) /\ forall t, peval (nth j qs []) t = f (k + j) t) /\ l = concat qs.
Lemma rlog_nil : forall b k f, rlog b k 0 f [].
Proof. intros. exists []. split; [reflexivity|]. split; [intros; lia|reflexivity]. Qed.
Lemma rlog_app : forall b k n n' f l l', rlog b k n f l -> rlog b (k + n) n' f l' -> rlog b k (n + n') f (l ++ l').
Proof.
  intros b k n n' f l l' (qs & L & H & ->) (qs' & L' & H' & ->). exists (qs ++ qs'). rewrite app_length. split; [lia|].
  split; [|symmetry; apply concat_app]. intros j Hj. destruct (Nat.lt_ge_cases j n) as [A|A].
  - rewrite app_nth1 by lia. apply H, A.
  - rewrite app_nth2 by lia. rewrite L. replace (k + j) with (k + n + (j - n)) by lia. apply H'. lia.
Qed.
Lemma rlog_one : forall b k f q, length q = S (zdeg b k) -> (forall t, peval q t = f k t) -> rlog b k 1 f q.
Proof.
  intros b k f q L H. exists [q]. split; [reflexivity|]. split; [|cbn [concat]; rewrite app_nil_r; reflexivity].
  intros j Hj. replace j with 0 by lia. rewrite Nat.add_0_r. split; assumption.
Qed.
Lemma rlog_ext : forall b k n f g l, rlog b k n f l -> (forall j t, k <= j < k + n -> f j t = g j t) -> rlog b k n g l.
Proof.
  intros b k n f g l (qs & L & H & ->) E. exists qs. split; [exact L|]. split; [|reflexivity]. intros j Hj. destruct (H j Hj) as [A B].
  split; [exact A|]. intro t. rewrite B. apply E. lia.
Qed.
Lemma peval_zero : forall c, length c <= 100 -> (forall t, peval c t = 0%F) -> c = repeat 0%F (length c).
Proof.
  intros c. induction c as [|d c IH] using rev_ind; intros Hl H; [reflexivity|].
  rewrite app_length in *. cbn [length] in *.
  assert (D0 : d = 0%F). { pose proof (H 0%F) as E. rewrite peval_snoc in E. rewrite <- E. ring. }
  assert (C0 : forall t, peval c t = 0%F).
  { intro t. destruct (F_eq_dec (peval c t) 0%F) as [E|N]; [exact E|exfalso].
    destruct (peval_roots 100 c ltac:(lia) (ex_intro _ t N)) as (r & Lr & Hr).
    destruct F_all as (l & Ll & ND).
    assert (I : incl l (0%F :: r)).
    { intros x _. destruct (F_eq_dec x 0%F) as [->|Nx]; [left; reflexivity|right]. apply Hr.
      pose proof (H x) as E. rewrite peval_snoc, D0 in E.
      assert (E' : (x * peval c x = 0)%F) by (rewrite <- E; ring).
      apply F_integral in E'. destruct E' as [E'|E']; [contradiction|exact E']. }
    pose proof (NoDup_incl_length ND I) as Le. cbn [length] in Le. pose proof W64_lt_P as W.
    assert (W101 : (101 < W64)%Z) by reflexivity. lia. }
  rewrite repeat_app. rewrite <- (IH ltac:(lia) C0), D0. reflexivity.
Qed.
Lemma peval_inj : forall p q, length p <= 100 -> length p = length q -> (forall t, peval p t = peval q t) -> p = q.
Proof.
  intros p q Hn L H. 
  assert (S : exists e, length e = length p /\ (forall x, peval e x = (peval p x - peval q x)%F) /\ (e = repeat 0%F (length e) -> p = q)).
  { clear - L. revert q L. induction p as [|a p IH]; intros [|b q] L; try discriminate.
    - exists []. split; [reflexivity|]. split; [intro; cbn [peval]; ring|reflexivity].
    - injection L as L. destruct (IH q L) as (e & Le & He & Hz). exists ((a - b)%F :: e). split; [cbn [length]; lia|]. split.
      + intro x. cbn [peval]. rewrite He, Le, L. ring.
      + cbn [length repeat]. intro E. pose proof (f_equal (hd 0%F) E) as E0. pose proof (f_equal (@tl F) E) as E1. cbn [hd tl] in E0, E1. f_equal; [|apply Hz, E1].
        transitivity ((a - b) + b)%F; [ring|]. rewrite E0. ring. }
  destruct S as (e & Le & He & Hz). apply Hz, peval_zero; [lia|]. intro t. rewrite He, H. ring.
Qed.
Lemma rlog_fun : forall b k n f l l', rlog b k n f l -> rlog b k n f l' -> l = l'.
Proof.
  intros b k n f l l' (qs & L & H & ->) (qs' & L' & H' & ->). f_equal. apply nth_ext with (d := []) (d' := []); [lia|].
  intros j Hj. rewrite L in Hj. destruct (H j Hj) as [A B], (H' j Hj) as [A' B']. apply peval_inj.
  - rewrite A. unfold zdeg. destruct (_ || _); lia.
  - rewrite A, A'. reflexivity.
  - intro t. rewrite B, B'. reflexivity.
Qed.
Lemma num_rep : forall x a, rep x a -> num x = fz a.
Proof. intros x a [_ H]. exact H. Qed.
Lemma quad_nums_rep : forall p q, qrep p q -> quad_nums p = map fz q /\ length q = 3.
Proof.
  intros p q (a & b & d & -> & A & B & D). unfold quad_nums. cbn [map]. rewrite (num_rep _ _ A), (num_rep _ _ B), (num_rep _ _ D).
  split; reflexivity.
Qed.
Lemma quint_nums_rep : forall p q, prep p q -> quint_nums p = map fz q /\ length q = 6.
Proof.
  intros p q (a & b & d & e & g & h & -> & A & B & D & E & G & H). unfold quint_nums. cbn [map].
  rewrite (num_rep _ _ A), (num_rep _ _ B), (num_rep _ _ D), (num_rep _ _ E), (num_rep _ _ G), (num_rep _ _ H). split; reflexivity.
Qed.

(** Challenges. *)
Lemma tape_step : forall A v t n q (k : list fe * list msg -> outcome A) Q, draws t = q ->
  (forall t', draws t' = q + n -> returns (k (fes (at_tape v q n), t')) Q) -> returns (bind (tape v t n) k) Q.
Proof.
  intros A v t n q k Q Hq H. unfold tape. cbv zeta. rewrite bind_ok, Hq. apply H.
  rewrite draws_app, draws_rand, fes_length, map_length, seq_length. lia.
Qed.
Lemma at_tape_length : forall v q n, length (at_tape v q n) = n.
Proof. intros. unfold at_tape. rewrite map_length, seq_length. reflexivity. Qed.
Lemma at_tape_1 : forall v q, nth 0 (at_tape v q 1) 0%F = nth q v 0%F.
Proof. intros. unfold at_tape. cbn [seq map nth]. rewrite Nat.add_0_r. reflexivity. Qed.

(** ** The rounds *)
Section Rounds.
Variables (fr : nat -> u512) (zr : nat -> Z).
Variables (N n : nat) (c : nat -> F) (cu cv : F) (V M A : nat -> F) (z0 : zprover) (sc : list F).
Let J := recording (zhonest fr zr).
Hypothesis Hn : 0 < n.
Hypothesis Hlu : p_length_u (z_p z0) = n.
Hypothesis Hlv : p_length_v (z_p z0) = n.
Hypothesis Hsc : qrep (r_sumRc (z_r z0)) sc.

(** The message of round [j] of a phase. *)
Definition rfun (M : nat -> F) (pre R : list F) (j : nat) (t : F) : F :=
  (zround n c (cu + cv) V M A pre (firstn j R) t + if S j =? n then zlast (folds (firstn j R) M) (zp (firstn j R)) (peval sc) t else 0)%F.

Lemma vphase1_rounds_ok : forall r_u R sum t l, length R = n -> reps r_u R ->
  zs N n c cu cv V M A false [] [] z0 z0 -> rep sum (zsum n c (cu + cv)%F V M A [] []) ->
  returns (zphase1_rounds J n r_u sum t (z0, l)) (fun st => let '(prev, sum, t', (z', l')) := st in
    rep prev (last R 0%F) /\
    rep sum (mle R M * (mle R V + zp R * peval sc (last R 0)) + mle R A + (cu + cv) * op R + Mk c n R)%F /\
    draws t' = draws t /\ zs N n c cu cv V M A false [] R z0 z' /\
    snd l' = snd l /\ exists q, fst l' = fst l ++ map fz q /\ rlog n 0 n (rfun M [] R) q).
Proof.
  intros r_u R sum t l HR Hr Z0 Hs. unfold zphase1_rounds.
  eapply returns_conseq.
  - apply (returns_for _ n 0 _ (fun j st => let '(prev, sum, t', (z', l')) := st in
      let Rj := firstn j R in
      rep prev (last Rj 0%F) /\ 
      rep sum (zsum n c (cu + cv) V M A [] Rj + if j =? n then mle Rj M * (zp Rj * peval sc (last Rj 0)) else 0)%F /\
      draws t' = draws t /\
      zs N n c cu cv V M A false [] Rj z0 z' /\ snd l' = snd l /\ exists q, fst l' = fst l ++ map fz q /\ rlog n 0 j (rfun M [] R) q)).
    + cbn [firstn last]. split; [exact rep_i0|]. split; [|split; [reflexivity|split; [exact Z0|split; [reflexivity|exists []; split; [symmetry; apply app_nil_r|apply rlog_nil]]]]].
      destruct (Nat.eqb_spec 0 n); [lia|]. eapply rep_eq; [exact Hs|ring].
    + intros j [[[prev sm] t'] [z' l']] Hj (Rp & Rs & Lt & Z & Sl & q0 & Nl & RL). simpl in Hj.
      assert (Lj : length (firstn j R) = j) by (rewrite firstn_length; lia).
      destruct (Nat.eqb_spec j n); [lia|].
      destruct (Nat.eqb_spec (j + 1) n) as [El|El].
      * pose proof (zk_phase1_lastbit_ok N n c cu cv V M A z0 sc Hn Hlu Hlv Hsc (firstn j R) z' prev ltac:(lia) Z Rp) as SU.
        rewrite Lj in SU. unfold J. cbn [recording zhonest zi_phase1_lastbit zi_v_u]. cbn [fst snd]. rewrite bind_assoc.
        eapply returns_bind; [exact SU|]. clear SU. intros [poly z2] (Z2 & q & Qr & Hq). rewrite bind_ok. fold J.
        destruct (quint_nums_rep _ _ Qr) as [QN QL]. rewrite QN. cbn [fst snd].
        eapply rb_reps; [exact Hr|lia|]. intros r Rr.
        pose proof (quintuple_eval_ok _ _ _ _ Qr rep_i0) as Q0. pose proof (quintuple_eval_ok _ _ _ _ Qr rep_i1) as Q1.
        rewrite Hq in Q0, Q1.
        apply rb_reject.
        { eapply rep_fne_false; [apply rep_add; [exact Q0|exact Q1]|exact Rs|].
          rewrite <- zround_01 by (cbn [length]; lia). unfold zlast. ring. }
        apply returns_ok. cbv zeta. rewrite (firstn_S_nth R j) by lia. rewrite last_last.
        split; [exact Rr|]. split; [|split; [|split; [|split]]].
        -- replace (S j =? n) with true by (symmetry; apply Nat.eqb_eq; lia).
           pose proof (quintuple_eval_ok _ _ _ _ Qr Rr) as Q. rewrite Hq in Q.
           rewrite zround_next in Q by (cbn [length]; lia). rewrite zlast_end in Q. exact Q.
        -- rewrite draws_app, draws_quint, Nat.add_0_r; exact Lt.
        -- apply Z2.
        -- cbn [say snd]. rewrite app_nil_r. exact Sl.
        -- exists (q0 ++ q). cbn [say fst]. rewrite Nl, map_app, app_assoc. split; [reflexivity|].
           replace (S j) with (j + 1) by lia. apply rlog_app; [exact RL|]. apply rlog_one.
           ++ rewrite QL. unfold zdeg. destruct (Nat.eqb_spec (0 + j) (n - 1)); [reflexivity|lia].
           ++ intro x. rewrite Hq. unfold rfun. cbn [Nat.add]. destruct (Nat.eqb_spec (S j) n); [reflexivity|lia].
      * pose proof (zk_phase1_update_ok N n c cu cv V M A z0 Hn Hlu Hlv (firstn j R) z' prev ltac:(lia) Z Rp) as SU.
        rewrite Lj in SU. unfold J. cbn [recording zhonest zi_phase1_update zi_v_u]. cbn [fst snd]. rewrite bind_assoc.
        eapply returns_bind; [exact SU|]. clear SU. intros [poly z2] (Z2 & q & Qr & Hq). rewrite bind_ok. fold J.
        destruct (quad_nums_rep _ _ Qr) as [QN QL]. rewrite QN. cbn [fst snd].
        eapply rb_reps; [exact Hr|lia|]. intros r Rr.
        pose proof (quadratic_eval_ok _ _ _ _ Qr rep_i0) as Q0. pose proof (quadratic_eval_ok _ _ _ _ Qr rep_i1) as Q1.
        rewrite Hq in Q0, Q1.
        apply rb_reject.
        { eapply rep_fne_false; [apply rep_add; [exact Q0|exact Q1]|exact Rs|].
          rewrite <- zround_01 by (cbn [length]; lia). ring. }
        apply returns_ok. cbv zeta. rewrite (firstn_S_nth R j) by lia. rewrite last_last.
        split; [exact Rr|]. split; [|split; [|split; [|split]]].
        -- destruct (Nat.eqb_spec (S j) n); [lia|].
           pose proof (quadratic_eval_ok _ _ _ _ Qr Rr) as Q. rewrite Hq in Q.
           rewrite zround_next in Q by (cbn [length]; lia). eapply rep_eq; [exact Q|ring].
        -- rewrite draws_app, draws_quad, Nat.add_0_r; exact Lt.
        -- apply Z2.
        -- cbn [say snd]. rewrite app_nil_r. exact Sl.
        -- exists (q0 ++ q). cbn [say fst]. rewrite Nl, map_app, app_assoc. split; [reflexivity|].
           replace (S j) with (j + 1) by lia. apply rlog_app; [exact RL|]. apply rlog_one.
           ++ rewrite QL. unfold zdeg. destruct (Nat.eqb_spec (0 + j) (n - 1)); [lia|]. destruct (Nat.eqb_spec (0 + j) (2 * n - 1)); [lia|reflexivity].
           ++ intro x. rewrite Hq. unfold rfun. cbn [Nat.add]. destruct (Nat.eqb_spec (S j) n); [lia|]. ring.
  - intros [[[prev sm] t'] [z' l']] H. simpl (0 + n) in H. rewrite Nat.eqb_refl in H.
    rewrite (firstn_all2 R) in H by lia. cbv zeta in H. destruct H as (H1 & H2 & H3 & H4 & H5).
    rewrite zsum_end in H2 by exact HR. split; [exact H1|]. split; [eapply rep_eq; [exact H2|cbn [app]; ring]|].
    split; [exact H3|split; [exact H4|exact H5]].
Qed.

Lemma vphase2_rounds_ok : forall zero relay d vu r_v ru Rv sum t l, length ru = n -> length Rv = n -> reps r_v Rv ->
  zs N n c cu cv V M A true ru [] z0 z0 -> rep relay d -> rep (p_v_u (z_p z0)) vu ->
  rep sum (zsum n c (cu + cv)%F V M A ru [] + d * vu)%F ->
  returns (zphase2_rounds J n zero relay r_v sum t (z0, l)) (fun st => let '(prev, sum, r_v', t', (z', l')) := st in
    let R := rv_point zero Rv in
    rep prev (last R 0%F) /\
    rep sum (mle R M * (mle R V + zp R * peval sc (last R 0)) + mle R A + (cu + cv) * op (ru ++ R) + Mk c n (ru ++ R) + d * vu)%F /\
    reps r_v' R /\ draws t' = draws t /\ zs N n c cu cv V M A true ru R z0 z' /\
    snd l' = snd l /\ exists q, fst l' = fst l ++ map fz q /\ rlog n n n (fun j => rfun M ru R (j - n)) q).
Proof.
  intros zero relay d vu r_v ru Rv sum t l Hru HR Hr Z0 Hd Hvu Hs. unfold zphase2_rounds.
  set (R := rv_point zero Rv). assert (LR : length R = n) by (unfold R; rewrite rv_length; exact HR).
  eapply returns_conseq.
  - apply (returns_for _ n 0 _ (fun j st => let '(prev, sum, r_v', t', (z', l')) := st in
      let Rj := firstn j R in
      rep prev (last Rj 0%F) /\ 
      rep sum (zsum n c (cu + cv) V M A ru Rj + (if j =? n then mle Rj M * (zp Rj * peval sc (last Rj 0)) else 0) + d * vu)%F /\
      reps r_v' (firstn j R ++ skipn j Rv) /\
      draws t' = draws t /\
      zs N n c cu cv V M A true ru Rj z0 z' /\ snd l' = snd l /\ exists q, fst l' = fst l ++ map fz q /\ rlog n n j (fun j => rfun M ru R (j - n)) q)).
    + cbn [firstn last app skipn]. split; [exact rep_i0|]. split; [|split; [exact Hr|split; [reflexivity|split; [exact Z0|split; [reflexivity|exists []; split; [symmetry; apply app_nil_r|apply rlog_nil]]]]]].
      destruct (Nat.eqb_spec 0 n); [lia|]. eapply rep_eq; [exact Hs|ring].
    + intros j [[[[prev sm] rv] t'] [z' l']] Hj (Rp & Rs & Rrv & Lt & Z & Sl & q0 & Nl & RL). simpl in Hj.
      assert (Lj : length (firstn j R) = j) by (rewrite firstn_length; lia).
      assert (HS : firstn (S j) R ++ skipn (S j) Rv = firstn j R ++ nth j R 0%F :: skipn (S j) Rv).
      { rewrite (firstn_S_nth R j) by lia. rewrite <- app_assoc. reflexivity. }
      eapply (returns_bind _ _ _ _ (fun rv' => reps rv' (firstn (S j) R ++ skipn (S j) Rv))).
      { rewrite HS. destruct zero.
        - apply returns_wr.
          + rewrite (reps_length _ _ Rrv), app_length, Lj, skipn_length. lia.
          + pose proof (reps_upd _ _ j _ _ Rrv ltac:(rewrite app_length, Lj, skipn_length; lia) rep_i0) as K.
            assert (E0 : nth j R 0%F = 0%F).
            { unfold R. cbn [rv_point]. apply (map_nth (fun _ : F => 0%F) Rv 0%F j). }
            rewrite E0.
            rewrite firstn_app, Lj, Nat.sub_diag, firstn_O, app_nil_r, firstn_firstn, Nat.min_id in K.
            rewrite skipn_app, Lj, (skipn_all2 (firstn j R)) in K by lia.
            replace (S j - j) with 1 in K by lia. cbn [app] in K.
            rewrite (skipn_S_nth Rv j) in K by lia. cbn [skipn] in K. exact K.
        - apply returns_ok. unfold R in Rrv |- *. cbn [rv_point] in *. rewrite <- (skipn_S_nth Rv j) by lia. exact Rrv. }
      intros rv' Rrv'. cbv beta in Rrv'.
      assert (Rr : returns (rd rv' j) (fun r => rep r (nth j R 0%F))).
      { rewrite HS in Rrv'. eapply reps_rd; [exact Rrv'|rewrite app_length, Lj; simpl; lia|]. intros x Rx.
        rewrite app_nth2 in Rx by lia. rewrite Lj, Nat.sub_diag in Rx. exact Rx. }
      destruct (Nat.eqb_spec j n); [lia|].
      destruct (Nat.eqb_spec (j + 1) n) as [El|El].
      * pose proof (zk_phase2_lastbit_ok N n c cu cv V M A z0 sc Hn Hlu Hlv Hsc ru (firstn j R) z' prev Hru ltac:(lia) Z Rp) as SU.
        rewrite Lj in SU. unfold J. cbn [recording zhonest zi_phase2_lastbit zi_v_u]. cbn [fst snd]. rewrite bind_assoc.
        eapply returns_bind; [exact SU|]. clear SU. intros [poly z2] (Z2 & q & Qr & Hq). rewrite bind_ok. fold J.
        destruct (quint_nums_rep _ _ Qr) as [QN QL]. rewrite QN. cbn [fst snd].
        eapply returns_bind; [exact Rr|]. clear Rr. intros r Rr. cbv beta in Rr.
        assert (Rvu : rep (p_v_u (z_p z2)) vu).
        { destruct (zs_pp _ _ _ _ _ _ _ _ _ _ _ _ _ (Z2 0%F)) as (k & l1 & l2 & l3 & ->). exact Hvu. }
        pose proof (quintuple_eval_ok _ _ _ _ Qr rep_i0) as Q0. pose proof (quintuple_eval_ok _ _ _ _ Qr rep_i1) as Q1.
        rewrite Hq in Q0, Q1.
        apply rb_reject.
        { eapply rep_fne_false; [apply rep_add; [apply rep_add; [exact Q0|exact Q1]|apply rep_mul; [exact Hd|exact Rvu]]|exact Rs|].
          rewrite <- zround_01 by (cbn [length]; lia). unfold zlast. ring. }
        apply returns_ok. cbv zeta. split; [|split; [|split; [exact Rrv'|split; [|split; [|split]]]]].
        -- rewrite (firstn_S_nth R j) by lia. rewrite last_last. exact Rr.
        -- rewrite (firstn_S_nth R j) by lia. rewrite last_last.
           replace (S j =? n) with true by (symmetry; apply Nat.eqb_eq; lia).
           pose proof (quintuple_eval_ok _ _ _ _ Qr Rr) as Q. rewrite Hq in Q.
           rewrite zround_next in Q by (cbn [length]; lia). rewrite zlast_end in Q.
           apply rep_add; [exact Q|apply rep_mul; [exact Hd|exact Rvu]].
        -- rewrite draws_app, draws_quint, Nat.add_0_r; exact Lt.
        -- rewrite (firstn_S_nth R j) by lia. apply Z2.
        -- cbn [say snd]. rewrite app_nil_r. exact Sl.
        -- exists (q0 ++ q). cbn [say fst]. rewrite Nl, map_app, app_assoc. split; [reflexivity|].
           replace (S j) with (j + 1) by lia. apply rlog_app; [exact RL|]. apply rlog_one.
           ++ rewrite QL. unfold zdeg. destruct (Nat.eqb_spec (n + j) (2 * n - 1)); [rewrite orb_true_r; reflexivity|lia].
           ++ intro x. rewrite Hq. unfold rfun. replace (n + j - n) with j by lia. destruct (Nat.eqb_spec (S j) n); [reflexivity|lia].
      * pose proof (zk_phase2_update_ok N n c cu cv V M A z0 Hn Hlu Hlv ru Hru (firstn j R) z' prev ltac:(lia) Z Rp) as SU.
        rewrite Lj in SU. unfold J. cbn [recording zhonest zi_phase2_update zi_v_u]. cbn [fst snd]. rewrite bind_assoc.
        eapply returns_bind; [exact SU|]. clear SU. intros [poly z2] (Z2 & q & Qr & Hq). rewrite bind_ok. fold J.
        destruct (quad_nums_rep _ _ Qr) as [QN QL]. rewrite QN. cbn [fst snd].
        eapply returns_bind; [exact Rr|]. clear Rr. intros r Rr. cbv beta in Rr.
        assert (Rvu : rep (p_v_u (z_p z2)) vu).
        { destruct (zs_pp _ _ _ _ _ _ _ _ _ _ _ _ _ (Z2 0%F)) as (k & l1 & l2 & l3 & ->). exact Hvu. }
        pose proof (quadratic_eval_ok _ _ _ _ Qr rep_i0) as Q0. pose proof (quadratic_eval_ok _ _ _ _ Qr rep_i1) as Q1.
        rewrite Hq in Q0, Q1.
        apply rb_reject.
        { eapply rep_fne_false; [apply rep_add; [apply rep_add; [exact Q0|exact Q1]|apply rep_mul; [exact Hd|exact Rvu]]|exact Rs|].
          rewrite <- zround_01 by (cbn [length]; lia). ring. }
        apply returns_ok. cbv zeta. split; [|split; [|split; [exact Rrv'|split; [|split; [|split]]]]].
        -- rewrite (firstn_S_nth R j) by lia. rewrite last_last. exact Rr.
        -- rewrite (firstn_S_nth R j) by lia. rewrite last_last.
           destruct (Nat.eqb_spec (S j) n); [lia|].
           pose proof (quadratic_eval_ok _ _ _ _ Qr Rr) as Q. rewrite Hq in Q.
           rewrite zround_next in Q by (cbn [length]; lia).
           eapply rep_eq; [apply rep_add; [exact Q|apply rep_mul; [exact Hd|exact Rvu]]|ring].
        -- rewrite draws_app, draws_quad, Nat.add_0_r; exact Lt.
        -- rewrite (firstn_S_nth R j) by lia. apply Z2.
        -- cbn [say snd]. rewrite app_nil_r. exact Sl.
        -- exists (q0 ++ q). cbn [say fst]. rewrite Nl, map_app, app_assoc. split; [reflexivity|].
           replace (S j) with (j + 1) by lia. apply rlog_app; [exact RL|]. apply rlog_one.
           ++ rewrite QL. unfold zdeg. destruct (Nat.eqb_spec (n + j) (n - 1)); [lia|]. destruct (Nat.eqb_spec (n + j) (2 * n - 1)); [lia|reflexivity].
           ++ intro x. rewrite Hq. unfold rfun. replace (n + j - n) with j by lia. destruct (Nat.eqb_spec (S j) n); [lia|]. ring.
  - intros [[[[prev sm] rv] t'] [z' l']] H. simpl (0 + n) in H. rewrite Nat.eqb_refl in H.
    rewrite (firstn_all2 R) in H by lia. rewrite (skipn_all2 Rv) in H by lia. rewrite app_nil_r in H.
    cbv zeta in H |- *. destruct H as (H1 & H2 & H3 & H4 & H5 & H6).
    rewrite zsum_end in H2 by exact LR. split; [exact H1|]. split; [eapply rep_eq; [exact H2|ring]|].
    split; [exact H3|]. split; [exact H4|split; [exact H5|exact H6]].
Qed.
End Rounds.

(** ** The openings *)
Lemma red_fz : forall z a, red z -> ofZ z = a -> z = fz a.
Proof. intros z a R <-. symmetry. apply fz_ofZ_small, R. Qed.
Section Openings.
Variable enc : F -> list Z.
Variables (fr : nat -> u512) (zr : nat -> Z).
Hypothesis Hst : stream_ok fr zr.
Let J := recording (zhonest fr zr).
Let zf := fun k => ofZ (zr k).

Lemma vopen_R_ok : forall z q r_c rc dR mk pu pv t l, rep r_c rc -> length mk = 6 ->
  z_kR z = keyR_of (zf q) (zf (q + 1)) (zf (q + 2)) (zf (q + 3)) -> r_rf (z_r z) = fz (zf (q + 4)) ->
  rep (r_prepreu1 (z_r z)) pu -> rep (r_preprev1 (z_r z)) pv -> reps (r_preR (z_r z)) mk ->
  ropen (z_kR z) dR (map fz mk) (r_rf (z_r z)) ->
  returns (open_R enc J r_c dR t (z, l)) (fun res => let '(v1, v2, b, t', (z', l')) := res in
    zsame z z' /\ b = true /\ red v1 /\ red v2 /\
    ofZ v1 = poly_R (fun i => nth i mk 0%F) pu rc /\ ofZ v2 = poly_R (fun i => nth i mk 0%F) pv rc /\ draws t' = draws t /\ fst l' = fst l ++ [v1; v2] /\
    z_zpos z' = z_zpos z + 4 /\
    snd l' = snd l ++ openR_group zf q (z_zpos z) mk pu rc ++ openR_group zf q (z_zpos z + 2) mk pv rc).
Proof.
  intros z q r_c rc dR mk pu pv t l Rc Lm HKR Hrf Rpu Rpv Rm OP. unfold open_R, J. cbn [recording zhonest zi_prepreu1 zi_preprev1 zi_prove_R zi_kR]. cbn [fst snd].
  rewrite (gmp_ok _ _ Rpu), bind_ok, (gmp_ok _ _ Rc), bind_ok.
  rewrite bind_assoc. eapply returns_bind; [eapply returns_and4; [apply (prove_R_ok fr zr Hst z mk dR _ _ Rm OP); apply fz_red|]|].
  { intros x1 x2 x3 x4 Ex. exact (openR_calls fr zr Hst z q mk pu rc x1 x2 x3 x4 Rm Lm HKR Hrf Ex). }
  intros [[[v1 w] wa] z1] (((q1 & E1) & D1 & V1 & VV1 & L1 & L2) & Zq1 & G1). fold zf in G1. rewrite bind_ok. cbn [fst snd].
  assert (K1 : z_kR z1 = z_kR z) by (rewrite E1; reflexivity). rewrite K1, VV1, bind_ok.
  assert (R1 : z_r z1 = z_r z) by (rewrite E1; reflexivity). rewrite R1, (gmp_ok _ _ Rpv), bind_ok.
  rewrite bind_assoc. eapply returns_bind; [eapply returns_and4; [apply (prove_R_ok fr zr Hst z1 mk dR); [rewrite R1; exact Rm|rewrite K1, R1; exact OP| |]; apply fz_red|]|].
  { intros x1 x2 x3 x4 Ex. refine (openR_calls fr zr Hst z1 q mk pv rc x1 x2 x3 x4 _ Lm _ _ Ex); [rewrite R1; exact Rm|rewrite K1; exact HKR|rewrite R1; exact Hrf]. }
  intros [[[v2 w2] wa2] z2] (((q2 & E2) & D2 & V2 & VV2 & L3 & L4) & Zq2 & G2). fold zf in G2. rewrite bind_ok. cbn [fst snd].
  assert (K2 : z_kR z2 = z_kR z1) by (rewrite E2; reflexivity). rewrite K2, VV2, bind_ok.
  apply returns_ok. split; [eapply zsame_trans; [exists q1; exact E1|exists q2; exact E2]|].
  split; [reflexivity|]. split; [exact D1|]. split; [exact D2|]. rewrite V1, V2, !ofZ_fz.
  split; [reflexivity|]. split; [reflexivity|]. split; [rewrite !draws_app, !draws_curve; lia|].
  cbn [say fst snd]. rewrite <- app_assoc. split; [reflexivity|]. split; [lia|].
  rewrite G1, G2, Zq1, <- app_assoc. reflexivity.
Qed.

Lemma vopen_mask_ok : forall z q n r_u r_v r_c ru rv rc dM c0 t l, 1 <= n -> (Z.of_nat (2 * n + 1) < 2 ^ 200)%Z -> length c0 = 4 * n + 9 ->
  keyM_ok (2 * n + 1) (zf q) (skey zf q) (z_kM z) -> m_rf (z_m z) = fz (zf (q + (2 * n + 1) + 2)) -> reps r_u ru -> reps r_v rv -> length ru = n -> length rv = n -> rep r_c rc ->
  m_gmp (z_m z) = map fz c0 -> mopen (z_kM z) dM (2 * n + 1) (map fz c0) (m_rf (z_m z)) ->
  returns (open_mask enc J n r_u r_v r_c dM t (z, l)) (fun res => let '(v, b, t', (z', l')) := res in
    zsame z z' /\ b = true /\ red v /\
    ofZ v = mask_poly (2 * n + 1) (fun i => nth i c0 0%F) (fun i => nth i (ru ++ rv ++ [rc]) 0%F) /\ draws t' = draws t /\
    fst l' = fst l ++ v :: map num [r_Iuv (z_r z); r_preZu (z_r z); r_preZv (z_r z); r_prepreu1 (z_r z); r_preprev1 (z_r z)] /\
    z_zpos z' = z_zpos z + (2 * n + 1) /\
    snd l' = snd l ++ openM_group zf (2 * n + 1) q (z_zpos z) c0 (ru ++ rv ++ [rc])).
Proof.
  intros z q n r_u r_v r_c ru rv rc dM c0 t l Hn Hbig Lc HKM Hrf Hu Hv Lu Lv Rc Eg OP. unfold open_mask, J. cbn [recording zhonest zi_prove_mask zi_kM].
  rewrite !firstn_all2 by (rewrite (reps_length _ _ Hu) || rewrite (reps_length _ _ Hv); lia).
  rewrite (gmps_ok _ _ Hu), bind_ok, (gmps_ok _ _ Hv), bind_ok, (gmp_ok _ _ Rc), bind_ok. cbv zeta.
  replace (map fz ru ++ map fz rv ++ [fz rc]) with (map fz (ru ++ rv ++ [rc])) by (rewrite !map_app; reflexivity).
  cbn [fst snd]. rewrite bind_assoc.
  assert (LR : length (ru ++ rv ++ [rc]) = 2 * n + 1) by (rewrite !app_length; simpl; lia).
  eapply returns_bind; [eapply returns_and4; [apply (prove_mask_ok fr zr Hst z (2 * n + 1) c0 dM (ru ++ rv ++ [rc]) Eg OP LR)|]|].
  { intros x1 x2 x3 x4 Ex.
    exact (openM_calls fr zr Hst z q (2 * n + 1) c0 _ x1 x2 x3 x4 ltac:(lia) Hbig Eg ltac:(lia) HKM Hrf LR Ex). }
  intros [[[v w] wa] z1] (((qq & E1) & D & V & VV & L1 & L2) & Zq1 & G1). fold zf in G1. rewrite bind_ok. cbn [fst snd].
  assert (K1 : z_kM z1 = z_kM z) by (rewrite E1; reflexivity). rewrite K1, VV, bind_ok.
  apply returns_ok. split; [exists qq; exact E1|]. split; [reflexivity|]. split; [exact D|]. split; [exact V|].
  split; [rewrite !draws_app, !draws_curve; lia|]. split; [|split; [exact Zq1|cbn [say snd]; rewrite G1; reflexivity]].
  cbn [say fst zi_Iuv zi_preZu zi_preZv zi_prepreu1 zi_preprev1]. rewrite E1. reflexivity.
Qed.
End Openings.

(** ** A layer *)
Ltac logs l' N SN :=
  match goal with |- context [say ?l ?ns ?gs] => set (l' := say l ns gs); assert (N : fst l' = fst l ++ ns) by reflexivity; assert (SN : snd l' = snd l ++ gs) by reflexivity; clearbody l' end.
Definition strip (st : zvstate (zprover * vlog)) : zvstate zprover :=
  ZVState (t_alpha st) (t_beta st) (t_sum st) (t_r0 st) (t_r1 st) (t_o0 st) (t_o1 st) (t_B st) (t_tr st) (fst (t_p st)).
(** What the messages of layer [i] are made of; [mk] the mask of the values of layer
    [i], [mk'] (or [x0], [x1]) that of the values of layer [i - 1]. *)
Definition layer_zdata (C : layered_circuit) (i : nat) (a be : F) (R0 R1 ru rv mk mk' : list F) (x0 x1 zu zv pu pv : F) : zdata :=
  let L := layer_at C i in let lg := bit_length L in let W := gw a be R0 R1 in let V := vals C (i - 1) in
  let m := fun j => nth j mk 0%F in let m' := fun j => nth j mk' 0%F in
  let s0 := if i =? 1 then x0 else (m' 0%nat + m' 0%nat + m' 3 + m' 4)%F in
  let s1 := if i =? 1 then x1 else (m' 1%nat + m' 1%nat + m' 5)%F in
  let s2 := if i =? 1 then 0%F else (m' 2 + m' 2)%F in
  let S := fun t => (s0 + s1 * t + s2 * (t * t))%F in
  let vu := (mle ru V + zp ru * S (last ru 0))%F in let vv := (mle rv V + zp rv * S (last rv 0))%F in
  let M2 := scat (2 ^ lg) (tM2 (gate_at L) W vu (eqw ru)) in let A2 := scat (2 ^ lg) (tA2 (gate_at L) W vu (eqw ru)) in
  let g := (mle rv M2 * vv + mle rv A2)%F in let o := op (ru ++ rv) in
  ZData (a * zu * RS mk pu + be * zv * RS mk pv)%F V (scat (2 ^ lg) (ztM C i W)) (scat (2 ^ lg) (ztA C i W)) M2 A2 s0 s1 s2
    (o * (a * zu * (m 0%nat + m 1%nat * pu + m 2 * (pu * pu)) + be * zv * (m 0%nat + m 1%nat * pv + m 2 * (pv * pv))))%F
    (o * (a * zu * (m 3 + m 5 * pu) + be * zv * (m 3 + m 5 * pv)) + g)%F
    (o * (a * zu * m 4 + be * zv * m 4))%F.
Lemma layer_G : forall C i a be R0 R1 ru rv mk mk' x0 x1 zu zv pu pv t,
  let X := layer_zdata C i a be R0 R1 ru rv mk mk' x0 x1 zu zv pu pv in let R := poly_R (fun j => nth j mk 0%F) in
  zd_G X t = (op (ru ++ rv) * (a * zu * R pu t + be * zv * R pv t) + (mle rv (zd_M2 X) * zd_vv rv X + mle rv (zd_A2 X)) * t)%F.
Proof.
  intros. set (g := (mle rv (zd_M2 X) * zd_vv rv X + mle rv (zd_A2 X))%F).
  assert (E1 : exists y, zd_g1 X = (y + g)%F /\ y = (op (ru ++ rv) * (a * zu * (nth 3 mk 0 + nth 5 mk 0 * pu) + be * zv * (nth 3 mk 0 + nth 5 mk 0 * pv)))%F)
    by (eexists; split; reflexivity).
  destruct E1 as (y & E1 & ->). unfold zd_G. rewrite E1. clearbody g. unfold X, layer_zdata, R, poly_R. cbn [zd_g0 zd_g2]. ring.
Qed.
(** The numbers of a layer; [q1] the rounds of the two phases, [q3] the last round. *)
Definition layer_nums (b : nat) (ru rv : list F) (rc rh : F) (c0 mk : list F) (X : zdata) (zu zv pu pv : F) (q1 q3 : list F) : list F :=
  let R := poly_R (fun j => nth j mk 0%F) in
  [Sc (fun j => nth j c0 0 * rh)%F b 0] ++ q1 ++ [zd_vu ru X; zd_vv rv X; zd_vu ru X] ++ q3 ++
  [R pu rc; R pv rc; mask_poly (2 * b + 1) (fun j => nth j c0 0%F) (fun j => nth j (ru ++ rv ++ [rc]) 0%F); op (ru ++ rv); zu; zv; pu; pv].

Section Layer.
Variable enc : F -> list Z.
Variables (fr : nat -> u512) (zr : nat -> Z).
Hypothesis Hst : stream_ok fr zr.
Variable v : list F.
Let J := recording (zhonest fr zr).
Let zf := fun k => ofZ (zr k).
Variables (C : layered_circuit) (m : nat).
Hypothesis CC : zcomplete_circuit C.
Hypothesis Hm : forall k, k < total_depth C -> bit_length (layer_at C k) <= m.
Variables (x0 x1 : F) (ip : ipart) (kI : keyI).
Hypothesis Hip : reps (i_maskr ip) [x0; x1].

Lemma vlayer_ok : forall i st a be R0 R1 mk zu zv pu pv q, 0 < i < total_depth C ->
  zclaim C m ip kI i (strip st) a be R0 R1 mk zu zv pu pv ->
  rep (t_sum st) (zvalue C x0 x1 i a be R0 R1 mk zu zv pu pv) -> draws (t_tr st) = q ->
  let b := bit_length (layer_at C (i - 1)) in
  let ru := ch_u v q b in let rv := ch_v i v q b in let rc := ch_c i v q b in let rh := ch_rho v q in
  let a' := nth (q + (2 * b + 2)) v 0%F in let be' := nth (q + (2 * b + 3)) v 0%F in
  let z0 := z_pos (fst (t_p st)) in let e := if i =? 1 then 0 else 6 in
  let c0 := drawn fr (z0 + e) (4 * b + 9) in
  returns (zverify_layer enc (tape v) J C i st) (fun st' => exists mk' q1 q3,
    let X := layer_zdata C i a be R0 R1 ru rv mk mk' x0 x1 zu zv pu pv in
    let msgs := zmsgs b ru rv (fun j => nth j c0 0 * rh)%F X in
    zclaim C m ip kI (i - 1) (strip st') a' be' ru rv mk' (zp ru) (zp rv) (last ru 0%F) (last rv 0%F) /\
    rep (t_sum st') (zvalue C x0 x1 (i - 1) a' be' ru rv mk' (zp ru) (zp rv) (last ru 0%F) (last rv 0%F)) /\
    draws (t_tr st') = q + (2 * b + 4) /\
    z_pos (fst (t_p st')) = z0 + (e + (4 * b + 9)) /\
    (i <> 1 -> mk' = drawn fr z0 6) /\
    rlog b 0 (2 * b) msgs q1 /\ rlog b (2 * b) 1 msgs q3 /\
    fst (snd (t_p st')) = fst (snd (t_p st)) ++ map fz (layer_nums b ru rv rc rh c0 mk X zu zv pu pv q1 q3) /\
    z_zpos (fst (t_p st')) = z_zpos (fst (t_p st)) + lstep b /\
    snd (snd (t_p st')) = snd (snd (t_p st)) ++ layer_group zf b (z_zpos (fst (t_p st))) mk c0 ru rv rc pu pv).
Proof.
  intros i st a be R0 R1 mk zu zv pu pv q Hi [Kp Ka Kb Kr0 Kr1 Ko0 Kl0 Kl1 Ko1 KB Kmk Kmkl Kzu Kzv Kpu Kpv Ki Kk] Rts T0.
  destruct st as [ta tb ts r0s r1s o0s o1s tB ttr [zz l0]].
  cbn [strip t_alpha t_beta t_sum t_r0 t_r1 t_o0 t_o1 t_B t_tr t_p fst snd] in *.
  specialize (Ko1 ltac:(lia)). unfold zvalue in Rts. destruct (Nat.eqb_spec i 0) as [|_]; [lia|].
  cbv zeta. set (z0 := z_pos zz).
  pose proof (zc_depth C CC) as D.
  set (L := layer_at C i) in *. set (Lm := layer_at C (i - 1)) in *. set (lg := bit_length L) in *. set (b := bit_length Lm) in *.
  set (V := vals C (i - 1)). cbn [t_alpha t_beta t_sum t_r0 t_r1 t_o0 t_o1 t_B t_tr t_p].
  assert (Hbm : b <= m) by (apply Hm; lia). assert (Hlg : lg <= m) by (apply Hm; lia).
  assert (HG : 2 ^ lg <= length (gates L)) by (apply (zc_gates C CC); lia).
  destruct (zc_bits C CC (i - 1) ltac:(lia)) as [Hb1 Hb31]. fold Lm in Hb1, Hb31. fold b in Hb1, Hb31.
  unfold zverify_layer. eapply rb_nth; [apply layer_rd; lia|]. eapply rb_nth; [apply layer_rd; lia|].
  fold L Lm. fold lg b. cbv zeta.
  set (oR := open_R enc J). set (oM := open_mask enc J). set (ph1 := zphase1_rounds J). set (ph2 := zphase2_rounds J).
  unfold J.
  cbn [recording zhonest zi_sumcheck_init zi_pre_rho zi_set_rho zi_after_rho zi_sumc zi_phase1_init zi_phase2_init zi_finalize zi_finalround
    zi_v_u zi_Iuv zi_preZu zi_preZv zi_kR zi_kM].
  cbn [t_alpha t_beta t_sum t_r0 t_r1 t_o0 t_o1 t_B t_tr t_p].
  fold J.
  (* rho *)
  eapply tape_step; [exact T0|]. intros t1 T1.
  eapply rb_reps; [apply reps_fes|rewrite at_tape_length; lia|]. intros rho Rrho. rewrite at_tape_1 in Rrho.
  fold (ch_rho v q) in Rrho. set (rh := ch_rho v q) in *. clearbody rh.
  (* value masks *)
  unfold zk_sumcheck_init. cbn [fst snd]. set (p0 := sumcheck_init _ _ _ _ _ _ _ _ _ _ _). rewrite bind_assoc.
  eapply returns_bind; [eapply returns_and3; [apply (generate_maskR_ok fr zr Hst (set_p zz p0) i mk zu zv pu pv a be x0 x1); try assumption; [lia|]|]|].
  { cbn [set_p z_i]. rewrite Ki. exact Hip. }
  { intros y1 y2 y3 Ey. exact (maskR_calls fr zr Hst (set_p zz p0) i mk y1 y2 y3 Kmk Kmkl Ey). }
  intros [[dR dRa] z1]. rewrite bind_ok. cbn [fst snd]. logs vl1 N1 S1n. intros ((Po1 & P1 & _ & I1 & KI1 & CC1 & OP1 & PR1 & DY1 & PZu & PZv & PPu & PPv & (g1 & Q1 & Eg1) & (g2 & Q2 & Eg2) & mk' & sc & Dmk' & Rmk' & Lmk' & Qsc & Esc) & Zz1 & KR1 & RF1 & GG1).
  cbn [set_p z_zpos] in Zz1, KR1, RF1, GG1. fold zf in KR1, RF1, GG1. set (zq := z_zpos zz) in *. rewrite GG1 in S1n.
  cbn [set_p z_p z_i z_kI z_r z_pos] in P1, I1, KI1, PR1, Po1, Dmk'. fold z0 in Po1, Dmk'.
  (* mask polynomial *)
  rewrite bind_assoc. eapply returns_bind; [eapply returns_and3; [apply (pre_rho_ok fr zr Hst z1 b Hb1 Hb31)|]|].
  { intros y1 y2 y3 Ey. exact (maskM_calls fr zr Hst z1 b _ y1 y2 y3 Hb1 eq_refl Ey). }
  intros [[dM dMa] z2]. rewrite bind_ok. cbn [fst snd]. logs vl2 N2 S2n. intros ((Po2 & P2 & R2 & I2 & KI2 & KR2 & CM2 & c0 & Dc0 & Lc0 & Rc0 & Gc0 & OM2) & Zz2 & KM2 & RF2 & GG2).
  rewrite Zz1 in Zz2, KM2, RF2, GG2. fold zf in KM2, RF2, GG2. rewrite <- Dc0 in GG2. rewrite GG2 in S2n.
  set (t2 := t1 ++ _ ++ _) in *.
  assert (T2 : draws t2 = q + 1) by (unfold t2; rewrite !draws_app, !draws_curve; lia). clearbody t2.
  set (z3 := set_rho z2 rho). rewrite bind_assoc.
  eapply returns_bind.
  { apply (after_rho_ok b (fun i => nth i c0 0%F) z3 rh Hb1).
    - unfold z3. cbn [set_rho set_m set_pmr z_m m_poly]. pose proof (reps_tab _ _ Rc0) as TT.
      rewrite (reps_length _ _ Rc0), Lc0 in TT. exact TT.
    - exact Rrho. }
  intros z4. rewrite bind_ok. cbn [fst snd]. logs vl3 N3 S3n. intros (poly & s & E4 & MS4). set (c := fun i => (nth i c0 0 * rh)%F) in *.
  set (M4 := MPart poly _ s _ _ _) in *.
  assert (P4 : z_p z4 = p0) by (rewrite E4; unfold z3; cbn [set_m set_pmr set_rho z_p]; congruence).
  assert (R4 : z_r z4 = z_r z1) by (rewrite E4; unfold z3; cbn [set_m set_pmr set_rho z_r]; congruence).
  assert (M4e : z_m z4 = M4) by (rewrite E4; reflexivity).
  assert (F4 : zfix z2 z4) by (rewrite E4; repeat split).
  assert (Po4 : z_pos z4 = z_pos z2) by (rewrite E4; reflexivity).
  assert (Zz4 : z_zpos z4 = z_zpos z2) by (rewrite E4; reflexivity).
  assert (G4 : m_gmp (z_m z4) = map fz c0 /\ m_rf (z_m z4) = m_rf (z_m z2)).
  { rewrite M4e. unfold M4, z3. cbn [m_gmp m_rf set_rho set_m set_pmr z_m]. split; [exact Gc0|reflexivity]. }
  rewrite <- M4e in MS4. clearbody M4. clear E4 M4e z3.
  pose proof (addm_ok _ _ _ _ Rts (ms_sumc _ _ _ _ _ MS4)) as Rsum. rewrite (num_rep _ _ (ms_sumc _ _ _ _ _ MS4)) in N3.
  set (sum0 := addm _ _) in *. clearbody sum0.
  rewrite (proj1 (proj2 F4)), KR2, CC1, (proj1 (proj2 (proj2 F4))), CM2.
  (* challenges are drawn after the tables of phase 1 are set up *)
  assert (PI0 : pinv C m p0) by (destruct Kp; constructor; assumption).
  assert (PP0 : pparams p0 lg a be R0 R1) by (constructor; try assumption; reflexivity).
  destruct (zphase1_tables' C m i CC Hi a be R0 R1 Kl0 Kl1) as (HS1 & Start & Link).
  fold L Lm in HS1, Start, Link. fold lg b in HS1, Start, Link. fold V in HS1, Start, Link.
  set (W := gw a be R0 R1) in *. set (tA := ztA C i W) in *. set (tM := ztM C i W) in *. set (M1 := scat (2 ^ lg) tM) in *. set (A1 := scat (2 ^ lg) tA) in *.
  rewrite bind_assoc. eapply (returns_bind _ _ _ _ (fun z5 => exists p1, z5 = set_p z4 p1 /\ pinv C m p1 /\ gtabs p1 (2 ^ (m / 2 + 1)) lg a be R0 R1 /\
    tabs_bound (2 ^ m) b p1 V M1 A1 [] /\ exists lV lA lM g0f g0s g1f g1s gs, p1 = set_g_tables (set_arrays p0 (2 ^ b) lV lA lM) g0f g0s g1f g1s gs)).
  { unfold zk_phase1_init. rewrite P4. eapply returns_bind.
    - apply (zphase1_init_ok C m i Hi D Hlg Hbm HG p0 a be R0 R1 tA tM PI0 eq_refl PP0 HS1).
    - intros p1 H1. apply returns_ok. exists p1. split; [reflexivity|exact H1]. }
  intros z5. rewrite bind_ok. intros (p1 & E5 & PI1 & GT1 & TB1 & lV1 & lA1 & lM1 & g0f & g0s & g1f & g1s & gs & Ep1).
  assert (Z5 : zs (2 ^ m) b c (a * zu * RS mk pu) (be * zv * RS mk pv) V M1 A1 false [] [] z5 z5).
  { apply zs_init1; rewrite E5; cbn [set_p z_p z_m z_r]; [exact TB1|exact MS4|rewrite R4; exact DY1]. }
  assert (R5 : z_r z5 = z_r z1) by (rewrite E5; exact R4).
  assert (U5 : p_length_u (z_p z5) = b) by (rewrite E5, Ep1; reflexivity).
  assert (V5 : p_length_v (z_p z5) = b) by (rewrite E5, Ep1; reflexivity).
  assert (S5 : qrep (r_sumRc (z_r z5)) sc) by (rewrite R5; exact Qsc).
  assert (F5 : zfix z2 z5) by (rewrite E5; exact F4).
  assert (Po5 : z_pos z5 = z_pos z2) by (rewrite E5; exact Po4).
  assert (Zz5 : z_zpos z5 = z_zpos z2) by (rewrite E5; exact Zz4).
  assert (G5 : m_gmp (z_m z5) = map fz c0 /\ m_rf (z_m z5) = m_rf (z_m z2)) by (rewrite E5; exact G4).
  assert (P5 : z_p z5 = p1) by (rewrite E5; reflexivity). clear E5.
  (* challenges *)
  eapply tape_step; [exact T2|]. intros t3 T3. fold (ch_u v q b). set (ru := ch_u v q b) in *.
  assert (Lru : length ru = b) by apply at_tape_length.
  pose proof (reps_fes ru) as Hru. set (r_u := fes ru) in *. clearbody r_u.
  eapply tape_step; [exact T3|]. intros t4 T4. set (Rv := at_tape v (q + 1 + b) b) in *.
  assert (LRv : length Rv = b) by apply at_tape_length.
  pose proof (reps_fes Rv) as Hrv. set (r_v := fes Rv) in *. clearbody r_v.
  assert (HD : forall r R, reps r R -> length R = lg ->
    returns (direct_relay i lg r r_u) (fun x => rep x (if i =? 1 then eqpt R ru else 0%F))).
  { intros r R Hr' LR. destruct (Nat.eqb_spec i 1) as [E|N].
    - rewrite E. apply direct_relay_ok; try assumption. rewrite Lru. apply (zcopy_at C i CC Hi E).
    - rewrite direct_relay_0 by exact N. apply returns_ok. exact rep_i0. }
  eapply returns_bind; [apply (HD _ R0 Kr0 Kl0)|]. intros d0 Rd0.
  eapply returns_bind; [apply (HD _ R1 Kr1 Kl1)|]. intros d1 Rd1. cbv beta in Rd0, Rd1.
  set (drv := fe_add (fe_mul ta d0) (fe_mul tb d1)).
  assert (Rdrv : rep drv (relay_at i a be R0 R1 ru)).
  { unfold drv, relay_at. destruct (i =? 1); lzr. }
  clearbody drv. set (dr := relay_at i a be R0 R1 ru) in *.
  eapply tape_step; [exact T4|]. intros t5 T5.
  eapply rb_reps; [apply reps_fes|rewrite at_tape_length; lia|]. intros r_c0 Rrc0. rewrite at_tape_1 in Rrc0. set (rc0 := nth (q + 1 + b + b) v 0%F) in Rrc0.
  eapply returns_bind; [apply (one_minus_ok r_u ru b Hru); symmetry; exact Lru|]. intros o_u Hou.
  eapply returns_bind; [apply (one_minus_ok r_v Rv b Hrv); symmetry; exact LRv|]. intros o_v Hov.
  cbv beta in Hou, Hov.
  (* phase 1 *)
  eapply returns_bind.
  { apply (vphase1_rounds_ok fr zr (2 ^ m) b c _ _ V M1 A1 z5 sc Hb1 U5 V5 S5 r_u ru sum0 t5 vl3 Lru Hru Z5).
    rewrite zsum_start, Start, Mk_nil. cbn [op]. eapply rep_eq; [exact Rsum|]. ring. }
  intros [[[prev1 sum1] t6] [z6 vl4]] (Rp1 & Rs1 & T6 & Z6 & S4n & q1 & N4 & RL1). rewrite T5 in T6. cbn [fst snd].
  assert (PI6 : pinv C m (z_p z6)).
  { destruct (zs_pp _ _ _ _ _ _ _ _ _ _ _ _ _ Z6) as (k6 & ol1 & ol2 & ol3 & E6).
    eapply pinv_bound; [rewrite P5 in E6; exact PI1|rewrite P5 in E6; exact E6|apply (zs_tabs _ _ _ _ _ _ _ _ _ _ _ _ _ Z6)]. }
  assert (E6 : exists k ol1 ol2 ol3, z_p z6 = set_arrays p1 k ol1 ol2 ol3).
  { rewrite <- P5. apply (zs_pp _ _ _ _ _ _ _ _ _ _ _ _ _ Z6). }
  destruct E6 as (k6 & l61 & l62 & l63 & E6).
  assert (PP6 : pparams (z_p z6) lg a be R0 R1) by (rewrite E6, Ep1; constructor; try assumption; reflexivity).
  assert (GT6 : gtabs (z_p z6) (2 ^ (m / 2 + 1)) lg a be R0 R1) by (rewrite E6; exact GT1).
  (* between the phases *)
  set (vu := masked V sc ru).
  set (M2 := scat (2 ^ lg) (tM2 (gate_at L) W vu (eqw ru))). set (A2 := scat (2 ^ lg) (tA2 (gate_at L) W vu (eqw ru))).
  rewrite bind_assoc. eapply returns_bind.
  { apply (zk_phase2_init_ok (2 ^ m) b c _ _ V M1 A1 z5 sc Hb1 U5 V5 S5 ru z6 prev1 r_u o_u
      (fun p' => pinv C m p' /\ tabs_bound (2 ^ m) b p' V M2 A2 [] /\
        exists lV lA lM uf us bu x y, p' = set_v (set_u_tables (set_arrays (z_p z6) (2 ^ b) lV lA lM) uf us bu) x y) Lru Z6 Rp1).
    intros v_u Rvu. eapply returns_conseq.
    - apply (zphase2_tables_ok C m i Hi D Hlg Hbm HG (z_p z6) v_u vu r_u o_u a be R0 R1 ru
        (tA2 (gate_at L) W vu (eqw ru)) (tM2 (gate_at L) W vu (eqw ru)) PI6 ltac:(rewrite E6, Ep1; reflexivity) PP6 GT6
        ltac:(rewrite E6, Ep1; reflexivity) Lru Hru Hou Rvu).
      intros wu w Hwu Hw. apply (zphase2_step C m i CC Hi a be R0 R1 ru wu w v_u vu Hwu Hw Rvu).
    - intros p' (Q1' & Q2' & lV & lA & lM & uf & us & bu & E). split; [split; [exact Q1'|split; [exact Q2'|]]|].
      + exists lV, lA, lM, uf, us, bu, v_u, (p_v_v (z_p z6)). exact E.
      + rewrite E, E6, Ep1. split; [reflexivity|]. split; reflexivity. }
  intros z7. rewrite bind_ok. intros ((PI7 & TB7 & lV7 & lA7 & lM7 & uf & us & bu & vx & vy & E7) & U7 & V7 & Rvu7 & MS7 & RP7 & (s71 & s72 & MM7) & RS7 & RE7 & PU7).
  fold vu in Rvu7.
  assert (F7 : zfix z2 z7) by (eapply zfix_trans; [exact F5|eapply zfix_pmr; exact RE7]).
  assert (Po7 : z_pos z7 = z_pos z2) by (rewrite RE7; exact Po5).
  assert (Zz7 : z_zpos z7 = z_zpos z2) by (rewrite RE7; exact Zz5).
  assert (G7 : m_gmp (z_m z7) = map fz c0 /\ m_rf (z_m z7) = m_rf (z_m z2)) by (rewrite MM7; exact G5).
  assert (S7 : qrep (r_sumRc (z_r z7)) sc) by (rewrite (rs_sumRc _ _ RS7); exact S5).
  assert (Z7 : zs (2 ^ m) b c (a * zu * RS mk pu) (be * zv * RS mk pv) V M2 A2 true ru [] z7 z7).
  { apply zs_init2; assumption. }
  (* phase 2 *)
  eapply returns_bind.
  { apply (vphase2_rounds_ok fr zr (2 ^ m) b c _ _ V M2 A2 z7 sc Hb1 U7 V7 S7 (i =? 1) drv dr vu r_v ru Rv sum1 t6 vl4 Lru LRv Hrv Z7 Rdrv Rvu7).
    rewrite zsum_start. eapply rep_eq; [exact Rs1|]. fold (masked V sc ru). fold vu.
    rewrite (Link ru vu Lru). fold dr M2 A2. ring. }
  intros [[[[prev2 sum2] r_v'] t7] [z8 vl5]]. cbv zeta. cbn [fst snd]. set (rv := rv_point (i =? 1) Rv).
  assert (Lrv : length rv = b) by (unfold rv; rewrite rv_length; exact LRv).
  intros (Rp2 & Rs2 & Hrv' & T7 & Z8 & S5n & q2 & N5 & RL2). rewrite T6 in T7.
  set (vv := masked V sc rv) in *.
  (* end of phase 2 *)
  rewrite bind_assoc. eapply returns_bind; [apply (zk_finalize_ok (2 ^ m) b c _ _ V M2 A2 z7 sc Hb1 U7 V7 S7 ru rv z8 prev2 vu Lru Lrv Z8 Rp2 Rvu7)|].
  intros [[v_u v_v] z9]. rewrite bind_ok. cbn [fst snd]. logs vl6 N6 S6n. intros (Rvu & Rvv & Evu & (k9 & l91 & l92 & l93 & E9) & TB9 & M9 & RS9 & RE9 & Zu9 & Zv9 & Iuv9 & PU9 & PV9).
  fold vv in Rvv. rewrite Evu, (num_rep _ _ Rvu), (num_rep _ _ Rvv) in N6.
  assert (PI9 : pinv C m (z_p z9)).
  { assert (Ex : set_arrays (z_p z7) k9 l91 l92 l93 = set_v (z_p z9) (p_v_u (z_p z7)) (p_v_v (z_p z7))).
    { rewrite E9. destruct (z_p z7). reflexivity. }
    assert (PIx : pinv C m (set_arrays (z_p z7) k9 l91 l92 l93)).
    { eapply (pinv_bound C m b (z_p z7)); [exact PI7|reflexivity|]. rewrite Ex. exact TB9. }
    rewrite E9. apply pinv_set_v. exact PIx. }
  assert (F9 : zfix z2 z9) by (eapply zfix_trans; [exact F7|eapply zfix_pmr; exact RE9]).
  assert (Po9 : z_pos z9 = z_pos z2) by (rewrite RE9; exact Po7).
  assert (Zz9 : z_zpos z9 = z_zpos z2) by (rewrite RE9; exact Zz7).
  assert (G9 : m_gmp (z_m z9) = map fz c0 /\ m_rf (z_m z9) = m_rf (z_m z2)).
  { rewrite M9. destruct (zs_mm _ _ _ _ _ _ _ _ _ _ _ _ _ Z8) as (s81 & s82 & ->). exact G7. }
  assert (RS19 : rsame (z_r z1) (z_r z9)).
  { rewrite <- R5. eapply rsame_trans; [exact RS7|exact RS9]. }
  assert (ME : mstate b c (z_m z9) (2 * b) (qsum c b (ru ++ removelast rv))).
  { rewrite M9. pose proof (zs_m _ _ _ _ _ _ _ _ _ _ _ _ _ Z8) as H. rewrite Lru, Lrv in H. replace (b + b) with (2 * b) in H by lia. exact H. }
  assert (PA9 : rep (p_alpha (z_p z9)) a) by (rewrite E9, E7; exact (pp_a _ _ _ _ _ _ PP6)).
  assert (PB9 : rep (p_beta (z_p z9)) be) by (rewrite E9, E7; exact (pp_b _ _ _ _ _ _ PP6)).
  assert (U9 : p_length_u (z_p z9) = b) by (rewrite E9; exact U7).
  assert (V9 : p_length_v (z_p z9) = b) by (rewrite E9; exact V7).
  assert (PZu9 : rep (r_preZu (z_r z9)) zu) by (rewrite (rs_preZu _ _ RS19); exact PZu).
  assert (PZv9 : rep (r_preZv (z_r z9)) zv) by (rewrite (rs_preZv _ _ RS19); exact PZv).
  assert (Q19 : qrep (r_Rg1 (z_r z9)) g1) by (rewrite (rs_Rg1 _ _ RS19); exact Q1).
  assert (Q29 : qrep (r_Rg2 (z_r z9)) g2) by (rewrite (rs_Rg2 _ _ RS19); exact Q2).
  (* the verifier's predicates *)
  eapply returns_bind; [apply (zgeneral_value C m i CC Hi Hm tB ta tb r0s r1s r_u r_v' o0s o1s
    o_u o_v a be R0 R1 ru Rv); assumption|].
  intros BB (SB & PV). cbv beta in PV.
  eapply returns_bind; [exact PV|]. intros pvs (PRD & TPR & CMB). cbv beta in CMB. specialize (CMB vu vv).
  change (zcombine PRD vu vv = mle rv M2 * vv + mle rv A2)%F in CMB.
  set (g := zcombine PRD vu vv) in *.
  eapply returns_bind; [apply (zgeneral_ok pvs PRD v_u v_v vu vv TPR Rvu Rvv)|]. intros general Rg. cbv beta in Rg. fold g in Rg.
  (* the last round *)
  rewrite bind_assoc. eapply returns_bind; [apply (zk_finalround_ok b c z9 Hb1 U9 V9 ru rv z9 prev2 general g a be zu zv g1 g2); assumption|].
  intros [q3 z10]. rewrite bind_ok. cbn [fst snd]. logs vl7 N7 S7n. intros ((s101 & s102 & E10) & q' & Rq & Eq).
  destruct (quad_nums_rep _ _ Rq) as [QN QL]. rewrite QN in N7.
  set (G1 := poly_R (fun j => nth j mk 0%F) pu) in *. set (G2 := poly_R (fun j => nth j mk 0%F) pv) in *.
  assert (Eq' : forall x, peval q' x = (op (ru ++ rv) * (a * zu * G1 x + be * zv * G2 x) + g * x + mround c b (ru ++ rv) x)%F).
  { intro x. rewrite Eq, Eg1, Eg2. reflexivity. }
  assert (Luv : length (ru ++ rv) = 2 * b) by (rewrite app_length; lia).
  eapply rb_reject.
  { eapply rep_fne_false; [apply rep_add; [apply rep_add; apply quadratic_eval_ok; try exact Rq; [exact rep_i0|exact rep_i1]|apply rep_mul; [exact Rdrv|exact Rvu]]|exact Rs2|].
    rewrite !Eq', <- (mround_01 c b (ru ++ rv) ltac:(lia)). unfold RS. fold G1 G2.
    change (mle rv V + zp rv * peval sc (last rv 0))%F with vv. rewrite CMB. ring. }
  set (r_c := if i =? 1 then fe_of_int 0 else r_c0). change (ch_c i v q b) with (if i =? 1 then 0%F else rc0). set (rc := if i =? 1 then 0%F else rc0).
  assert (Rrc : rep r_c rc) by (unfold r_c, rc; destruct (i =? 1); [exact rep_i0|exact Rrc0]). clearbody r_c rc.
  assert (P10 : z_p z10 = z_p z9) by (rewrite E10; reflexivity). assert (R10 : z_r z10 = z_r z9) by (rewrite E10; reflexivity).
  assert (F10 : zfix z2 z10) by (rewrite E10; exact F9).
  assert (Po10 : z_pos z10 = z_pos z2) by (rewrite E10; exact Po9).
  assert (Zz10 : z_zpos z10 = z_zpos z2) by (rewrite E10; exact Zz9).
  assert (G10 : m_gmp (z_m z10) = map fz c0 /\ m_rf (z_m z10) = m_rf (z_m z2)) by (rewrite E10; exact G9).
  destruct F10 as (I10 & KR10 & KM10 & KI10). destruct G10 as [Gg10 Gr10].
  (* opening of the value mask *)
  eapply returns_bind; [apply (vopen_R_ok enc fr zr Hst z10 zq r_c rc dR mk pu pv t7 vl7 Rrc Kmkl)|].
  { rewrite KR10, KR2. exact KR1. }
  { rewrite R10, (rs_rf _ _ RS19). exact RF1. }
  { rewrite R10, (rs_ppu _ _ RS19). exact PPu. }
  { rewrite R10, (rs_ppv _ _ RS19). exact PPv. }
  { rewrite R10, (rs_preR _ _ RS19), PR1. exact Kmk. }
  { rewrite KR10, KR2, R10, (rs_rf _ _ RS19). exact OP1. }
  intros [[[[vR1 vR2] r_ok] t8] [z11 vl8]] (S11 & -> & D1 & D2 & W1 & W2 & T8 & N8 & Zz11 & S8n). rewrite T7 in T8.
  rewrite (red_fz _ _ D1 W1), (red_fz _ _ D2 W2) in N8.
  assert (Po11 : z_pos z11 = z_pos z2) by (destruct S11 as (qq & ->); exact Po10).
  destruct (zfix_same _ _ S11) as ((I11 & KR11 & KM11 & KI11) & P11 & M11 & R11).
  eapply rb_reject; [reflexivity|].
  (* opening of the round mask *)
  eapply returns_bind; [apply (vopen_mask_ok enc fr zr Hst z11 (zq + 5) b r_u r_v' r_c ru rv rc dM c0 t8 vl8 Hb1)|].
  { eapply Z.lt_le_trans; [exact Hb31|]. apply Z.pow_le_mono_r; lia. }
  { exact Lc0. }
  { rewrite KM11, KM10. exact KM2. }
  { rewrite M11, Gr10. exact RF2. }
  { exact Hru. }
  { exact Hrv'. }
  { exact Lru. }
  { exact Lrv. }
  { exact Rrc. }
  { rewrite M11. exact Gg10. }
  { rewrite KM11, KM10, M11, Gr10. exact OM2. }
  intros [[[vM m_ok] t9] [z12 vl9]] (S12 & -> & D3 & W3 & T9 & N9 & Zz12 & S9n). rewrite T8 in T9.
  assert (Po12 : z_pos z12 = z_pos z2) by (destruct S12 as (qq & ->); exact Po11).
  destruct (zfix_same _ _ S12) as ((I12 & KR12 & KM12 & KI12) & P12 & M12 & R12).
  eapply rb_reject; [reflexivity|].
  eapply returns_bind; [apply (zgeneral_ok pvs PRD v_u v_v vu vv TPR Rvu Rvv)|]. intros general' Rg'. cbv beta in Rg'. fold g in Rg'.
  assert (RR12 : z_r z12 = z_r z9) by (rewrite R12, R11; exact R10). assert (PP12 : z_p z12 = z_p z9) by (rewrite P12, P11; exact P10).
  assert (RvR1 : rep (fe_of_mpz vR1) (G1 rc)) by (eapply rep_eq; [apply fe_of_mpz_ok; exact D1|exact W1]).
  assert (RvR2 : rep (fe_of_mpz vR2) (G2 rc)) by (eapply rep_eq; [apply fe_of_mpz_ok; exact D2|exact W2]).
  rewrite (red_fz _ _ D3 W3) in N9.
  set (mp := mask_poly (2 * b + 1) (fun j => nth j c0 0%F) (fun j => nth j (ru ++ rv ++ [rc]) 0%F)) in W3, N9.
  assert (RvM : rep (fe_of_mpz vM) mp) by (eapply rep_eq; [apply fe_of_mpz_ok; exact D3|exact W3]).
  assert (EM : mround c b (ru ++ rv) rc = (rh * mp)%F).
  { rewrite mround_next by lia. rewrite Mk_end by (rewrite ?app_length; cbn [length]; lia). rewrite <- app_assoc. apply mask_poly_scal. }
  eapply rb_reject.
  { cbn [fst]. rewrite RR12, P10, Evu.
    eapply rep_fne_false; [apply rep_add; [apply quadratic_eval_ok; [exact Rq|exact Rrc]|apply rep_mul; [exact Rdrv|exact Rvu]]| |].
    - apply rep_add; [|apply rep_mul; [exact Rdrv|exact Rvu]].
      apply rep_add; [|apply rep_mul; [exact Rrho|exact RvM]].
      apply rep_add; [apply rep_add|].
      + apply rep_mul; [exact Rrc|exact Rg'].
      + apply rep_mul; [apply rep_mul; [apply rep_mul; [exact Ka|exact Iuv9]|exact PZu9]|exact RvR1].
      + apply rep_mul; [apply rep_mul; [apply rep_mul; [exact Kb|exact Iuv9]|exact PZv9]|exact RvR2].
    - rewrite Eq', EM. ring. }
  (* the next claim *)
  eapply tape_step; [exact T9|]. intros t10 T10. eapply tape_step; [exact T10|]. intros t11 T11.
  eapply rb_reps; [apply reps_fes|rewrite at_tape_length; lia|]. intros alpha Ral. rewrite at_tape_1 in Ral.
  eapply rb_reps; [apply reps_fes|rewrite at_tape_length; lia|]. intros beta Rbe. rewrite at_tape_1 in Rbe.
  replace (q + 1 + b + b + 1) with (q + (2 * b + 2)) in Ral, Rbe by lia.
  replace (q + (2 * b + 2) + 1) with (q + (2 * b + 3)) in Rbe by lia.
  set (a' := nth (q + (2 * b + 2)) v 0%F) in *. set (be' := nth (q + (2 * b + 3)) v 0%F) in *.
  assert (Erv : ch_v i v q b = rv).
  { unfold ch_v, rv. destruct (i =? 1); [|reflexivity]. cbn [rv_point]. rewrite <- LRv. clear. induction Rv as [|x l IH]; [reflexivity|]. cbn [length repeat map]. f_equal. exact IH. }
  rewrite Erv.
  set (X := layer_zdata C i a be R0 R1 ru rv mk mk' x0 x1 zu zv pu pv).
  assert (ES : forall x, peval sc x = zd_S X x).
  { intro x. rewrite Esc. unfold zd_S, X, layer_zdata. cbn [zd_s0 zd_s1 zd_s2]. destruct (i =? 1); [ring|].
    unfold RS, poly_R. ring. }
  assert (Eu : vu = zd_vu ru X) by (unfold vu, masked, zd_vu; rewrite ES; reflexivity).
  assert (Ev : vv = zd_vv rv X) by (unfold vv, masked, zd_vv; rewrite ES; reflexivity).
  assert (EM2 : M2 = zd_M2 X) by (unfold M2; rewrite Eu; reflexivity).
  assert (EA2 : A2 = zd_A2 X) by (unfold A2; rewrite Eu; reflexivity).
  set (cs := fun j => (nth j (drawn fr (z0 + (if i =? 1 then 0 else 6)) (4 * b + 9)) 0 * rh)%F).
  assert (Ec : c = cs) by (unfold c, cs; rewrite Dc0, Po1; reflexivity).
  apply returns_ok. exists mk', (q1 ++ q2), q'.
  cbn [t_alpha t_beta t_sum t_r0 t_r1 t_o0 t_o1 t_B t_tr t_p strip fst snd].
  split; [|split; [|split; [|split; [|split; [|split; [|split; [|split; [|split]]]]]]]].
  - constructor; cbn [strip t_alpha t_beta t_sum t_r0 t_r1 t_o0 t_o1 t_B t_tr t_p fst snd]; try assumption.
    + rewrite PP12. exact PI9.
    + intro N. unfold rv. destruct (Nat.eqb_spec i 1); [lia|]. exact Hov.
    + rewrite RR12, (rs_maskR _ _ RS19). exact Rmk'.
    + rewrite RR12. exact Zu9.
    + rewrite RR12. exact Zv9.
    + rewrite RR12, PU9. exact PU7.
    + rewrite RR12. exact PV9.
    + rewrite I12, I11, I10, I2, I1. exact Ki.
    + rewrite KI12, KI11, KI10, KI2, KI1. exact Kk.
  - unfold zvalue. destruct (Nat.eqb_spec i 1) as [E|N]; cbn [negb].
    + rewrite E. cbn [Nat.sub Nat.eqb]. eapply rep_eq; [exact Rvu|]. unfold vu, masked. rewrite Esc. unfold V. rewrite E. reflexivity.
    + destruct (Nat.eqb_spec (i - 1) 0); [lia|].
      eapply rep_eq; [apply rep_add; (apply rep_mul; [eassumption|eassumption])|].
      unfold vu, vv, masked. rewrite !Esc. fold V. reflexivity.
  - rewrite T11. lia.
  - rewrite Po12, Po2, Po1. lia.
  - exact Dmk'.
  - replace (2 * b) with (b + b) by lia. apply rlog_app.
    + eapply rlog_ext; [exact RL1|]. intros j x Hj. unfold rfun, zmsgs, zpart1. destruct (Nat.ltb_spec j b); [|lia]. cbv zeta.
      rewrite Ec. f_equal. destruct (S j =? b); [|reflexivity]. unfold zlast. rewrite ES. reflexivity.
    + cbn [Nat.add]. eapply rlog_ext; [exact RL2|]. intros j x Hj. unfold rfun, zmsgs, zpart2. destruct (Nat.ltb_spec j b); [lia|].
      destruct (Nat.ltb_spec j (2 * b)); [|lia]. cbv zeta. rewrite Ec, EM2, EA2. f_equal.
      destruct (S (j - b) =? b); [|reflexivity]. unfold zlast. rewrite ES. reflexivity.
  - apply rlog_one.
    + rewrite QL. unfold zdeg. destruct (Nat.eqb_spec (2 * b) (b - 1)); [lia|]. destruct (Nat.eqb_spec (2 * b) (2 * b - 1)); [lia|]. reflexivity.
    + intro x. rewrite Eq'. unfold zmsgs. destruct (Nat.ltb_spec (2 * b) b); [lia|]. destruct (Nat.ltb_spec (2 * b) (2 * b)); [lia|].
      unfold zpart3. rewrite Ec. f_equal. rewrite CMB, EM2, EA2, Ev. symmetry. apply layer_G.
  - rewrite N9, N8, N7, N6, N5, N4, N3, N2, N1. rewrite <- !app_assoc. apply f_equal. cbn [app].
    cbn [map]. rewrite R11, R10, (num_rep _ _ Iuv9), (num_rep _ _ PZu9), (num_rep _ _ PZv9), (rs_ppu _ _ RS19), (num_rep _ _ PPu), (rs_ppv _ _ RS19), (num_rep _ _ PPv).
    unfold layer_nums. cbv zeta. rewrite !map_app. cbn [map app]. rewrite <- !app_assoc. cbn [app]. rewrite Eu, Ev, Ec.
    unfold mp. rewrite Dc0, Po1. reflexivity.
  - rewrite Zz12, Zz11, Zz10, Zz2. unfold lstep. lia.
  - rewrite S9n, S8n, S7n, S6n, S5n, S4n, S3n, S2n, S1n. rewrite Zz11, Zz10, Zz2, !app_nil_r, <- !app_assoc.
    unfold layer_group. cbv zeta. rewrite Dc0, Po1. reflexivity.
Qed.
End Layer.

(** ** The numbers of a run *)
(** The numbers shown from layer [i] on; [w] the mask coefficients not yet used, [q]
    the number of challenges drawn. *)
Fixpoint vnums (C : layered_circuit) (v : list F) (x0 x1 : F) (i q : nat) (a be : F) (R0 R1 mk : list F) (zu zv pu pv : F)
    (w l : list F) : Prop :=
  match i with
  | O => l = [zu; (mle R0 (vals C 0) + zu * (x0 + x1 * last R0 0))%F]
  | S j =>
    let b := lbits C j in let e := if i =? 1 then 0 else 6 in
    let ru := ch_u v q b in let rv := ch_v i v q b in let rc := ch_c i v q b in let rh := ch_rho v q in
    let mk' := firstn e w in let c0 := firstn (4 * b + 9) (skipn e w) in
    let X := layer_zdata C i a be R0 R1 ru rv mk mk' x0 x1 zu zv pu pv in
    let msgs := zmsgs b ru rv (fun k => nth k c0 0 * rh)%F X in
    exists q1 q3 l', rlog b 0 (2 * b) msgs q1 /\ rlog b (2 * b) 1 msgs q3 /\
      l = layer_nums b ru rv rc rh c0 mk X zu zv pu pv q1 q3 ++ l' /\
      vnums C v x0 x1 j (q + (2 * b + 4)) (nth (q + (2 * b + 2)) v 0%F) (nth (q + (2 * b + 3)) v 0%F) ru rv mk' (zp ru) (zp rv) (last ru 0%F) (last rv 0%F)
        (skipn (e + (4 * b + 9)) w) l'
  end.

(** The stream of mask coefficients. *)
Definition mstream (ms : list F) : nat -> u512 := fun k => fe_of (nth k ms 0%F).
Lemma drawn_mstream : forall ms pos n, pos + n <= length ms -> drawn (mstream ms) pos n = firstn n (skipn pos ms).
Proof.
  intros ms pos n H. rewrite <- seq_nth_firstn by exact H. unfold drawn, mstream. apply map_ext. intro k. apply fe_of_val.
Qed.
Lemma mstream_ok : forall ms zs, (forall k, red (zs k)) -> stream_ok (mstream ms) zs.
Proof.
  intros ms zs H. split; [|exact H]. intro k. unfold mstream. destruct (rep_fe_of (nth k ms 0%F)) as [W E]. split; [exact W|].
  rewrite E. pose proof (fz_range (nth k ms 0%F)). pose proof P_2_W508. pose proof P_pos. change (2 ^ 508)%Z with W508. nia.
Qed.

Section Run.
Variable enc : F -> list Z.
Variables (ms : list F) (zs : nat -> Z).
Hypothesis Hz : forall k, red (zs k).
Let fr := mstream ms.
Let zf := fun k => ofZ (zs k).
Variable v : list F.
Let J := recording (zhonest fr zs).
Variables (C : layered_circuit) (m : nat).
Hypothesis CC : zcomplete_circuit C.
Hypothesis Hm : forall k, k < total_depth C -> bit_length (layer_at C k) <= m.
Let d := total_depth C.

(** The end of a run that has come to layer [i]. *)
Definition vrest (i : nat) (st : zvstate (zprover * vlog)) : outcome vlog :=
  st <- for_ i (d - 1 - i) (fun k st => zverify_layer enc (tape v) J C (d - 1 - k) st) st ;;
  let n := bit_length (layer_at C 0) in
  r_0 <- gmps (firstn n (t_r0 st)) ;;
  _ <- gmps (firstn n (t_r1 st)) ;;
  let s := t_p st in
  Zu <- gmp (zi_Zu J s) ;;
  ' (ans, w, wa, s) <- zi_prove_input J s r_0 Zu ;;
  Ok (snd s).

Lemma vrest_ok : forall x0 x1 ip kI dI dI2 i st a be R0 R1 mk zu zv pu pv q w, i < d -> iready kI ip C dI dI2 x0 x1 -> ikey zs (lbits C 0) 0 (vals C 0) x0 x1 kI ip ->
  zclaim C m ip kI i (strip st) a be R0 R1 mk zu zv pu pv ->
  rep (t_sum st) (zvalue C x0 x1 i a be R0 R1 mk zu zv pu pv) -> draws (t_tr st) = q ->
  z_pos (fst (t_p st)) + layer_masks C i <= length ms -> w = skipn (z_pos (fst (t_p st))) ms ->
  returns (vrest i st) (fun lg => snd lg = snd (snd (t_p st)) ++ layers_group C v zf x0 x1 i q (z_zpos (fst (t_p st))) R0 mk zu pu pv w /\
    exists l, fst lg = fst (snd (t_p st)) ++ map fz l /\ vnums C v x0 x1 i q a be R0 R1 mk zu zv pu pv w l).
Proof.
  intros x0 x1 ip kI dI dI2 i. induction i as [|i IH]; intros st a be R0 R1 mk zu zv pu pv q w Hi IR IK CL Rs Dq HL Ew.
  - unfold vrest. cbn [for_]. rewrite bind_ok. cbv zeta. destruct IR as [OP _].
    destruct CL as [Kp Ka Kb Kr0 Kr1 Ko0 Kl0 Kl1 Ko1 KB Kmk Kmkl Kzu Kzv Kpu Kpv Ki Kk]. destruct st as [ta tb ts r0s r1s o0s o1s tB ttr [zz lg]].
    cbn [strip t_alpha t_beta t_sum t_r0 t_r1 t_o0 t_o1 t_B t_tr t_p fst snd] in *.
    set (n := bit_length (layer_at C 0)) in *.
    rewrite !firstn_all2 by (rewrite (reps_length _ _ Kr0) || rewrite (reps_length _ _ Kr1); lia).
    rewrite (gmps_ok _ _ Kr0), bind_ok, (gmps_ok _ _ Kr1), bind_ok. unfold J. cbn [recording zhonest zi_Zu zi_prove_input]. cbn [fst snd].
    rewrite (gmp_ok _ _ Kzu), bind_ok, bind_assoc.
    eapply returns_bind; [eapply returns_and4; [apply (prove_input_ok fr zs (mstream_ok ms zs Hz) zz n (vals C 0) x0 x1 dI dI2 R0 zu); [rewrite Ki, Kk; exact OP|exact Kl0]|]|].
    { intros y1 y2 y3 y4 Ey. refine (openI_calls fr zs (mstream_ok ms zs Hz) zz 0 n (vals C 0) x0 x1 zu R0 y1 y2 y3 y4 _ _ Kl0 Ey); [|rewrite Ki, Kk; exact IK].
      apply (zc_inbits C CC). }
    intros [[[ans w'] wa] z'] (((qq & E') & RA & EA & _) & GG). rewrite bind_ok. apply returns_ok. cbn [say fst snd].
    split; [rewrite GG; reflexivity|].
    assert (Er : z_r z' = z_r zz) by (rewrite E'; reflexivity). rewrite Er, (num_rep _ _ Kzu), (red_fz _ _ RA EA).
    eexists. split; [|cbn [vnums]; reflexivity]. cbn [map]. rewrite (last_nth' R0 n Kl0). reflexivity.
  - unfold vrest. cbn [for_]. replace (d - 1 - (d - 1 - S i)) with (S i) by lia. rewrite bind_assoc.
    set (b := lbits C i) in *.
    eapply returns_bind.
    { apply (vlayer_ok enc fr zs (mstream_ok ms zs Hz) v C m CC Hm x0 x1 ip kI (proj2 IR) (S i) st a be R0 R1 mk zu zv pu pv q); try assumption.
      fold d. lia. }
    intros st'. cbv beta zeta. replace (S i - 1) with i by lia. change (bit_length (layer_at C i)) with b.
    intros (mk' & q1 & q3 & CL' & Rs' & Dq' & Po & Emk & RL1 & RL3 & Nl & Zz & GG).
    cbn [layer_masks] in HL. fold b in HL. set (z0 := z_pos (fst (t_p st))) in *.
    set (e := if S i =? 1 then 0 else 6) in *.
    assert (Ec : drawn fr (z0 + e) (4 * b + 9) = firstn (4 * b + 9) (skipn e w)).
    { unfold fr. rewrite drawn_mstream by lia. rewrite Ew, skipn_skipn'. reflexivity. }
    assert (EX : layer_zdata C (S i) a be R0 R1 (ch_u v q b) (ch_v (S i) v q b) mk mk' x0 x1 zu zv pu pv =
                 layer_zdata C (S i) a be R0 R1 (ch_u v q b) (ch_v (S i) v q b) mk (firstn e w) x0 x1 zu zv pu pv).
    { destruct (Nat.eqb_spec (S i) 1) as [E1|N1].
      - injection E1 as ->. reflexivity.
      - rewrite (Emk N1). unfold fr. unfold e in *. rewrite drawn_mstream by lia. rewrite Ew. reflexivity. }
    rewrite EX, Ec in *.
    specialize (IH st' _ _ _ _ _ _ _ _ _ _ (skipn (e + (4 * b + 9)) w) ltac:(lia) IR IK CL' Rs' Dq').
    unfold vrest in IH. replace (S (d - 1 - S i)) with (d - 1 - i) by lia.
    eapply returns_conseq; [apply IH|].
    + rewrite Po. lia.
    + rewrite Po, Ew, skipn_skipn'. reflexivity.
    + intros lg (Gl & l & El & Vl). split.
      { rewrite Gl, GG, Zz, <- app_assoc. f_equal. cbn [layers_group]. fold b e. f_equal.
        destruct i as [|i]; [reflexivity|].
        unfold e. cbn [Nat.eqb]. unfold fr in Emk. rewrite (Emk ltac:(lia)), drawn_mstream by (unfold e in HL; cbn [Nat.eqb] in HL; lia).
        rewrite Ew. reflexivity. }
      eexists (_ ++ l). split; [rewrite El, Nl, map_app, app_assoc; reflexivity|].
      cbn [vnums]. fold b e. exists q1, q3, l. split; [exact RL1|]. split; [exact RL3|]. split; [reflexivity|].
      destruct i as [|i]; [exact Vl|].
      unfold e in Vl |- *. cbn [Nat.eqb] in *. unfold fr in Emk. rewrite (Emk ltac:(lia)), drawn_mstream in Vl by (unfold e in HL; cbn [Nat.eqb] in HL; lia).
      rewrite Ew in Vl |- *. exact Vl.
Qed.
End Run.

(** ** The whole run *)
Lemma tab_nums : forall l n f, tab n l n f -> map num l = map fz (map f (seq 0 n)).
Proof.
  intros l n f (L & _ & H). apply (nth_ext _ _ 0%Z 0%Z); [rewrite !map_length, seq_length; exact L|].
  intros k Hk. rewrite map_length, L in Hk. destruct (H k Hk) as (x & Ex & Rx).
  rewrite (nth_indep _ 0%Z (num fe_zero)) by (rewrite map_length; lia).
  rewrite (nth_indep (map fz _) 0%Z (fz (f 0))) by (rewrite !map_length, seq_length; lia).
  rewrite !map_nth, seq_nth by lia. rewrite (nth_error_nth _ _ _ Ex). apply (num_rep _ _ Rx).
Qed.

(** The numbers of a run with the mask coefficients [ms]. *)
Definition run_nums (C : layered_circuit) (v ms l : list F) : Prop :=
  let d := total_depth C in let b := lbits C (d - 1) in let R0 := at_tape v 0 b in
  exists l', l = map (vals C (d - 1)) (seq 0 (2 ^ b)) ++ [mle R0 (vals C (d - 1))] ++ l' /\
    vnums C v (nth 0 ms 0%F) (nth 1 ms 0%F) (d - 1) (b + b) 1%F 0%F R0 (at_tape v b b) (repeat 0%F 6) 0%F 0%F 0%F 0%F (skipn 2 ms) l'.

Lemma honest_view_ok : forall enc v ms zs C, zcomplete_circuit C -> (forall k, red (zs k)) -> length ms = mask_count C ->
  exists lg l, honest_view enc v ms zs C = Ok lg /\ fst lg = map fz l /\ run_nums C v ms l /\ snd lg = run_group C v ms (fun k => ofZ (zs k)).
Proof.
  intros enc v ms zs C CC Hz Lm. set (m := max_bit_length C).
  assert (Hm : forall k, k < total_depth C -> bit_length (layer_at C k) <= m).
  { intros k Hk. apply bit_length_max. rewrite <- (zc_depth C CC). exact Hk. }
  cut (returns (honest_view enc v ms zs C) (fun lg => snd lg = run_group C v ms (fun k => ofZ (zs k)) /\ exists l, fst lg = map fz l /\ run_nums C v ms l)).
  { intros (lg & E & G & l & El & Rl). exists lg, l. auto. }
  destruct (honest_start C m CC Hm) as (out & s1 & EV & PI & ER & HV). cbv zeta in HV.
  pose proof (zc_depth C CC) as D. pose proof (zc_pos C CC) as Dp.
  unfold honest_view. cbv zeta. fold m. change (fun k => fe_of (nth k ms 0%F)) with (mstream ms).
  unfold zview, zverify_start. cbv zeta. set (J := recording (zhonest (mstream ms) zs)).
  assert (Tr : tab (2 ^ bit_length (layer_at C (total_depth C - 1))) out (2 ^ bit_length (layer_at C (total_depth C - 1))) (vals C (total_depth C - 1)) /\ z_pos s1 = 0 /\ z_zpos s1 = 0).
  { destruct (zevaluate_ok C (zcomplete_wf C CC)) as ([out' cv] & EV' & (Lc & Rw) & Ro). cbn [fst snd] in Rw, Ro.
    unfold zk_evaluate in EV. change (p_C (z_p (init_zprover C m))) with C in EV. rewrite EV' in EV. rewrite bind_ok in EV.
    injection EV as <- <-. split; [|split; reflexivity].
    destruct (Rw (total_depth C - 1) ltac:(lia)) as (row & Er & Tr). rewrite Ro in Er. injection Er as <-. exact Tr. }
  destruct Tr as (Tr & Ps & Pz).
  set (d := total_depth C) in *. set (Lo := layer_at C (d - 1)) in *. set (blo := bit_length Lo) in *.
  rewrite !bind_assoc. unfold J at 1. cbn [recording zhonest zi_evaluate]. cbn [fst snd]. rewrite bind_assoc, EV, bind_ok, bind_ok. cbn [say fst snd].
  rewrite bind_assoc. eapply rb_nth; [apply layer_rd; lia|]. rewrite bind_assoc. unfold J at 1. cbn [recording zhonest zi_commit]. cbn [fst snd]. rewrite bind_assoc.
  assert (L2 : 2 <= length ms) by (unfold mask_count in Lm; lia).
  set (x0 := nth 0 ms 0%F). set (x1 := nth 1 ms 0%F).
  assert (Ex' : [x0; x1] = drawn (mstream ms) (z_pos s1) 2).
  { rewrite Ps, drawn_mstream by lia. unfold x0, x1. clear - L2. destruct ms as [|y0 [|y1 ms']]; cbn [length] in L2; try lia. reflexivity. }
  eapply returns_bind; [eapply returns_and5; [apply (commit_ok (mstream ms) zs C s1 (mstream_ok ms zs Hz) CC); exact (pi_C _ _ _ PI)|]|].
  { intros y1 y2 y3 y4 y5 Ey. exact (commit_calls (mstream ms) zs (mstream_ok ms zs Hz) C s1 y1 y2 y3 y4 y5 x0 x1 CC (pi_C _ _ _ PI) Ex' Ey). }
  intros [[[[dI dIa] dI2] dI2a] s2] ((P2 & M2 & R2 & x0' & x1' & IR & Ex & Po) & Zz & IK & GG). rewrite bind_ok. cbn [say fst snd].
  rewrite <- Ex' in Ex. assert (E01 : x0' = x0 /\ x1' = x1).
  { split; [exact (f_equal (hd 0%F) Ex)|exact (f_equal (fun l => hd 0%F (tl l)) Ex)]. }
  destruct E01 as [-> ->]. rewrite Pz in Zz, IK, GG.
  rewrite bind_assoc. eapply rb_nth; [apply layer_rd; lia|]. fold Lo. fold blo.
  rewrite bind_assoc. eapply tape_step; [rewrite draws_app, !draws_curve; reflexivity|]. intros t1 T1.
  rewrite bind_assoc. eapply tape_step; [exact T1|]. intros t2 T2. simpl (0 + blo) in T2 |- *.
  set (R0 := at_tape v 0 blo) in *. set (R1 := at_tape v blo blo) in *.
  assert (L0 : length R0 = blo) by apply at_tape_length. assert (L1 : length R1 = blo) by apply at_tape_length.
  pose proof (reps_fes R0) as H0. pose proof (reps_fes R1) as H1.
  rewrite bind_assoc. eapply returns_bind; [apply (one_minus_ok _ R0); [exact H0|lia]|]. intros o_0 O0. cbv beta in O0.
  rewrite bind_assoc. eapply returns_bind; [apply (one_minus_ok _ R1); [exact H1|lia]|]. intros o_1 O1. cbv beta in O1.
  rewrite bind_assoc. unfold J at 1. cbn [recording zi_V_res]. cbn [fst snd]. rewrite bind_assoc.
  assert (VR : returns (zi_V_res (zhonest (mstream ms) zs) s2 o_0 (fes R0) out blo (2 ^ blo)) (fun p => rep (fst p) (mle R0 (vals C (d - 1))) /\ snd p = s2)).
  { cbn [zhonest zi_V_res]. unfold zk_V_res. rewrite <- L0 in Tr |- *.
    eapply returns_bind; [apply (V_res_ok _ _ _ _ _ _ H0 O0 Tr)|]. intros x Rx. cbv beta in Rx. apply returns_ok. split; [exact Rx|reflexivity]. }
  eapply returns_bind; [exact VR|]. intros [x s3] [Rx E3]. cbn [fst snd] in Rx, E3. subst s3. rewrite bind_ok. cbn [say fst snd].
  rewrite !bind_ok. eapply rb_nth; [apply layer_rd; lia|].
  set (st0 := ZVState _ _ _ _ _ _ _ _ _ _).
  assert (PIs : pinv C m (z_p s2)) by (rewrite P2; exact PI).
  assert (Rz : rep fe_zero 0%F) by exact rep_0.
  assert (Er : z_r s2 = z_r (init_zprover C m)) by (rewrite R2; exact ER).
  assert (CL : zclaim C m (z_i s2) (z_kI s2) (d - 1) (strip st0) 1%F 0%F R0 R1 (repeat 0%F 6) 0%F 0%F 0%F 0%F).
  { constructor; unfold st0; cbn [strip t_alpha t_beta t_sum t_r0 t_r1 t_o0 t_o1 t_B t_tr t_p fst]; try assumption; rewrite ?Er;
      cbn [init_zprover z_r r_maskR r_Zu r_Zv r_preu1 r_prev1]; try exact Rz; try exact rep_i0; try exact rep_i1; try reflexivity.
    + intros _. exact O1.
    + exact (init_bsizes m).
    + cbn [repeat]. repeat (constructor; [exact Rz|]). constructor. }
  assert (Rs : rep (t_sum st0) (zvalue C x0 x1 (d - 1) 1%F 0%F R0 R1 (repeat 0%F 6) 0%F 0%F 0%F 0%F)).
  { unfold st0. cbn [t_sum]. eapply rep_eq; [apply rep_mul; [exact rep_i1|exact Rx]|]. unfold zvalue.
    destruct (Nat.eqb_spec (d - 1) 0) as [E|_]; [rewrite E|]; ring. }
  pose proof (vrest_ok enc ms zs Hz v C m CC Hm x0 x1 (z_i s2) (z_kI s2) dI dI2 (d - 1) st0 1%F 0%F R0 R1 (repeat 0%F 6) 0%F 0%F 0%F 0%F (blo + blo) (skipn 2 ms)
    ltac:(fold d; lia) IR IK CL Rs T2) as VR2.
  unfold vrest in VR2. fold d in VR2. rewrite Nat.sub_diag in VR2. unfold zverify_layers. fold d.
  eapply returns_conseq; [apply VR2|].
  - unfold st0. cbn [t_p fst]. rewrite Po, Ps, Lm. unfold mask_count. fold d. lia.
  - unfold st0. cbn [t_p fst]. rewrite Po, Ps. reflexivity.
  - intros lg (Gl & l & El & Vl). unfold st0 in El, Gl. cbn [t_p snd fst app] in El, Gl. split.
    { rewrite Gl. unfold say. cbn [fst snd]. rewrite app_nil_r. cbn [app]. unfold run_group. cbv zeta. fold d x0 x1. change (lbits C 0) with (bit_length (layer_at C 0)). rewrite <- GG, Zz. reflexivity. }
    exists (map (vals C (d - 1)) (seq 0 (2 ^ blo)) ++ [mle R0 (vals C (d - 1))] ++ l).
    split; [rewrite El; unfold say; cbn [fst snd app]; rewrite app_nil_r, (tab_nums _ _ _ Tr), (num_rep _ _ Rx), !map_app, <- !app_assoc; reflexivity|].
    unfold run_nums. cbv zeta. fold d. change (lbits C (d - 1)) with blo. fold R0 R1. exists l. split; [reflexivity|]. exact Vl.
Qed.
