(** * The zk verifier's rounds against the honest prover *)
From Coq Require Import ZArith List Bool Arith Lia Ring.
From Verif Require Import Limbs Field Fp Base ArithProofs MleSpec GkrMath Poly PolyProofs Circuit
  FastProver FastVerifier Lazy TablesProofs FastProverProofs PhaseProofs FastVerifierProofs SpecVpd VpdGroup VpdR VpdMask VpdInput
  Transcript ZkProver ZkVerifier ZkPhaseProofs ZkMaskProofs ZkRoundProofs.
Import ListNotations.
Open Scope nat_scope.

Lemma zlast_end : forall R a M S, (zlast (folds R M) (zp R) S a = mle (R ++ [a]) M * (zp (R ++ [a]) * S a))%F.
Proof. intros. unfold zlast. rewrite mle_folds, folds_snoc, zp_snoc. ring. Qed.
Lemma zsum_end : forall n c k V M A pre R, length R = n ->
  zsum n c k V M A pre R = (mle R V * mle R M + mle R A + k * op (pre ++ R) + Mk c n (pre ++ R))%F.
Proof. intros n c k V M A pre R E. unfold zsum. rewrite E, Nat.sub_diag, psum_0, !mle_folds. reflexivity. Qed.

(** The transcript [t] followed by at most [k] messages of the prover. *)
Definition grows (k : nat) (t t' : list msg) : Prop :=
  exists u, t' = t ++ u /\ length u <= k /\ Forall (fun m => exists x, m = MFld x) u.
Lemma grows_refl : forall k t, grows k t t.
Proof. intros. exists []. rewrite app_nil_r. split; [reflexivity|]. split; [simpl; lia|constructor]. Qed.
Lemma grows_trans : forall j k n t t1 t2, grows j t t1 -> grows k t1 t2 -> j + k <= n -> grows n t t2.
Proof.
  intros j k n t t1 t2 (u & -> & L & Fu) (v & -> & Lv & Fv) H. exists (u ++ v). rewrite app_assoc.
  split; [reflexivity|]. rewrite app_length. split; [lia|]. apply Forall_app. split; assumption.
Qed.
Lemma grows_quint : forall t q, grows 6 t (t ++ quint_msgs q).
Proof. intros. exists (quint_msgs q). split; [reflexivity|]. split; [simpl; lia|]. repeat constructor; eexists; reflexivity. Qed.
Lemma grows_quad : forall t q, grows 3 t (t ++ quad_msgs q).
Proof. intros. exists (quad_msgs q). split; [reflexivity|]. split; [simpl; lia|]. repeat constructor; eexists; reflexivity. Qed.

Section Rounds.
Variables (fr : nat -> u512) (zr : nat -> Z).
Variables (N n : nat) (c : nat -> F) (cu cv : F) (V M A : nat -> F) (z0 : zprover) (sc : list F).
Hypothesis Hn : 0 < n.
Hypothesis Hlu : p_length_u (z_p z0) = n.
Hypothesis Hlv : p_length_v (z_p z0) = n.
Hypothesis Hsc : qrep (r_sumRc (z_r z0)) sc.

Lemma zphase1_rounds_ok : forall r_u R sum t, length R = n -> reps r_u R ->
  zs N n c cu cv V M A false [] [] z0 z0 -> rep sum (zsum n c (cu + cv)%F V M A [] []) ->
  returns (zphase1_rounds (zhonest fr zr) n r_u sum t z0) (fun st => let '(prev, sum, t', z') := st in
    rep prev (last R 0%F) /\
    rep sum (mle R M * (mle R V + zp R * peval sc (last R 0)) + mle R A + (cu + cv) * op R + Mk c n R)%F /\
    grows (6 * n) t t' /\ zs N n c cu cv V M A false [] R z0 z').
Proof.
  intros r_u R sum t HR Hr Z0 Hs. unfold zphase1_rounds.
  eapply returns_conseq.
  - apply (returns_for _ n 0 _ (fun j st => let '(prev, sum, t', z') := st in
      let Rj := firstn j R in
      rep prev (last Rj 0%F) /\ 
      rep sum (zsum n c (cu + cv) V M A [] Rj + if j =? n then mle Rj M * (zp Rj * peval sc (last Rj 0)) else 0)%F /\
      grows (6 * j) t t' /\
      zs N n c cu cv V M A false [] Rj z0 z')).
    + cbn [firstn last]. split; [exact rep_i0|]. split; [|split; [apply grows_refl|exact Z0]].
      destruct (Nat.eqb_spec 0 n); [lia|]. eapply rep_eq; [exact Hs|ring].
    + intros j [[[prev sm] t'] z'] Hj (Rp & Rs & Lt & Z). simpl in Hj.
      assert (Lj : length (firstn j R) = j) by (rewrite firstn_length; lia).
      destruct (Nat.eqb_spec j n); [lia|].
      destruct (Nat.eqb_spec (j + 1) n) as [El|El].
      * pose proof (zk_phase1_lastbit_ok N n c cu cv V M A z0 sc Hn Hlu Hlv Hsc (firstn j R) z' prev ltac:(lia) Z Rp) as SU.
        rewrite Lj in SU. cbn [zhonest zi_phase1_lastbit].
        eapply returns_bind; [exact SU|]. clear SU. intros [poly z2] (Z2 & q & Qr & Hq).
        eapply rb_reps; [exact Hr|lia|]. intros r Rr.
        pose proof (quintuple_eval_ok _ _ _ _ Qr rep_i0) as Q0. pose proof (quintuple_eval_ok _ _ _ _ Qr rep_i1) as Q1.
        rewrite Hq in Q0, Q1.
        apply rb_reject.
        { eapply rep_fne_false; [apply rep_add; [exact Q0|exact Q1]|exact Rs|].
          rewrite <- zround_01 by (cbn [length]; lia). unfold zlast. ring. }
        apply returns_ok. cbv zeta. rewrite (firstn_S_nth R j) by lia. rewrite last_last.
        split; [exact Rr|]. split; [|split].
        -- replace (S j =? n) with true by (symmetry; apply Nat.eqb_eq; lia).
           pose proof (quintuple_eval_ok _ _ _ _ Qr Rr) as Q. rewrite Hq in Q.
           rewrite zround_next in Q by (cbn [length]; lia). rewrite zlast_end in Q. exact Q.
        -- eapply grows_trans; [exact Lt|apply grows_quint|lia].
        -- apply Z2.
      * pose proof (zk_phase1_update_ok N n c cu cv V M A z0 Hn Hlu Hlv (firstn j R) z' prev ltac:(lia) Z Rp) as SU.
        rewrite Lj in SU. cbn [zhonest zi_phase1_update].
        eapply returns_bind; [exact SU|]. clear SU. intros [poly z2] (Z2 & q & Qr & Hq).
        eapply rb_reps; [exact Hr|lia|]. intros r Rr.
        pose proof (quadratic_eval_ok _ _ _ _ Qr rep_i0) as Q0. pose proof (quadratic_eval_ok _ _ _ _ Qr rep_i1) as Q1.
        rewrite Hq in Q0, Q1.
        apply rb_reject.
        { eapply rep_fne_false; [apply rep_add; [exact Q0|exact Q1]|exact Rs|].
          rewrite <- zround_01 by (cbn [length]; lia). ring. }
        apply returns_ok. cbv zeta. rewrite (firstn_S_nth R j) by lia. rewrite last_last.
        split; [exact Rr|]. split; [|split].
        -- destruct (Nat.eqb_spec (S j) n); [lia|].
           pose proof (quadratic_eval_ok _ _ _ _ Qr Rr) as Q. rewrite Hq in Q.
           rewrite zround_next in Q by (cbn [length]; lia). eapply rep_eq; [exact Q|ring].
        -- eapply grows_trans; [exact Lt|apply grows_quad|lia].
        -- apply Z2.
  - intros [[[prev sm] t'] z'] H. simpl (0 + n) in H. rewrite Nat.eqb_refl in H.
    rewrite (firstn_all2 R) in H by lia. cbv zeta in H. destruct H as (H1 & H2 & H3 & H4).
    rewrite zsum_end in H2 by exact HR. split; [exact H1|]. split; [eapply rep_eq; [exact H2|cbn [app]; ring]|].
    split; [exact H3|exact H4].
Qed.

Lemma zphase2_rounds_ok : forall zero relay d vu r_v ru Rv sum t, length ru = n -> length Rv = n -> reps r_v Rv ->
  zs N n c cu cv V M A true ru [] z0 z0 -> rep relay d -> rep (p_v_u (z_p z0)) vu ->
  rep sum (zsum n c (cu + cv)%F V M A ru [] + d * vu)%F ->
  returns (zphase2_rounds (zhonest fr zr) n zero relay r_v sum t z0) (fun st => let '(prev, sum, r_v', t', z') := st in
    let R := rv_point zero Rv in
    rep prev (last R 0%F) /\
    rep sum (mle R M * (mle R V + zp R * peval sc (last R 0)) + mle R A + (cu + cv) * op (ru ++ R) + Mk c n (ru ++ R) + d * vu)%F /\
    reps r_v' R /\ grows (6 * n) t t' /\ zs N n c cu cv V M A true ru R z0 z').
Proof.
  intros zero relay d vu r_v ru Rv sum t Hru HR Hr Z0 Hd Hvu Hs. unfold zphase2_rounds.
  set (R := rv_point zero Rv). assert (LR : length R = n) by (unfold R; rewrite rv_length; exact HR).
  eapply returns_conseq.
  - apply (returns_for _ n 0 _ (fun j st => let '(prev, sum, r_v', t', z') := st in
      let Rj := firstn j R in
      rep prev (last Rj 0%F) /\ 
      rep sum (zsum n c (cu + cv) V M A ru Rj + (if j =? n then mle Rj M * (zp Rj * peval sc (last Rj 0)) else 0) + d * vu)%F /\
      reps r_v' (firstn j R ++ skipn j Rv) /\
      grows (6 * j) t t' /\
      zs N n c cu cv V M A true ru Rj z0 z')).
    + cbn [firstn last app skipn]. split; [exact rep_i0|]. split; [|split; [exact Hr|split; [apply grows_refl|exact Z0]]].
      destruct (Nat.eqb_spec 0 n); [lia|]. eapply rep_eq; [exact Hs|ring].
    + intros j [[[[prev sm] rv] t'] z'] Hj (Rp & Rs & Rrv & Lt & Z). simpl in Hj.
      assert (Lj : length (firstn j R) = j) by (rewrite firstn_length; lia).
      assert (HS : firstn (S j) R ++ skipn (S j) Rv = firstn j R ++ nth j R 0%F :: skipn (S j) Rv).
      { rewrite (firstn_S_nth R j) by lia. rewrite <- app_assoc. reflexivity. }
      eapply (returns_bind _ _ _ _ (fun rv' => reps rv' (firstn (S j) R ++ skipn (S j) Rv))).
      { rewrite HS. destruct zero.
        - apply returns_wr.
          + rewrite (reps_length _ _ Rrv), app_length, Lj, skipn_length. lia.
          + pose proof (reps_upd _ _ j _ _ Rrv ltac:(rewrite app_length, Lj, skipn_length; lia) rep_i0) as K.
            assert (E0 : nth j R 0%F = 0%F).
            { unfold R. cbn [rv_point]. apply (map_nth (fun _ : F => 0%F) Rv 0%F j). }
            rewrite E0.
            rewrite firstn_app, Lj, Nat.sub_diag, firstn_O, app_nil_r, firstn_firstn, Nat.min_id in K.
            rewrite skipn_app, Lj, (skipn_all2 (firstn j R)) in K by lia.
            replace (S j - j) with 1 in K by lia. cbn [app] in K.
            rewrite (skipn_S_nth Rv j) in K by lia. cbn [skipn] in K. exact K.
        - apply returns_ok. unfold R in Rrv |- *. cbn [rv_point] in *. rewrite <- (skipn_S_nth Rv j) by lia. exact Rrv. }
      intros rv' Rrv'. cbv beta in Rrv'.
      assert (Rr : returns (rd rv' j) (fun r => rep r (nth j R 0%F))).
      { rewrite HS in Rrv'. eapply reps_rd; [exact Rrv'|rewrite app_length, Lj; simpl; lia|]. intros x Rx.
        rewrite app_nth2 in Rx by lia. rewrite Lj, Nat.sub_diag in Rx. exact Rx. }
      destruct (Nat.eqb_spec j n); [lia|].
      destruct (Nat.eqb_spec (j + 1) n) as [El|El].
      * pose proof (zk_phase2_lastbit_ok N n c cu cv V M A z0 sc Hn Hlu Hlv Hsc ru (firstn j R) z' prev Hru ltac:(lia) Z Rp) as SU.
        rewrite Lj in SU. cbn [zhonest zi_phase2_lastbit zi_v_u].
        eapply returns_bind; [exact SU|]. clear SU. intros [poly z2] (Z2 & q & Qr & Hq).
        eapply returns_bind; [exact Rr|]. clear Rr. intros r Rr. cbv beta in Rr.
        assert (Rvu : rep (p_v_u (z_p z2)) vu).
        { destruct (zs_pp _ _ _ _ _ _ _ _ _ _ _ _ _ (Z2 0%F)) as (k & l1 & l2 & l3 & ->). exact Hvu. }
        pose proof (quintuple_eval_ok _ _ _ _ Qr rep_i0) as Q0. pose proof (quintuple_eval_ok _ _ _ _ Qr rep_i1) as Q1.
        rewrite Hq in Q0, Q1.
        apply rb_reject.
        { eapply rep_fne_false; [apply rep_add; [apply rep_add; [exact Q0|exact Q1]|apply rep_mul; [exact Hd|exact Rvu]]|exact Rs|].
          rewrite <- zround_01 by (cbn [length]; lia). unfold zlast. ring. }
        apply returns_ok. cbv zeta. split; [|split; [|split; [exact Rrv'|split]]].
        -- rewrite (firstn_S_nth R j) by lia. rewrite last_last. exact Rr.
        -- rewrite (firstn_S_nth R j) by lia. rewrite last_last.
           replace (S j =? n) with true by (symmetry; apply Nat.eqb_eq; lia).
           pose proof (quintuple_eval_ok _ _ _ _ Qr Rr) as Q. rewrite Hq in Q.
           rewrite zround_next in Q by (cbn [length]; lia). rewrite zlast_end in Q.
           apply rep_add; [exact Q|apply rep_mul; [exact Hd|exact Rvu]].
        -- eapply grows_trans; [exact Lt|apply grows_quint|lia].
        -- rewrite (firstn_S_nth R j) by lia. apply Z2.
      * pose proof (zk_phase2_update_ok N n c cu cv V M A z0 Hn Hlu Hlv ru Hru (firstn j R) z' prev ltac:(lia) Z Rp) as SU.
        rewrite Lj in SU. cbn [zhonest zi_phase2_update zi_v_u].
        eapply returns_bind; [exact SU|]. clear SU. intros [poly z2] (Z2 & q & Qr & Hq).
        eapply returns_bind; [exact Rr|]. clear Rr. intros r Rr. cbv beta in Rr.
        assert (Rvu : rep (p_v_u (z_p z2)) vu).
        { destruct (zs_pp _ _ _ _ _ _ _ _ _ _ _ _ _ (Z2 0%F)) as (k & l1 & l2 & l3 & ->). exact Hvu. }
        pose proof (quadratic_eval_ok _ _ _ _ Qr rep_i0) as Q0. pose proof (quadratic_eval_ok _ _ _ _ Qr rep_i1) as Q1.
        rewrite Hq in Q0, Q1.
        apply rb_reject.
        { eapply rep_fne_false; [apply rep_add; [apply rep_add; [exact Q0|exact Q1]|apply rep_mul; [exact Hd|exact Rvu]]|exact Rs|].
          rewrite <- zround_01 by (cbn [length]; lia). ring. }
        apply returns_ok. cbv zeta. split; [|split; [|split; [exact Rrv'|split]]].
        -- rewrite (firstn_S_nth R j) by lia. rewrite last_last. exact Rr.
        -- rewrite (firstn_S_nth R j) by lia. rewrite last_last.
           destruct (Nat.eqb_spec (S j) n); [lia|].
           pose proof (quadratic_eval_ok _ _ _ _ Qr Rr) as Q. rewrite Hq in Q.
           rewrite zround_next in Q by (cbn [length]; lia).
           eapply rep_eq; [apply rep_add; [exact Q|apply rep_mul; [exact Hd|exact Rvu]]|ring].
        -- eapply grows_trans; [exact Lt|apply grows_quad|lia].
        -- rewrite (firstn_S_nth R j) by lia. apply Z2.
  - intros [[[[prev sm] rv] t'] z'] H. simpl (0 + n) in H. rewrite Nat.eqb_refl in H.
    rewrite (firstn_all2 R) in H by lia. rewrite (skipn_all2 Rv) in H by lia. rewrite app_nil_r in H.
    cbv zeta in H |- *. destruct H as (H1 & H2 & H3 & H4 & H5).
    rewrite zsum_end in H2 by exact LR. split; [exact H1|]. split; [eapply rep_eq; [exact H2|ring]|].
    split; [exact H3|]. split; [exact H4|exact H5].
Qed.
End Rounds.

(** ** Between and after the phases *)
Lemma qsum_last : forall c n pre R h, 0 < n -> (length pre = 0 /\ h = 1 \/ length pre = n /\ h = 4) -> length R = n ->
  (qsum c n (pre ++ removelast R) + lo c (length pre + n - 1) (last R 0) + hi c (2 * n + 1) h (last R 0))%F = qsum c n (pre ++ R).
Proof.
  intros c n pre R h Hn Hp HR. destruct (last_snoc_cases R) as [->|(R' & a & ->)]; [cbn [length] in HR; lia|].
  rewrite app_length in *. cbn [length] in *.
  rewrite removelast_snoc, last_last, app_assoc, qsum_snoc, app_length.
  replace (length pre + n - 1) with (length pre + length R') by lia.
  unfold qv. destruct Hp as [[Hp ->]|[Hp ->]].
  - destruct (Nat.eqb_spec (length pre + length R') (n - 1)); [|lia].
    destruct (Nat.eqb_spec (length pre + length R') (2 * n - 1)); [lia|]. cbn [ind]. ring.
  - destruct (Nat.eqb_spec (length pre + length R') (n - 1)); [lia|].
    destruct (Nat.eqb_spec (length pre + length R') (2 * n - 1)); [|lia]. cbn [ind]. ring.
Qed.
Lemma rphase_last : forall ph2 r cu cv pre R prev, 0 < length R -> rep prev (last R 0%F) -> rphase ph2 r cu cv pre (removelast R) ->
  rep (mul1m (r_sumcu r) prev) (cu * op (pre ++ R))%F /\ rep (mul1m (r_sumcv r) prev) (cv * op (pre ++ R))%F /\
  rep (mul1m (r_Iuv r) prev) (op (pre ++ R)) /\
  rep (fe_mul (mul1m (if ph2 then r_Zv r else r_Zu r) prev) prev) (zp R).
Proof.
  intros ph2 r cu cv pre R prev HR Rp [D1 D2 D3 D4 D5].
  destruct (last_snoc_cases R) as [->|(R' & a & ->)]; [cbn [length] in HR; lia|].
  rewrite removelast_snoc in *. rewrite last_last in Rp. rewrite app_assoc, op_snoc, zp_snoc.
  split; [eapply rep_eq; [apply mul1m_ok; eassumption|ring]|].
  split; [eapply rep_eq; [apply mul1m_ok; eassumption|ring]|].
  split; [eapply rep_eq; [apply mul1m_ok; eassumption|ring]|].
  destruct ph2; (eapply rep_eq; [apply rep_mul; [apply mul1m_ok; eassumption|exact Rp]|ring]).
Qed.

Section Ends.
Variables (N n : nat) (c : nat -> F) (cu cv : F) (V M A : nat -> F) (z0 : zprover) (sc : list F).
Hypothesis Hn : 0 < n.
Hypothesis Hlu : p_length_u (z_p z0) = n.
Hypothesis Hlv : p_length_v (z_p z0) = n.
Hypothesis Hsc : qrep (r_sumRc (z_r z0)) sc.
(** [V(R)] with its mask. *)
Definition masked (V : nat -> F) (sc R : list F) : F := (mle R V + zp R * peval sc (last R 0))%F.

Lemma zk_phase2_init_ok : forall ru z prev r_u o_u (Q : prover -> Prop), length ru = n ->
  zs N n c cu cv V M A false [] ru z0 z -> rep prev (last ru 0%F) ->
  (forall v_u, rep v_u (masked V sc ru) -> returns (zphase2_tables (z_p z) v_u r_u o_u) (fun p' =>
     Q p' /\ p_length_u p' = n /\ p_length_v p' = n /\ p_v_u p' = v_u)) ->
  returns (zk_phase2_init z prev r_u o_u) (fun z' =>
    Q (z_p z') /\ p_length_u (z_p z') = n /\ p_length_v (z_p z') = n /\ rep (p_v_u (z_p z')) (masked V sc ru) /\
    mstate n c (z_m z') n (qsum c n ru) /\ rphase true (z_r z') cu cv ru [] /\
    (exists s1 s2, z_m z' = set_sums (z_m z0) s1 s2) /\
    rsame (z_r z0) (z_r z') /\ z' = set_pmr z0 (z_p z') (z_m z') (z_r z') /\
    rep (r_preu1 (z_r z')) (last ru 0%F)).
Proof.
  intros ru z prev r_u o_u Q Lru [TB MS RP (k & l1 & l2 & l3 & Ep) (s1 & s2 & Em) RS Ez EU EV] Rp HT.
  unfold zk_phase2_init. destruct TB as (BV & BM & BA & _).
  destruct (bound_final _ _ _ _ _ _ Lru BV Rp) as (x & Ex & Rx).
  eapply rb_nth; [exact Ex|]. cbv zeta.
  destruct (rphase_last false _ _ _ [] ru prev ltac:(lia) Rp RP) as (C1 & C2 & C3 & C4). cbn [app] in C1, C2, C3.
  eapply returns_bind.
  { apply HT. unfold masked. apply rep_add; [exact Rx|]. apply rep_mul; [exact C4|].
    apply quadratic_eval_ok; [|exact Rp]. rewrite (rs_sumRc _ _ RS). exact Hsc. }
  intros p' (HQ & U & W & Ev). rewrite U, W.
  destruct MS as [MT Mc Mr]. cbn [length app] in *.
  eapply returns_bind; [apply (mask_sumr_ok n c); [exact MT|lia|exact Rp|exact Mr]|]. intros sumr Rs. cbv beta in Rs.
  replace (n + n + 1) with (2 * n + 1) by lia.
  eapply returns_bind; [apply (mask_sumr_high_ok n c); [exact MT|lia|exact Rp|exact Rs]|]. clear sumr Rs. intros sumr Rs. cbv beta in Rs.
  rewrite Nat.add_0_l in *. replace (n - 1) with (length (@nil F) + n - 1) in Rs by (cbn [length]; lia).
  pose proof (qsum_last c n [] ru 1 Hn (or_introl (conj eq_refl eq_refl)) Lru) as QL. cbn [app] in QL. rewrite QL in Rs.
  apply returns_ok. cbn [set_pmr z_p z_m z_r r_preu1].
  split; [exact HQ|]. split; [exact U|]. split; [exact W|]. split.
  { rewrite Ev. unfold masked. apply rep_add; [exact Rx|]. apply rep_mul; [exact C4|].
    apply quadratic_eval_ok; [|exact Rp]. rewrite (rs_sumRc _ _ RS). exact Hsc. }
  split; [constructor; cbn [set_sums m_poly m_sumc m_sumr]; [exact MT|rewrite Lru in Mc; exact Mc|exact Rs]|].
  split.
  { unfold rphase. rewrite app_nil_r.
    constructor; cbn [r_sumcu r_sumcv r_Iuv r_Zu r_Zv]; [exact C1|exact C2|exact C3|exact C4|exact (rd_zv _ _ _ _ _ _ RP)]. }
  split; [exists (m_sumc (z_m z)), sumr; rewrite Em; reflexivity|].
  split; [destruct RS; constructor; assumption|].
  split; [rewrite Ez; reflexivity|exact Rp].
Qed.

Lemma zk_finalize_ok : forall ru rv z prev vu, length ru = n -> length rv = n ->
  zs N n c cu cv V M A true ru rv z0 z -> rep prev (last rv 0%F) -> rep (p_v_u (z_p z0)) vu ->
  returns (zk_finalize z prev) (fun res => let '((v_u, v_v), z') := res in
    rep v_u vu /\ rep v_v (masked V sc rv) /\ p_v_u (z_p z') = v_u /\
    (exists k lV lA lM, z_p z' = set_v (set_arrays (z_p z0) k lV lA lM) v_u v_v) /\
    tabs_bound N n (z_p z') V M A rv /\ z_m z' = z_m z /\
    rsame (z_r z0) (z_r z') /\ z' = set_pmr z0 (z_p z') (z_m z') (z_r z') /\
    rep (r_Zu (z_r z')) (zp ru) /\ rep (r_Zv (z_r z')) (zp rv) /\ rep (r_Iuv (z_r z')) (op (ru ++ rv)) /\
    r_preu1 (z_r z') = r_preu1 (z_r z0) /\ rep (r_prev1 (z_r z')) (last rv 0%F)).
Proof.
  intros ru rv z prev vu Lru Lrv [TB MS RP (k & l1 & l2 & l3 & Ep) Em RS Ez EU EV] Rp Rvu.
  unfold zk_finalize. pose proof TB as (BV & BM & BA & _).
  destruct (bound_final _ _ _ _ _ _ Lrv BV Rp) as (x & Ex & Rx).
  eapply rb_nth; [exact Ex|]. cbv zeta.
  destruct (rphase_last true _ _ _ ru rv prev ltac:(lia) Rp RP) as (C1 & C2 & C3 & C4).
  apply returns_ok. cbn [set_pmr z_p z_m z_r r_Zu r_Zv r_Iuv r_preu1 r_prev1].
  split; [rewrite Ep; exact Rvu|]. split.
  { unfold masked. apply rep_add; [exact Rx|]. apply rep_mul; [exact C4|].
    apply quadratic_eval_ok; [|exact Rp]. rewrite (rs_sumRc _ _ RS). exact Hsc. }
  split; [reflexivity|]. split; [do 4 eexists; rewrite Ep; reflexivity|].
  split; [exact TB|]. split; [reflexivity|]. split; [destruct RS; constructor; assumption|].
  split; [rewrite Ez; reflexivity|]. split; [exact (rd_zu _ _ _ _ _ _ RP)|]. split; [exact C4|]. split; [exact C3|].
  split; [exact EU|exact Rp].
Qed.

(** The round of the extra variable: [g1], [g2] the coefficients of the previous
    masks as polynomials of that variable. *)
Lemma zk_finalround_ok : forall ru rv z prev general g al be zu zv g1 g2, length ru = n -> length rv = n ->
  mstate n c (z_m z) (2 * n) (qsum c n (ru ++ removelast rv)) -> rep prev (last rv 0%F) -> rep general g ->
  p_length_u (z_p z) = n -> p_length_v (z_p z) = n -> rep (p_alpha (z_p z)) al -> rep (p_beta (z_p z)) be ->
  rep (r_preZu (z_r z)) zu -> rep (r_preZv (z_r z)) zv -> rep (r_Iuv (z_r z)) (op (ru ++ rv)) ->
  qrep (r_Rg1 (z_r z)) g1 -> qrep (r_Rg2 (z_r z)) g2 ->
  returns (zk_finalround z prev (n * 2) general) (fun res => let '(poly, z') := res in
    (exists s1 s2, z' = set_m z (set_sums (z_m z) s1 s2)) /\
    exists q, qrep poly q /\ forall t, peval q t =
      (op (ru ++ rv) * (al * zu * peval g1 t + be * zv * peval g2 t) + g * t + mround c n (ru ++ rv) t)%F).
Proof.
  intros ru rv z prev general g al be zu zv g1 g2 Lru Lrv [MT Mc Mr] Rp Rg U W Ra Rb Rzu Rzv RI
    (a1 & b1 & d1 & -> & A1 & B1 & D1) (a2 & b2 & d2 & -> & A2 & B2 & D2).
  unfold zk_finalround. cbv zeta. rewrite U, W. replace (n + n) with (2 * n) by lia. replace (n * 2) with (2 * n) by lia.
  eapply returns_bind; [apply (mask_low_ok n c); [exact MT|lia]|]. intros [t1 t2] [R1 R2]. cbn [fst snd] in R1, R2.
  eapply returns_bind; [apply (mask_sumr_ok n c); [exact MT|lia|exact Rp|exact Mr]|]. intros sumr Rs. cbv beta in Rs.
  eapply returns_bind; [apply (mask_sumr_high_ok n c); [exact MT|lia|exact Rp|exact Rs]|]. clear sumr Rs. intros sumr Rs. cbv beta in Rs.
  replace (2 * n - 1) with (length ru + n - 1) in Rs by lia.
  rewrite (qsum_last c n ru rv 4 Hn (or_intror (conj Lru eq_refl)) Lrv) in Rs.
  rewrite Nat.sub_diag in *.
  assert (RS : rep (fe_mul (fe_sub (fe_sub (m_sumc (z_m z)) t1) t2) inv_2) (Sc c n (S (2 * n)))).
  { eapply rep_eq; [apply rep_mul; [apply rep_sub; [apply rep_sub; [exact Mc|exact R1]|exact R2]|apply rep_inv_2]|].
    rewrite <- Sc_step by lia. rewrite Nat.sub_diag. unfold qv, lo.
    destruct (Nat.eqb_spec (2 * n) (n - 1)); [lia|]. destruct (Nat.eqb_spec (2 * n) (2 * n - 1)); [lia|]. cbn [ind]. ring. }
  assert (CO : forall x y X Y, rep x X -> rep y Y ->
    rep (fe_add (fe_mul (fe_mul (fe_mul (r_Iuv (z_r z)) (r_preZu (z_r z))) x) (p_alpha (z_p z)))
                (fe_mul (fe_mul (fe_mul (r_Iuv (z_r z)) (r_preZv (z_r z))) y) (p_beta (z_p z))))
        (op (ru ++ rv) * zu * X * al + op (ru ++ rv) * zv * Y * be)%F).
  { intros x y X Y HX HY. apply rep_add; (apply rep_mul; [apply rep_mul; [apply rep_mul; assumption|assumption]|assumption]). }
  apply returns_ok. split; [do 2 eexists; reflexivity|].
  eexists. split.
  - do 3 eexists. split; [reflexivity|]. cbn [q_a q_b q_c].
    split; [apply addm_ok; [apply CO; eassumption|exact R1]|].
    split; [apply addm_ok; [apply rep_add; [apply CO; eassumption|exact Rg]|exact R2]|].
    apply addm3_ok; [apply CO; eassumption|exact RS|apply dbl_n_ok; exact Rs].
  - intro t. unfold mround. rewrite app_length, Lru, Lrv. replace (n + n) with (2 * n) by lia. rewrite Nat.sub_diag.
    unfold qv, lo. destruct (Nat.eqb_spec (2 * n) (n - 1)); [lia|]. destruct (Nat.eqb_spec (2 * n) (2 * n - 1)); [lia|].
    cbn [ind peval length Fpow]. ring.
Qed.
End Ends.
