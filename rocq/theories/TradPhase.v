(** * The rounds and the two initialisations of prover_clogc.cpp (C54) *)
From Coq Require Import ZArith List Bool Arith Lia Ring.
From Verif Require Import Limbs Field FieldProofs Fp Base MleSpec GkrMath Poly PolyProofs Circuit
  FastProver Lazy TablesProofs FastProverProofs PhaseProofs FastVerifier FastVerifierProofs
  SpecGkr RoundProofs TradProver TradVerifier TradProofs.
Import ListNotations.
Open Scope nat_scope.

(** ** All rounds of a phase *)
(** The rounds as the verifier drives them: the first call gets [prev], each later
    one the previous challenge. *)
Fixpoint trad_collect (upd : tprover -> fe -> nat -> outcome (quadratic_poly * tprover)) (j : nat) (prev : fe)
    (rs : list fe) (p : tprover) : outcome (list quadratic_poly * fe * tprover) :=
  match rs with
  | [] => Ok ([], prev, p)
  | r :: rs' =>
      ' (q, p) <- upd p prev j ;;
      ' (qs, last, p) <- trad_collect upd (S j) r rs' p ;;
      Ok (q :: qs, last, p)
  end.

(** Only the arrays differ. *)
Definition same (N : nat) (p0 p : tprover) : Prop :=
  exists A M lV gs, p = t_set_round p0 (t_v_u p0) A M lV gs /\ length A = N /\ length M = N.
Lemma same_trans : forall N p0 p1 p2, same N p0 p1 -> same N p1 p2 -> same N p0 p2.
Proof.
  intros N p0 p1 p2 (A & M & lV & gs & -> & _ & _) (A' & M' & lV' & gs' & -> & HA & HM).
  exists A', M', lV', gs'. split; [reflexivity|]. split; assumption.
Qed.
Lemma same_refl : forall N p, length (t_add p) = N -> length (t_mult p) = N -> same N p p.
Proof.
  intros N p HA HM. exists (t_add p), (t_mult p), (t_V p), (t_gsum p). split; [destruct p; reflexivity|]. split; assumption.
Qed.

Lemma last_value_ok : forall N lg n L V W K p R prev, length R = n -> 0 < n -> before N lg n L V W K p R -> rep prev (last R 0%F) ->
  returns (last_value (t_V p) prev) (fun x => rep x (mle R V)).
Proof.
  intros N lg n L V W K p R prev HR Hn [TV _] Rp. destruct (last_case R) as [E|(Q & a & E)]; [rewrite E in HR; simpl in HR; lia|].
  rewrite E, removelast_snoc in TV. rewrite E, last_last in Rp.
  assert (LQ : n - length Q = 1) by (rewrite <- HR, E, app_length; simpl; lia). rewrite LQ in TV.
  unfold last_value. eapply rb_tab; [exact TV|simpl; lia|]. intros x Rx. eapply rb_tab; [exact TV|simpl; lia|]. intros y Ry.
  apply returns_ok. rewrite mle_folds, E, folds_snoc. unfold fold1. cbn [Nat.mul Nat.add]. lzr.
Qed.

Section Rounds.
Variables (N lg n : nat) (L : layer) (V W : nat -> F) (sel : gate -> Z) (K : nat -> nat) (X : nat -> F).
Hypothesis HG : 2 ^ lg <= length (gates L).
Hypothesis HN : 2 ^ n <= N.
Hypothesis HGN : 2 ^ lg <= N.
Hypothesis types : forall g, g < 2 ^ lg -> livegate L g \/ g_ty (gate_at L g) = 2%Z.
Hypothesis HK : forall g, g < 2 ^ lg -> livegate L g -> sel (gate_at L g) = Z.of_nat (K g) /\ K g < 2 ^ n.
Variable other : gate -> outcome fe.
Hypothesis Hother : forall g, g < 2 ^ lg -> livegate L g -> returns (other (gate_at L g)) (fun x => rep x (X g)).
Let M := scat (2 ^ lg) (rM L W K X).
Let A := scat (2 ^ lg) (rA L W K X).

Variable p0 : tprover.
Hypothesis EL : nth_error (circuit (t_C p0)) (t_layer p0) = Some L.
Hypothesis Elg : t_length_g p0 = lg.
Hypothesis Euv : t_total_uv p0 = 2 ^ n.
Variable update : tprover -> fe -> nat -> outcome (quadratic_poly * tprover).
Hypothesis Hup : forall p x j, same N p0 p -> update p x j = cmt_update sel other p x j.

Lemma update_ok : forall R p prev, length R < n -> same N p0 p -> before N lg n L V W K p R -> rep prev (last R 0%F) ->
  returns (update p prev (length R)) (fun res => let '(poly, p') := res in
    same N p0 p' /\ (forall a, before N lg n L V W K p' (R ++ [a])) /\
    exists c, qrep poly c /\ forall t, peval c t = round (n - S (length R)) (folds R V) (folds R M) (folds R A) t).
Proof.
  intros R p prev HR HS HB Hp. rewrite (Hup p prev _ HS).
  pose proof HS as (A0 & M0 & lV & gs & E & LA & LM).
  eapply returns_conseq.
  { apply (cmt_update_ok N lg n L V W sel K X HG HN HGN types HK other Hother R HR p prev); try assumption; rewrite E; assumption. }
  intros [poly p'] ((A1 & M1 & lV1 & gs1 & E1 & LA1 & LM1) & HB1 & H). split; [|split; [exact HB1|exact H]].
  eapply same_trans; [exact HS|]. exists A1, M1, lV1, gs1. auto.
Qed.

Lemma trad_rounds_ok : forall r_u R sum, length R = n -> reps r_u R ->
  length (t_add p0) = N -> length (t_mult p0) = N -> before N lg n L V W K p0 [] -> rep sum (psum n V M A) ->
  returns (trad_rounds update n r_u sum p0) (fun st => let '(prev, sum, p') := st in
    rep prev (last R 0%F) /\ rep sum (mle R V * mle R M + mle R A)%F /\
    before N lg n L V W K p' R /\ same N p0 p').
Proof.
  intros r_u R sum HR Hr LA LM TB Hs. unfold trad_rounds.
  eapply returns_conseq.
  - apply (returns_for _ n 0 _ (fun j st => let '(prev, sum, p') := st in
      let Rj := firstn j R in
      rep prev (last Rj 0%F) /\ rep sum (psum (n - j) (folds Rj V) (folds Rj M) (folds Rj A)) /\
      before N lg n L V W K p' Rj /\ same N p0 p')).
    + cbn [firstn folds last]. rewrite Nat.sub_0_r. split; [exact rep_i0|]. split; [exact Hs|]. split; [exact TB|].
      apply same_refl; assumption.
    + intros j [[prev sm] p'] Hj (Rp & Rs & TB' & HS). simpl in Hj.
      assert (Lj : length (firstn j R) = j) by (rewrite firstn_length; lia).
      pose proof (update_ok (firstn j R) p' prev ltac:(lia) HS TB' Rp) as SU. rewrite Lj in SU.
      eapply returns_bind; [exact SU|]. intros [poly p2] (HS2 & TB2 & c & Qc & Hc).
      eapply rb_reps; [exact Hr|lia|]. intros r Rr.
      pose proof (quadratic_eval_ok _ _ _ _ Qc rep_i0) as Q0. pose proof (quadratic_eval_ok _ _ _ _ Qc rep_i1) as Q1.
      rewrite Hc in Q0, Q1.
      apply rb_reject.
      { eapply rep_fne_false; [apply rep_add; [exact Q0|exact Q1]|exact Rs|]. rewrite round_01. f_equal. lia. }
      apply returns_ok. cbv zeta. rewrite (firstn_S_nth R j) by lia. rewrite last_last, !folds_snoc.
      split; [exact Rr|]. split; [|split; [apply TB2|exact HS2]].
      pose proof (quadratic_eval_ok _ _ _ _ Qc Rr) as Q. rewrite Hc in Q. exact Q.
  - intros [[prev sm] p'] H. simpl (0 + n) in H. rewrite Nat.sub_diag in H.
    rewrite (firstn_all2 R) in H by lia. cbv zeta in H. destruct H as (H1 & H2 & H3 & H4).
    rewrite psum_0, <- !mle_folds in H2. split; [exact H1|]. split; [exact H2|]. split; [exact H3|exact H4].
Qed.

Lemma trad_collect_ok : forall rs Rs p R prev, reps rs Rs -> length R + length Rs = n ->
  same N p0 p -> before N lg n L V W K p R -> rep prev (last R 0%F) ->
  returns (trad_collect update (length R) prev rs p) (fun st => let '(qs, prev', p') := st in
    length qs = length Rs /\
    (forall k, k < length Rs -> exists q c, nth_error qs k = Some q /\ qrep q c /\ forall t,
       peval c t = round (n - S (length R + k)) (folds (R ++ firstn k Rs) V) (folds (R ++ firstn k Rs) M)
                         (folds (R ++ firstn k Rs) A) t) /\
    rep prev' (last (R ++ Rs) 0%F) /\ before N lg n L V W K p' (R ++ Rs) /\ same N p0 p').
Proof.
  intros rs Rs p R prev H. revert p R prev. induction H as [|r a rs Rs Rr H IH]; intros p R prev HL HS TB Hp; cbn [trad_collect].
  - apply returns_ok. split; [reflexivity|]. split; [intros k Hk; simpl in Hk; lia|]. rewrite app_nil_r.
    split; [exact Hp|]. split; [exact TB|exact HS].
  - cbn [length] in HL.
    eapply returns_bind; [apply (update_ok R p prev ltac:(lia) HS TB Hp)|].
    intros [q p1] (HS1 & TB1 & c & Qc & Hc).
    assert (L1 : length (R ++ [a]) = S (length R)) by (rewrite app_length; simpl; lia).
    eapply returns_bind.
    { rewrite <- L1. apply (IH p1 (R ++ [a]) r); [rewrite L1; lia|exact HS1|apply TB1|rewrite last_last; exact Rr]. }
    intros [[qs lst] p2]. rewrite L1, <- app_assoc. cbn [app]. intros (Lq & Hq & Hl & TB2 & HS2). apply returns_ok.
    split; [cbn [length]; lia|]. split; [|split; [exact Hl|split; [exact TB2|exact HS2]]].
    intros [|j] Hj; cbn [nth_error firstn].
    + exists q, c. rewrite app_nil_r, Nat.add_0_r. split; [reflexivity|]. split; [exact Qc|exact Hc].
    + destruct (Hq j) as (q' & c' & Eq & Q' & Hc'); [cbn [length] in Hj; lia|]. exists q', c'.
      split; [exact Eq|]. split; [exact Q'|]. intro t. rewrite Hc'. rewrite <- app_assoc. cbn [app].
      replace (S (length R) + j) with (length R + S j) by lia. reflexivity.
Qed.

End Rounds.

(** ** The tables of the two phases *)
Section Tables.
Variables (G : nat) (L : layer) (W V : nat -> F).
Hypothesis types : forall g, g < G -> livegate L g \/ g_ty (gate_at L g) = 2%Z.
Definition wu (g : nat) : nat := Z.to_nat (g_u (gate_at L g)).
Definition wv (g : nat) : nat := Z.to_nat (g_v (gate_at L g)).
Ltac tables g Hg :=
  let Ht := fresh in destruct (types g Hg) as [[Ht|Ht]|Ht]; rewrite Ht;
  cbn [map form_of c11 c10 c01 c00]; rewrite ?lsum_cons, ?lsum_nil; cbn [fst snd];
  unfold w_c, w_l, w_r; cbn [fst snd]; unfold wu, wv; ring.
Lemma table_M1 : forall x, scat G (rM L W wu (fun g => V (wv g))) x = scat G (tM1 (gate_at L) W V) x.
Proof. intro x. unfold scat. apply sumn_ext. intros g Hg. unfold rM, tM1, fo, wires. tables g Hg. Qed.
Lemma table_A1 : forall x, scat G (rA L W wu (fun g => V (wv g))) x = scat G (tA1 (gate_at L) W V) x.
Proof. intro x. unfold scat. apply sumn_ext. intros g Hg. unfold rA, tA1, fo, wires. tables g Hg. Qed.
Lemma table_M2 : forall vu U x, scat G (rM L (fun g => W g * U (wu g))%F wv (fun _ => vu)) x =
  scat G (tM2 (gate_at L) W vu U) x.
Proof. intros vu U x. unfold scat. apply sumn_ext. intros g Hg. unfold rM, tM2, fo, wires. tables g Hg. Qed.
Lemma table_A2 : forall vu U x, scat G (rA L (fun g => W g * U (wu g))%F wv (fun _ => vu)) x =
  scat G (tA2 (gate_at L) W vu U) x.
Proof. intros vu U x. unfold scat. apply sumn_ext. intros g Hg. unfold rA, tA2, fo, wires. tables g Hg. Qed.
End Tables.

(** ** The two initialisations *)
Record tinv (C : layered_circuit) (m : nat) (p : tprover) : Prop := {
  ti_C : t_C p = C;
  ti_rows : rows_ok C (total_depth C) (t_values p);
  ti_V : length (t_V p) = 2 ^ m; ti_A : length (t_add p) = 2 ^ m; ti_M : length (t_mult p) = 2 ^ m;
  ti_g : length (t_gsum p) = 2 ^ m;
  ti_g0f : length (t_g0f p) = 2 ^ (m / 2 + 1); ti_g0s : length (t_g0s p) = 2 ^ (m / 2 + 1);
  ti_g1f : length (t_g1f p) = 2 ^ (m / 2 + 1); ti_g1s : length (t_g1s p) = 2 ^ (m / 2 + 1) }.
Record tparams (p : tprover) (lg : nat) (a b : F) (R0 R1 : list F) : Prop := {
  tp_lg : t_length_g p = lg;
  tp_a : rep (t_alpha p) a; tp_b : rep (t_beta p) b;
  tp_r0 : reps (t_r_0 p) R0; tp_r1 : reps (t_r_1 p) R1;
  tp_o0 : reps (t_o_0 p) (comp R0); tp_o1 : reps (t_o_1 p) (comp R1);
  tp_l0 : length R0 = lg; tp_l1 : length R1 = lg }.

Lemma load_V_ok : forall N Np prev n V l, tab Np prev n V -> length l = N -> n <= N ->
  returns (load_V prev n l) (fun l' => tab N l' n V).
Proof.
  intros N Np prev n V l T Hl Hn. unfold load_V. apply (returns_for _ n 0 _ (fun i l' => tab N l' i V)).
  - rewrite <- Hl. apply tab_nil.
  - intros i l' Hi T'. simpl in Hi. eapply rb_tab; [exact T|lia|]. intros x Rx.
    apply returns_wr; [rewrite (tab_len _ _ _ _ T'); lia|]. apply tab_push; [exact T'|lia|exact Rx].
Qed.

Lemma pow_mono : forall x y, x <= y -> 2 ^ x <= 2 ^ y.
Proof. intros. apply Nat.pow_le_mono_r; lia. Qed.

Section Init.
Variables (C : layered_circuit) (m i : nat).
Hypothesis Hi : 0 < i < total_depth C.
Hypothesis WF : total_depth C = length (circuit C).
Let L := layer_at C i.
Let Lm := layer_at C (i - 1).
Let lg := bit_length L.
Let b := bit_length Lm.
Hypothesis Hlg : lg <= m.
Hypothesis Hb : b <= m.
Hypothesis Hb1 : 0 < b.
Hypothesis HG : 2 ^ lg <= length (gates L).
Hypothesis TG : forall g, g < 2 ^ lg -> trad_gate (2 ^ b) (gate_at L g).
Let V := vals C (i - 1).
Let N := 2 ^ m.
Let Hh := 2 ^ (m / 2 + 1).

Lemma live_types : forall g, g < 2 ^ lg -> livegate L g \/ g_ty (gate_at L g) = 2%Z.
Proof. intros g Hg. unfold livegate. destruct (trad_type _ _ (TG g Hg)) as [E|[E|E]]; auto. Qed.
Lemma live_wires : forall g, g < 2 ^ lg -> livegate L g ->
  g_u (gate_at L g) = Z.of_nat (wu L g) /\ wu L g < 2 ^ b /\
  g_v (gate_at L g) = Z.of_nat (wv L g) /\ wv L g < 2 ^ b.
Proof.
  intros g Hg H. pose proof (TG g Hg) as T. unfold trad_gate in T. unfold wu, wv.
  destruct H as [E|E]; rewrite E in T; lia.
Qed.
Lemma live_u : forall g, g < 2 ^ lg -> livegate L g -> g_u (gate_at L g) = Z.of_nat (wu L g) /\ wu L g < 2 ^ b.
Proof. intros g Hg H. destruct (live_wires g Hg H) as (H1 & H2 & _). auto. Qed.
Lemma live_v : forall g, g < 2 ^ lg -> livegate L g -> g_v (gate_at L g) = Z.of_nat (wv L g) /\ wv L g < 2 ^ b.
Proof. intros g Hg H. destruct (live_wires g Hg H) as (_ & _ & H1 & H2). auto. Qed.

Lemma trad_phase1_init_ok : forall p al be R0 R1,
  tinv C m p -> t_layer p = i -> tparams p lg al be R0 R1 ->
  returns (trad_phase1_init p) (fun p' => tinv C m p' /\ 
    before N lg b L V (gw al be R0 R1) (wu L) p' [] /\
    exists lV gs g0f g0s g1f g1s, p' = t_set_tables p (2 ^ b) lV gs g0f g0s g1f g1s).
Proof.
  intros p al be R0 R1 PI Pl PP.
  destruct PI as [EC Rows lnV lnA lnM lnbg ln0f ln0s ln1f ln1s].
  destruct PP as [Plg Pa Pb Pr0 Pr1 Po0 Po1 Pl0 Pl1].
  unfold trad_phase1_init. rewrite EC, Pl, Plg.
  eapply rb_nth; [apply layer_rd; lia|].
  destruct Rows as [RL RR]. destruct (RR (i - 1) ltac:(lia)) as (prev & Ep & TP).
  eapply rb_nth; [exact Ep|]. fold L Lm. fold b. fold V in TP. fold Lm in TP. fold b in TP.
  pose proof (pow_mono _ _ Hb) as HbN. pose proof (pow_mono _ _ Hlg) as HlN.
  eapply returns_bind; [eapply (load_V_ok N); [exact TP|exact lnV|exact HbN]|].
  intros lV TV. cbv beta in TV.
  assert (Hpos : 0 < Hh) by apply pow2_pos.
  assert (H1 : 2 ^ (lg / 2) <= Hh).
  { apply pow_mono. pose proof (Nat.div_le_mono lg m 2 ltac:(lia) Hlg). lia. }
  assert (H2 : 2 ^ (lg - lg / 2) <= Hh) by (apply pow_mono, half_bound, Hlg).
  apply rb_wr; [fold Hh in ln0f; lia|]. apply rb_wr; [fold Hh in ln1f; lia|].
  apply rb_wr; [fold Hh in ln0s; lia|]. apply rb_wr; [fold Hh in ln1s; lia|].
  rewrite shr1_div2. pose proof (half_le lg) as HL.
  eapply returns_bind.
  { eapply (half_tables2_gen Hh _ _ _ _ _ _ R0 R1 0 (lg / 2) al be lg Pr0 Po0 Pr1 Po1 Pl0 Pl1 ltac:(lia) H1).
    - apply eqtab_init; [exact ln0f|exact Hpos|exact Pa].
    - apply eqtab_init; [exact ln1f|exact Hpos|exact Pb]. }
  intros [g0f g1f] [T0f T1f]. cbn [fst snd] in T0f, T1f.
  eapply returns_bind.
  { eapply (half_tables2_gen Hh _ _ _ _ _ _ R0 R1 (lg / 2) (lg - lg / 2) 1%F 1%F lg Pr0 Po0 Pr1 Po1 Pl0 Pl1 ltac:(lia) H2).
    - apply eqtab_init; [exact ln0s|exact Hpos|exact rep_i1].
    - apply eqtab_init; [exact ln1s|exact Hpos|exact rep_i1]. }
  intros [g0s g1s] [T0s T1s]. cbn [fst snd] in T0s, T1s.
  set (pf := set_g_tables (init_prover C 0) g0f g0s g1f g1s []).
  assert (GT : gtabs pf Hh lg al be R0 R1) by exact (conj T0f (conj T0s (conj T1f T1s))).
  pose proof (fun k => gtabs_weight _ Hh lg al be R0 R1 k Pl0 Pl1 GT) as HW.
  cbn [pf set_g_tables p_g0f p_g0s p_g1f p_g1s] in HW. rewrite shr1_div2 in HW.
  eapply returns_bind.
  { apply (returns_for _ (2 ^ lg) 0 _ (fun k gs => tab N gs k (gw al be R0 R1))).
    - fold N in lnbg. rewrite <- lnbg. apply tab_nil.
    - intros k gs Hk T. simpl in Hk. eapply returns_bind; [apply HW; lia|]. intros x Rx.
      apply returns_wr; [rewrite (tab_len _ _ _ _ T); fold N in HlN; lia|]. apply tab_push; [exact T|fold N in HlN; lia|exact Rx]. }
  intros gs Tgs. cbv beta in Tgs. simpl (0 + 2 ^ lg) in Tgs. apply returns_ok. split; [|split].
  - pose proof (tab_len _ _ _ _ TV) as KV. pose proof (tab_len _ _ _ _ Tgs) as KG.
    destruct T0f as [K0f _]. destruct T0s as [K0s _]. destruct T1f as [K1f _]. destruct T1s as [K1s _].
    constructor; cbn [t_set_tables t_C t_values t_V t_add t_mult t_gsum t_g0f t_g0s t_g1f t_g1s]; try assumption.
    split; assumption.
  - unfold before. cbn [removelast length folds t_set_tables t_V t_gsum]. rewrite Nat.sub_0_r. split; [exact TV|].
    split; [exact (tab_len _ _ _ _ Tgs)|]. intros g Hg. destruct (proj2 (proj2 Tgs) g Hg) as (x & E & Rx).
    exists x, (gw al be R0 R1 g). split; [exact E|]. split; [exact Rx|]. intros _. unfold eqw. cbn [point map eqg]. ring.
  - repeat eexists.
Qed.

(** The state between the phases. *)
Definition tbetween (p : tprover) (prev : fe) (al be : F) (R0 R1 ru : list F) : Prop :=
  tinv C m p /\ t_layer p = i /\ tparams p lg al be R0 R1 /\ t_total_uv p = 2 ^ b /\
  before N lg b L V (gw al be R0 R1) (wu L) p ru /\ rep prev (last ru 0%F).
Lemma trad_phase2_init_ok : forall p prev r_u o_u al be R0 R1 ru, length ru = b ->
  tbetween p prev al be R0 R1 ru ->
  returns (trad_phase2_init p prev r_u o_u) (fun p' => tinv C m p' /\ rep (t_v_u p') (mle ru V) /\
    before N lg b L V (fun g => gw al be R0 R1 g * eqw ru (wu L g))%F (wv L) p' [] /\
    exists vu lV gs, p' = t_set_round p vu (t_add p) (t_mult p) lV gs).
Proof.
  intros p prev r_u o_u al be R0 R1 ru Lru (PI & Pl & PP & Puv & HB & Rp).
  destruct PI as [EC Rows lnV lnA lnM lnbg ln0f ln0s ln1f ln1s].
  destruct PP as [Plg Pa Pb Pr0 Pr1 Po0 Po1 Pl0 Pl1].
  unfold trad_phase2_init. rewrite EC, Pl, Plg, Puv.
  pose proof (pow_mono _ _ Hb) as HbN. pose proof (pow_mono _ _ Hlg) as HlN.
  eapply returns_bind; [apply (last_value_ok N lg b L V (gw al be R0 R1) (wu L) p ru prev Lru Hb1 HB Rp)|].
  intros v_u Rvu. cbv beta in Rvu.
  destruct Rows as [RL RR]. destruct (RR (i - 1) ltac:(lia)) as (row & Ep & TP).
  eapply rb_nth; [exact Ep|]. fold V in TP. fold Lm in TP. fold b in TP.
  eapply returns_bind; [eapply (load_V_ok N); [exact TP|exact lnV|exact HbN]|].
  intros lV TV. cbv beta in TV.
  eapply rb_nth; [apply layer_rd; lia|]. eapply rb_nth; [apply layer_rd; lia|]. fold L Lm. fold b.
  destruct (last_case ru) as [E|(Q & a & E)]; [rewrite E in Lru; simpl in Lru; lia|].
  destruct HB as [_ BG]. rewrite E, removelast_snoc in BG. rewrite E, last_last in Rp.
  assert (Eb : b = S (length Q)) by (rewrite <- Lru, E, app_length; simpl; lia).
  eapply (returns_bind _ _ _ _ (fun gs => gtab N lg L (gw al be R0 R1) (wu L) gs (fun _ => ru))).
  { rewrite Eb, E.
    apply (scale_gates_ok N lg (S (length Q)) L (gw al be R0 R1) g_u (wu L)); try assumption.
    - rewrite <- Eb. exact HbN.
    - intros g Hg Hl. rewrite <- Eb. apply live_u; assumption. }
  intros gs [LG Gs]. apply returns_ok. split; [|split; [|split]].
  - pose proof (tab_len _ _ _ _ TV) as KV.
    constructor; cbn [t_set_round t_C t_values t_V t_add t_mult t_gsum t_g0f t_g0s t_g1f t_g1s]; try assumption.
    split; assumption.
  - exact Rvu.
  - unfold before. cbn [removelast length folds t_set_round t_V t_gsum]. rewrite Nat.sub_0_r. split; [exact TV|].
    split; [exact LG|]. intros g Hg. destruct (Gs g Hg) as (x & c & Ex & Rx & Hc).
    exists x, c. split; [exact Ex|]. split; [exact Rx|]. intro Hl. rewrite (Hc Hl). cbv beta. change (eqw [] (wv L g)) with 1%F. ring.
  - repeat eexists.
Qed.

(** The two updates as instances of the common round. *)
Lemma update1_same : forall p0 row p x j, t_layer p0 = i -> nth_error (t_values p0) (i - 1) = Some row -> same N p0 p ->
  trad_phase1_update p x j = cmt_update g_u (fun gt => iv <- idx (g_v gt) ;; rd row iv) p x j.
Proof.
  intros p0 row p x j Pl Er (A & M & lV & gs & -> & _ & _). unfold trad_phase1_update.
  cbn [t_set_round t_values t_layer]. rewrite Pl. unfold rd at 1. rewrite Er. reflexivity.
Qed.
Lemma update2_same : forall p0 p x j, same N p0 p ->
  trad_phase2_update p x j = cmt_update g_v (fun _ => Ok (t_v_u p0)) p x j.
Proof. intros p0 p x j (A & M & lV & gs & -> & _ & _). reflexivity. Qed.
Lemma other1_ok : forall Np row g, tab Np row (2 ^ b) V -> g < 2 ^ lg -> livegate L g ->
  returns (iv <- idx (g_v (gate_at L g)) ;; rd row iv) (fun x => rep x (V (wv L g))).
Proof.
  intros Np row g T Hg Hl. destruct (live_v g Hg Hl) as [E Hlt]. rewrite E. apply rb_idx; [lia|]. rewrite Nat2Z.id.
  destruct (proj2 (proj2 T) _ Hlt) as (x & Ex & Rx). exists x. unfold rd. rewrite Ex. auto.
Qed.
Lemma same_tinv : forall p0 p Q K W, tinv C m p0 -> same N p0 p -> before N lg b L V W K p Q -> tinv C m p.
Proof.
  intros p0 p Q K W [] (A & M & lV & gs & -> & LA & LM) [TV [LG _]]. pose proof (tab_len _ _ _ _ TV) as KV.
  cbn [t_set_round t_V t_gsum] in KV, LG.
  constructor; cbn [t_set_round t_C t_values t_V t_add t_mult t_gsum t_g0f t_g0s t_g1f t_g1s]; assumption.
Qed.
End Init.
