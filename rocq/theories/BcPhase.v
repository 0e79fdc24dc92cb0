(** * The three phases of the block prover (C57) *)
From Coq Require Import ZArith List Bool Arith Lia Ring.
From Verif Require Import Limbs Field FieldProofs Fp Base MleSpec GkrMath Poly PolyProofs Circuit
  FastProver Lazy TablesProofs FastProverProofs PhaseProofs FastVerifier FastVerifierProofs
  SpecGkr RoundProofs TradProver TradVerifier TradProofs TradPhase TradVerifierProofs BcProver BcVerifier BcPhase0.
Import ListNotations.
Open Scope nat_scope.

(** ** Driving the rounds, for any kind of polynomial *)
(** All rounds, without the checks. *)
Fixpoint collect {St P} (upd : St -> fe -> nat -> outcome (P * St)) (j : nat) (prev : fe) (rs : list fe) (s : St)
  : outcome (list P * fe * St) :=
  match rs with
  | [] => Ok ([], prev, s)
  | r :: rs' =>
      ' (q, s) <- upd s prev j ;;
      ' (qs, last, s) <- collect upd (S j) r rs' s ;;
      Ok (q :: qs, last, s)
  end.
(** [eval q x] is the value of the [j]-th message at [x]. *)
Definition says {P} (eval : P -> fe -> fe) (qs : list P) (n : nat) (f : nat -> F -> F) : Prop :=
  length qs = n /\ forall j, j < n -> exists q, nth_error qs j = Some q /\
    forall x t, rep x t -> rep (eval q x) (f j t).
Section Drive.
Context {St P : Type}.
Variables (eval : P -> fe -> fe) (upd : St -> fe -> nat -> outcome (P * St)) (n : nat).
Variables (Inv : St -> list F -> Prop) (g : list F -> F -> F) (run : list F -> F).
Hypothesis Hupd : forall s R prev, length R < n -> Inv s R -> (R = [] \/ rep prev (last R 0%F)) ->
  returns (upd s prev (length R)) (fun res => (forall a, Inv (snd res) (R ++ [a])) /\
    forall x t, rep x t -> rep (eval (fst res) x) (g R t)).
Hypothesis Hsum : forall R, length R < n -> (g R 0 + g R 1)%F = run R.
Hypothesis Hrun : forall R a, length R < n -> run (R ++ [a]) = g R a.
Lemma drive : forall rs R prev sum s, length R = n -> reps rs R -> Inv s [] -> rep sum (run []) ->
  returns (for_ n 0 (fun j st =>
    let '(prev, sum, s) := st in
    ' (poly, s) <- upd s prev j ;;
    r <- rd rs j ;;
    reject_if (fe_ne (fe_add (eval poly (fe_of_int 0)) (eval poly (fe_of_int 1))) sum) ;;;
    Ok (r, eval poly r, s)) (prev, sum, s))
    (fun st => let '(prev', sum, s') := st in
      (0 < n -> rep prev' (last R 0%F)) /\ rep sum (run R) /\ Inv s' R).
Proof.
  intros rs R prev sum s HR Hr HI Hs.
  eapply returns_conseq.
  - apply (returns_for _ n 0 _ (fun j st => let '(prev, sum, s) := st in
      (firstn j R = [] \/ rep prev (last (firstn j R) 0%F)) /\ rep sum (run (firstn j R)) /\ Inv s (firstn j R))).
    + cbn [firstn]. auto.
    + intros j [[pv sm] s'] Hj (Hp & Hs' & HI'). simpl in Hj.
      assert (Lj : length (firstn j R) = j) by (rewrite firstn_length; lia).
      pose proof (Hupd s' (firstn j R) pv ltac:(lia) HI' Hp) as U. rewrite Lj in U.
      eapply returns_bind; [exact U|]. intros [poly s2] (HI2 & Hev). cbn [fst snd] in *.
      eapply rb_reps; [exact Hr|lia|]. intros r Rr.
      apply rb_reject.
      { eapply rep_fne_false; [apply rep_add; [apply Hev, rep_i0|apply Hev, rep_i1]|exact Hs'|]. apply Hsum. lia. }
      apply returns_ok. rewrite (firstn_S_nth R j) by lia. rewrite last_last. split; [right; exact Rr|].
      split; [rewrite Hrun by lia; apply Hev, Rr|apply HI2].
  - intros [[pv sm] s'] H. simpl (0 + n) in H. rewrite (firstn_all2 R) in H by lia. destruct H as (H1 & H2 & H3).
    split; [|split; assumption]. intros Hn. destruct H1 as [E|H1]; [rewrite E in HR; simpl in HR; lia|exact H1].
Qed.
Lemma collect_ok : forall rs Rs s R prev, reps rs Rs -> length R + length Rs = n -> Inv s R ->
  (R = [] \/ rep prev (last R 0%F)) ->
  returns (collect upd (length R) prev rs s) (fun st => let '(qs, prev', s') := st in
    says eval qs (length Rs) (fun j => g (R ++ firstn j Rs)) /\
    (R ++ Rs = [] \/ rep prev' (last (R ++ Rs) 0%F)) /\ Inv s' (R ++ Rs)).
Proof.
  intros rs Rs s R prev H. revert s R prev. induction H as [|r a rs Rs Rr H IH]; intros s R prev HL HI Hp; cbn [collect].
  - apply returns_ok. rewrite app_nil_r. split; [|split; assumption]. split; [reflexivity|]. intros j Hj. simpl in Hj. lia.
  - cbn [length] in HL. eapply returns_bind; [apply (Hupd s R prev ltac:(lia) HI Hp)|].
    intros [q s1] (HI1 & Hev). cbn [fst snd] in *.
    assert (L1 : length (R ++ [a]) = Datatypes.S (length R)) by (rewrite app_length; simpl; lia).
    eapply returns_bind.
    { rewrite <- L1. apply (IH s1 (R ++ [a]) r); [rewrite L1; lia|apply HI1|right; rewrite last_last; exact Rr]. }
    intros [[qs lst] s2]. rewrite <- !app_assoc. cbn [app]. intros ([Lq Hq] & Hl & HI2). apply returns_ok.
    split; [|split; assumption]. split; [cbn [length]; lia|]. intros [|j] Hj; cbn [nth_error firstn].
    + exists q. rewrite app_nil_r. split; [reflexivity|exact Hev].
    + destruct (Hq j) as (q' & Eq & Hq'); [cbn [length] in Hj; lia|]. exists q'. split; [exact Eq|].
      rewrite <- app_assoc in Hq'. exact Hq'.
Qed.
End Drive.

(** ** Sums over the gates of a layer, for any previous values *)
Section GateSums.
Variables (lg b : nat) (L : layer) (W V : nat -> F).
Hypothesis TG : forall g, g < 2 ^ lg -> trad_gate (2 ^ b) (gate_at L g).
Lemma g_types : forall g, g < 2 ^ lg -> livegate L g \/ g_ty (gate_at L g) = 2%Z.
Proof. intros g Hg. unfold livegate. destruct (trad_type _ _ (TG g Hg)) as [E|[E|E]]; auto. Qed.
Lemma g_live : forall g, g < 2 ^ lg -> livegate L g ->
  (g_u (gate_at L g) = Z.of_nat (wu L g) /\ wu L g < 2 ^ b) /\ (g_v (gate_at L g) = Z.of_nat (wv L g) /\ wv L g < 2 ^ b).
Proof.
  intros g Hg H. pose proof (TG g Hg) as T. unfold trad_gate in T. unfold wu, wv.
  destruct H as [E|E]; rewrite E in T; lia.
Qed.
Lemma g_range : forall g, g < 2 ^ lg -> in_range (2 ^ b) (gate_at L g).
Proof. intros g Hg. apply proto_range; [apply pow2_pos|apply trad_proto, TG, Hg]. Qed.
Lemma g_proto : forall g, g < 2 ^ lg -> proto_gate (2 ^ b) (gate_at L g).
Proof. intros g Hg. apply trad_proto, TG, Hg. Qed.
Definition gM1 := scat (2 ^ lg) (rM L W (wu L) (fun g => V (wv L g))).
Definition gA1 := scat (2 ^ lg) (rA L W (wu L) (fun g => V (wv L g))).
Definition gM2 ru := scat (2 ^ lg) (rM L (fun g => W g * eqw ru (wu L g))%F (wv L) (fun _ => mle ru V)).
Definition gA2 ru := scat (2 ^ lg) (rA L (fun g => W g * eqw ru (wu L g))%F (wv L) (fun _ => mle ru V)).
Lemma g_eval1 : forall X, (mle X V * mle X gM1 + mle X gA1 =
  mle X V * mle X (scat (2 ^ lg) (tM1 (gate_at L) W V)) + mle X (scat (2 ^ lg) (tA1 (gate_at L) W V)))%F.
Proof.
  intro X. f_equal; [f_equal|]; apply mle_ext; intros x _; [apply table_M1|apply table_A1]; exact g_types.
Qed.
Lemma g_eval2 : forall ru X, (mle X V * mle X (gM2 ru) + mle X (gA2 ru) =
  mle X V * mle X (scat (2 ^ lg) (tM2 (gate_at L) W (mle ru V) (eqw ru))) +
  mle X (scat (2 ^ lg) (tA2 (gate_at L) W (mle ru V) (eqw ru))))%F.
Proof.
  intros ru X. f_equal; [f_equal|]; apply mle_ext; intros x _;
    [apply (table_M2 (2 ^ lg) L W g_types)|apply (table_A2 (2 ^ lg) L W g_types)].
Qed.
Lemma g_start : psum b V gM1 gA1 = gsumF (2 ^ lg) L W V.
Proof.
  transitivity (psum b V (scat (2 ^ lg) (tM1 (gate_at L) W V)) (scat (2 ^ lg) (tA1 (gate_at L) W V))).
  - unfold psum. apply sumn_ext. intros x _. f_equal; [f_equal|]; [apply table_M1|apply table_A1]; exact g_types.
  - rewrite (phase1_start (2 ^ lg) (gate_at L) W V b g_range). unfold gsumF.
    apply sumn_ext. intros g Hg. rewrite (proto_value (2 ^ b)) by (apply g_proto, Hg). reflexivity.
Qed.
Lemma g_link : forall ru, length ru = b -> (mle ru V * mle ru gM1 + mle ru gA1)%F = psum b V (gM2 ru) (gA2 ru).
Proof.
  intros ru Lu. rewrite g_eval1. rewrite (phase1_end (2 ^ lg) (gate_at L) W V b g_range ru Lu).
  unfold psum. apply sumn_ext. intros x _. symmetry.
  f_equal; [f_equal|]; [apply (table_M2 (2 ^ lg) L W g_types)|apply (table_A2 (2 ^ lg) L W g_types)].
Qed.
Lemma g_end : forall ru rv, length rv = b -> (mle rv V * mle rv (gM2 ru) + mle rv (gA2 ru))%F =
  (fval (form_of 0) (mle ru V) (mle rv V) * pred (2 ^ lg) (gate_at L) W 0 (eqw ru) (eqw rv) +
   fval (form_of 1) (mle ru V) (mle rv V) * pred (2 ^ lg) (gate_at L) W 1 (eqw ru) (eqw rv))%F.
Proof.
  intros ru rv Lv. rewrite g_eval2, (phase2_end (2 ^ lg) (gate_at L) W V b g_range (mle ru V) (eqw ru) rv Lv).
  rewrite (pred_split (2 ^ lg) (gate_at L) W [0;1]%Z (mle ru V) (mle rv V) (eqw ru) (eqw rv)).
  - rewrite !lsum_cons, lsum_nil. ring.
  - repeat constructor; cbn [In]; intuition discriminate.
  - intros g Hg. destruct (trad_type _ _ (TG g Hg)) as [E|[E|E]]; rewrite ?E; cbn [In]; auto.
    right. unfold wires. rewrite E. reflexivity.
Qed.
End GateSums.

(** The first round ignores the challenge it is given. *)
Lemma cmt_update_0 : forall sel other t x y, cmt_update sel other t x 0 = cmt_update sel other t y 0.
Proof. intros. unfold cmt_update. cbv iota. reflexivity. Qed.

(** ** Circuits *)
Definition block (C : blocked_circuit) (B : nat) : layered_circuit := nth B (blocks C) (Circuit [] 0).
(** Circuits the block protocol is complete for: [2^k] blocks, [k > 0], that differ
    at most in their input gates; gates of types 0, 1, 2 above the input layer with
    both wires in range (also for type 2); at least two values in every layer but
    the last. *)
Record bc_circuit (C : blocked_circuit) : Prop := {
  bcc_length : length (blocks C) = total_blocks C;
  bcc_count : 2 ^ total_blocks_binary_length C <= total_blocks C;
  bcc_bits : 0 < total_blocks_binary_length C;
  bcc_pos : 0 < total_depth (block C 0);
  bcc_depth : forall B, B < total_blocks C -> total_depth (block C B) = total_depth (block C 0) /\
     length (circuit (block C B)) = total_depth (block C 0);
  bcc_same : forall B i, B < total_blocks C -> 0 < i < total_depth (block C 0) ->
     layer_at (block C B) i = layer_at (block C 0) i;
  bcc_input_bits : forall B, B < total_blocks C ->
     bit_length (layer_at (block C B) 0) = bit_length (layer_at (block C 0) 0);
  bcc_gates : forall B i, B < total_blocks C -> i < total_depth (block C 0) ->
     2 ^ bit_length (layer_at (block C B) i) <= length (gates (layer_at (block C B) i));
  bcc_input : forall B g, B < total_blocks C -> g < 2 ^ bit_length (layer_at (block C 0) 0) ->
     g_ty (gate_at (layer_at (block C B) 0) g) = 3%Z \/ g_ty (gate_at (layer_at (block C B) 0) g) = 2%Z;
  bcc_two : forall i, S i < total_depth (block C 0) -> 0 < bit_length (layer_at (block C 0) i);
  bcc_wires : forall i g, 0 < i < total_depth (block C 0) -> g < 2 ^ bit_length (layer_at (block C 0) i) ->
     bc_gate (2 ^ bit_length (layer_at (block C 0) (i - 1))) (gate_at (layer_at (block C 0) i) g) }.
Section Facts.
Variable C : blocked_circuit.
Hypothesis CC : bc_circuit C.
Let C0 := block C 0.
Let d := total_depth C0.
Let k := total_blocks_binary_length C.
Lemma block_rd : forall B, B < total_blocks C -> nth_error (blocks C) B = Some (block C B).
Proof. intros B H. unfold block. apply nth_error_nth'. rewrite (bcc_length C CC). exact H. Qed.
Lemma some_block : 0 < total_blocks C.
Proof. eapply Nat.lt_le_trans; [apply pow2_pos|apply (bcc_count C CC)]. Qed.
Lemma block_bits : forall B i, B < total_blocks C -> i < d ->
  bit_length (layer_at (block C B) i) = bit_length (layer_at C0 i).
Proof.
  intros B i HB Hi. destruct i as [|i]; [apply (bcc_input_bits C CC), HB|].
  rewrite (bcc_same C CC B (S i) HB) by (fold C0 d; lia). reflexivity.
Qed.
Lemma block_wf : forall B i, B < total_blocks C -> i < d -> nth_error (circuit (block C B)) i = Some (layer_at (block C B) i).
Proof. intros B i HB Hi. apply layer_rd. rewrite (proj2 (bcc_depth C CC B HB)). exact Hi. Qed.
Lemma block_vals : forall B i, B < total_blocks C -> 0 < i < d ->
  vals (block C B) i = fun g => gate_spec (vals (block C B) (i - 1)) (gate_at (layer_at C0 i) g).
Proof.
  intros B i HB Hi. replace i with (S (i - 1)) at 1 by lia.
  rewrite vals_S by (rewrite (proj2 (bcc_depth C CC B HB)); fold C0 d; lia).
  replace (S (i - 1)) with i by lia. rewrite (bcc_same C CC B i HB) by (fold C0 d; lia). reflexivity.
Qed.
Lemma block_vals_0 : forall B, B < total_blocks C -> vals (block C B) 0 = input_spec (layer_at (block C B) 0).
Proof.
  intros B HB. apply vals_0. intro E. pose proof (proj2 (bcc_depth C CC B HB)) as H. pose proof (bcc_pos C CC).
  rewrite E in H. simpl in H. lia.
Qed.

(** Evaluation. *)
Lemma block_rows_ok : forall B, B < total_blocks C -> returns (block_rows (block C B) d) (rows_ok (block C B) d).
Proof.
  intros B HB. pose proof (bcc_pos C CC) as Dp. fold C0 d in Dp. destruct (bcc_depth C CC B HB) as [Dt Dl]. fold C0 d in Dt, Dl.
  unfold block_rows. eapply rb_nth; [apply block_wf; assumption|].
  destruct (Nat.eqb_spec d 0); [lia|].
  eapply returns_bind.
  { apply input_values_ok; [apply (bcc_gates C CC); [exact HB|fold C0 d; lia]|].
    intros g Hg. apply (bcc_input C CC); [exact HB|]. rewrite <- (bcc_input_bits C CC B HB). exact Hg. }
  intros row0 T0. cbv beta in T0. rewrite Dt.
  eapply returns_conseq.
  - apply (returns_for _ (d - 1) 1 _ (fun i cv => rows_ok (block C B) i cv)).
    + split; [reflexivity|]. intros i Hi'. assert (i = 0) as -> by lia. exists row0. split; [reflexivity|].
      rewrite block_vals_0 by exact HB. exact T0.
    + intros i cv Hi' [L R]. eapply rb_nth; [apply block_wf; [exact HB|lia]|].
      destruct (Nat.leb_spec d i); [lia|].
      destruct (R (i - 1) ltac:(lia)) as (prev & En & Tp).
      eapply rb_nth; [exact En|].
      eapply returns_bind.
      { eapply trad_layer_values_ok; [apply (bcc_gates C CC); [exact HB|fold C0 d; lia]|exact Tp|].
        intros g Hg. rewrite (block_bits B (i - 1)) by (assumption || lia).
        rewrite (bcc_same C CC B i HB) in * by (fold C0 d; lia). apply bc_trad, (bcc_wires C CC); [fold C0 d; lia|exact Hg]. }
      intros row Tr. cbv beta in Tr. apply returns_ok. split; [rewrite app_length; simpl; lia|].
      intros j Hj. destruct (Nat.eq_dec j i) as [->|Nj].
      * exists row. rewrite nth_error_app2 by lia. rewrite L, Nat.sub_diag. split; [reflexivity|].
        rewrite (block_vals B i) by (assumption || lia).
        rewrite (bcc_same C CC B i HB) in * by (fold C0 d; lia). exact Tr.
      * rewrite nth_error_app1 by lia. apply R. lia.
  - replace (1 + (d - 1)) with d by lia. auto.
Qed.
Definition all_rows (cv : list (list (list fe))) : Prop :=
  forall B, B < total_blocks C -> exists rows, nth_error cv B = Some rows /\ rows_ok (block C B) d rows.
Lemma bc_evaluate_ok : forall p, b_C p = C ->
  returns (bc_evaluate p) (fun x => exists cv, snd x = b_set_values p cv /\ all_rows cv /\
    let bl := bit_length (layer_at C0 (d - 1)) in
    vtab (total_blocks C * 2 ^ bl) (fst x) (total_blocks C) bl (fun B => vals (block C B) (d - 1))).
Proof.
  intros p EC. unfold bc_evaluate. rewrite EC. pose proof some_block as HS.
  pose proof (bcc_pos C CC) as Dp. fold C0 d in Dp.
  eapply rb_nth; [apply block_rd, HS|]. fold C0 d.
  eapply returns_bind.
  - apply (returns_for _ (total_blocks C) 0 _ (fun n cv => length cv = n /\ forall B, B < n ->
      exists rows, nth_error cv B = Some rows /\ rows_ok (block C B) d rows)).
    + split; [reflexivity|]. intros; lia.
    + intros B cv HB [Lc H]. simpl in HB. eapply rb_nth; [apply block_rd; lia|].
      eapply returns_bind; [apply block_rows_ok; lia|]. intros rows HR. apply returns_ok.
      split; [rewrite app_length; simpl; lia|]. intros B' HB'. destruct (Nat.eq_dec B' B) as [->|N].
      * exists rows. rewrite nth_error_app2 by lia. rewrite Lc, Nat.sub_diag. split; [reflexivity|exact HR].
      * rewrite nth_error_app1 by lia. apply H. lia.
  - intros cv [Lc HR]. simpl (0 + total_blocks C) in Lc, HR.
    eapply rb_nth; [apply block_wf; [exact HS|lia]|]. fold C0. set (bl := bit_length (layer_at C0 (d - 1))).
    set (bs := 2 ^ bl). assert (Hbs : 0 < bs) by apply pow2_pos. set (N := total_blocks C * bs).
    set (f := fun z => vals (block C (z / bs)) (d - 1) (z mod bs)).
    eapply returns_bind.
    + apply (returns_for _ (total_blocks C) 0 _ (fun B res => tab N res (B * bs) f)).
      * pose proof (tab_nil (repeat fe_zero N) f) as K. rewrite repeat_length in K. exact K.
      * intros B res HB T. simpl in HB. eapply returns_conseq.
        -- apply (returns_for _ bs 0 _ (fun j res => tab N res (B * bs + j) f)).
           ++ rewrite Nat.add_0_r. exact T.
           ++ intros j res' Hj T'. simpl in Hj. destruct (HR B ltac:(lia)) as (rows & Er & [RL RR]).
              eapply rb_nth; [exact Er|]. destruct (RR (d - 1) ltac:(lia)) as (row & Erow & Trow).
              eapply rb_nth; [exact Erow|]. rewrite (block_bits B (d - 1)) in Trow by lia. fold bl bs in Trow.
              eapply rb_tab; [exact Trow|lia|]. intros x Rx.
              pose proof (tab_len _ _ _ _ T') as LT.
              assert (HI : B * bs + j < N) by (apply pair_lt; lia).
              apply returns_wr; [lia|]. rewrite Nat.add_succ_r. apply tab_push; [exact T'|exact HI|].
              unfold f. rewrite pair_div, pair_mod by lia. exact Rx.
        -- cbv beta. intros res' T'. simpl (0 + bs) in T'. replace (S B * bs) with (B * bs + bs) by (simpl; lia). exact T'.
    + intros res T. cbv beta in T. simpl (0 + total_blocks C) in T. apply returns_ok. exists cv. cbn [fst snd].
      split; [reflexivity|]. split; [exact HR|]. exact T.
Qed.
End Facts.

(** ** The state of the prover *)
Record tlens (m : nat) (t : tprover) : Prop := {
  tl_V : length (t_V t) = 2 ^ m; tl_A : length (t_add t) = 2 ^ m; tl_M : length (t_mult t) = 2 ^ m;
  tl_g : length (t_gsum t) = 2 ^ m;
  tl_g0f : length (t_g0f t) = 2 ^ (m / 2 + 1); tl_g0s : length (t_g0s t) = 2 ^ (m / 2 + 1);
  tl_g1f : length (t_g1f t) = 2 ^ (m / 2 + 1); tl_g1s : length (t_g1s t) = 2 ^ (m / 2 + 1) }.
Record binv (C : blocked_circuit) (m : nat) (p : bprover) : Prop := {
  bn_C : b_C p = C; bn_C0 : t_C (b_t p) = block C 0;
  bn_rows : all_rows C (b_values p);
  bn_t : tlens m (b_t p);
  bn_beta : length (b_beta p) = 2 ^ total_blocks_binary_length C;
  bn_V : length (b_V p) = 2 ^ (total_blocks_binary_length C + m);
  bn_copy : length (b_copy p) = 2 ^ m }.
Lemma init_binv : forall C m cv, all_rows C cv -> binv C m (b_set_values (init_bprover C (block C 0) m) cv).
Proof.
  intros C m cv H. constructor; cbn [b_set_values init_bprover b_C b_t b_values b_beta b_V b_copy];
    rewrite ?repeat_length; try reflexivity; [exact H|].
  constructor; cbn [init_tprover t_V t_add t_mult t_gsum t_g0f t_g0s t_g1f t_g1s]; rewrite ?repeat_length, ?shr1_div2; reflexivity.
Qed.
Lemma b_set_t_id : forall p, p = b_set_t p (b_t p).
Proof. destruct p; reflexivity. Qed.
Record bparams (C : blocked_circuit) (p : bprover) (i lg b : nat) (a be : F) (Rb R0 R1 : list F) : Prop := {
  bp_layer : t_layer (b_t p) = i; bp_u : t_length_u (b_t p) = b;
  bp_t : tparams (b_t p) lg a be R0 R1;
  bp_k : b_bits p = total_blocks_binary_length C;
  bp_rb : reps (b_r_b p) Rb; bp_ob : reps (b_o_b p) (comp Rb);
  bp_lb : length Rb = total_blocks_binary_length C }.

Section OneLayer.
Variables (C : blocked_circuit) (m i : nat).
Hypothesis CC : bc_circuit C.
Let C0 := block C 0.
Let d := total_depth C0.
Let k := total_blocks_binary_length C.
Hypothesis Hi : 0 < i < d.
Hypothesis Hm : forall j, j < d -> bit_length (layer_at C0 j) <= m.
Let L := layer_at C0 i.
Let Lm := layer_at C0 (i - 1).
Let lg := bit_length L.
Let b := bit_length Lm.
Let N := 2 ^ m.
Let Hh := 2 ^ (m / 2 + 1).
Let VB : nat -> nat -> F := fun B => vals (block C B) (i - 1).
Lemma o_Hb : b <= m. Proof. apply Hm; lia. Qed.
Lemma o_Hlg : lg <= m. Proof. apply Hm; lia. Qed.
Lemma o_Hb1 : 0 < b. Proof. apply (bcc_two C CC). fold C0 d. lia. Qed.
Lemma o_HG : 2 ^ lg <= length (gates L). Proof. apply (bcc_gates C CC); [apply (some_block C CC)|fold C0 d; lia]. Qed.
Lemma o_HN : 2 ^ b <= N. Proof. apply pow_mono, o_Hb. Qed.
Lemma o_HGN : 2 ^ lg <= N. Proof. apply pow_mono, o_Hlg. Qed.
Lemma o_BG : forall g, g < 2 ^ lg -> bc_gate (2 ^ b) (gate_at L g).
Proof. intros g Hg. apply (bcc_wires C CC); [fold C0 d; lia|exact Hg]. Qed.
Lemma o_TG : forall g, g < 2 ^ lg -> trad_gate (2 ^ b) (gate_at L g).
Proof. intros g Hg. apply bc_trad, o_BG, Hg. Qed.
Lemma o_blocks : 2 ^ k <= total_blocks C. Proof. apply (bcc_count C CC). Qed.
Lemma o_lay : nth_error (circuit C0) i = Some L.
Proof. apply (block_wf C CC 0 i (some_block C CC)). fold C0 d. lia. Qed.
Lemma o_laym : nth_error (circuit C0) (i - 1) = Some Lm.
Proof. apply (block_wf C CC 0 (i - 1) (some_block C CC)). fold C0 d. lia. Qed.

Section Weights.
Variables (a be : F) (Rb R0 R1 : list F).
Let W := gw a be R0 R1.

(** *** Phase 0 *)
Definition b_ready (p : bprover) : Prop := binv C m p /\ bparams C p i lg b a be Rb R0 R1.
(** The weights of the gates are in place. *)
Definition b_weights (p : bprover) : Prop := b_ready p /\ tab N (t_gsum (b_t p)) (2 ^ lg) W.
(** In phase 0, after the challenges [R]: the tables are folded by all but the last. *)
Definition during0 (p : bprover) (R : list F) : Prop := b_weights p /\
  tab (2 ^ k) (b_beta p) (2 ^ (k - length (removelast R))) (folds (removelast R) (eqw Rb)) /\
  vtab (2 ^ (k + m)) (b_V p) (2 ^ (k - length (removelast R))) b (foldsV (removelast R) VB).

Lemma phase0_init_ok : forall p, b_ready p -> returns (bc_phase0_init p) (fun p' => during0 p' []).
Proof.
  intros p [[EC EC0 Rows [lnV lnA lnM lnbg ln0f ln0s ln1f ln1s] lnB lnVV lnC] [Pl Pu PP Pk Prb Pob Plb]].
  pose proof PP as PP'. destruct PP as [Plg Pa Pb Pr0 Pr1 Po0 Po1 Pl0 Pl1].
  unfold bc_phase0_init. rewrite EC, Pk, Plg, Pu, Pl. fold k.
  apply rb_wr; [rewrite lnB; apply pow2_pos|].
  eapply returns_bind.
  { fold k in Plb. rewrite <- Plb.
    apply (block_table_ok (2 ^ k) _ _ _ Rb Prb Pob); [rewrite Plb; apply le_n|].
    apply eqtab_init; [fold k in lnB; exact lnB|apply pow2_pos|exact rep_i1]. }
  intros bv TB. cbv beta in TB. 
  pose proof (pow_mono _ _ o_Hlg) as HlN.
  assert (Hpos : 0 < Hh) by apply pow2_pos.
  assert (H1 : 2 ^ (lg / 2) <= Hh).
  { apply pow_mono. pose proof (Nat.div_le_mono lg m 2 ltac:(lia) o_Hlg). lia. }
  assert (H2 : 2 ^ (lg - lg / 2) <= Hh) by (apply pow_mono, half_bound, o_Hlg).
  apply rb_wr; [fold Hh in ln0f; lia|]. apply rb_wr; [fold Hh in ln1f; lia|].
  apply rb_wr; [fold Hh in ln0s; lia|]. apply rb_wr; [fold Hh in ln1s; lia|].
  rewrite shr1_div2. pose proof (half_le lg) as HL.
  eapply returns_bind.
  { eapply (half_tables2_gen Hh _ _ _ _ _ _ R0 R1 0 (lg / 2) a be lg Pr0 Po0 Pr1 Po1 Pl0 Pl1 ltac:(lia) H1).
    - apply eqtab_init; [exact ln0f|exact Hpos|exact Pa].
    - apply eqtab_init; [exact ln1f|exact Hpos|exact Pb]. }
  intros [g0f g1f] [T0f T1f]. cbn [fst snd] in T0f, T1f.
  eapply returns_bind.
  { eapply (half_tables2_gen Hh _ _ _ _ _ _ R0 R1 (lg / 2) (lg - lg / 2) 1%F 1%F lg Pr0 Po0 Pr1 Po1 Pl0 Pl1 ltac:(lia) H2).
    - apply eqtab_init; [exact ln0s|exact Hpos|exact rep_i1].
    - apply eqtab_init; [exact ln1s|exact Hpos|exact rep_i1]. }
  intros [g0s g1s] [T0s T1s]. cbn [fst snd] in T0s, T1s.
  set (pf := set_g_tables (init_prover C0 0) g0f g0s g1f g1s []).
  assert (GT : gtabs pf Hh lg a be R0 R1) by exact (conj T0f (conj T0s (conj T1f T1s))).
  pose proof (fun k => gtabs_weight _ Hh lg a be R0 R1 k Pl0 Pl1 GT) as HW.
  cbn [pf set_g_tables p_g0f p_g0s p_g1f p_g1s] in HW. rewrite shr1_div2 in HW.
  eapply returns_bind.
  { apply (returns_for _ (2 ^ lg) 0 _ (fun k gs => tab N gs k W)).
    - fold N in lnbg. rewrite <- lnbg. apply tab_nil.
    - intros j gs Hj T. simpl in Hj. eapply returns_bind; [apply HW; lia|]. intros x Rx.
      apply returns_wr; [rewrite (tab_len _ _ _ _ T); fold N in HlN; lia|]. apply tab_push; [exact T|fold N in HlN; lia|exact Rx]. }
  intros gs Tgs. cbv beta in Tgs. simpl (0 + 2 ^ lg) in Tgs.
  assert (Hkb : 2 ^ k * 2 ^ b <= 2 ^ (k + m)).
  { rewrite Nat.pow_add_r. apply Nat.mul_le_mono_l, o_HN. }
  pose proof (pow2_pos b) as Hb0.
  set (f := fun z => VB (z / 2 ^ b) (z mod 2 ^ b)).
  eapply (returns_bind _ _ _ _ (fun vv => tab (2 ^ (k + m)) vv (2 ^ k * 2 ^ b) f)).
  { apply (returns_for _ (2 ^ k) 0 _ (fun B vv => tab (2 ^ (k + m)) vv (B * 2 ^ b) f)).
    - fold k in lnVV. rewrite <- lnVV. apply tab_nil.
    - intros B vv HB T. simpl in HB. eapply returns_conseq.
      + apply (returns_for _ (2 ^ b) 0 _ (fun j vv => tab (2 ^ (k + m)) vv (B * 2 ^ b + j) f)).
        * rewrite Nat.add_0_r. exact T.
        * intros j vv' Hj T'. simpl in Hj. rewrite lor_shl by lia.
          destruct (Rows B ltac:(pose proof o_blocks; lia)) as (rows & Er & [RL RR]). eapply rb_nth; [exact Er|].
          destruct (RR (i - 1) ltac:(fold C0 d; lia)) as (row & Erow & Trow). eapply rb_nth; [exact Erow|].
          rewrite (block_bits C CC B (i - 1)) in Trow by (pose proof o_blocks; fold C0 d; lia). fold C0 Lm b in Trow.
          eapply rb_tab; [exact Trow|lia|]. intros x Rx.
          assert (HI : B * 2 ^ b + j < 2 ^ k * 2 ^ b) by (apply pair_lt; lia).
          pose proof (tab_len _ _ _ _ T') as LT. apply returns_wr; [lia|]. rewrite Nat.add_succ_r.
          apply tab_push; [exact T'|lia|]. unfold f. rewrite pair_div, pair_mod by lia. exact Rx.
      + cbv beta. intros vv' T'. simpl (0 + 2 ^ b) in T'. replace (S B * 2 ^ b) with (B * 2 ^ b + 2 ^ b) by (simpl; lia). exact T'. }
  intros vv TVV. apply returns_ok.
  pose proof (tab_len _ _ _ _ Tgs) as KG. pose proof (tab_len _ _ _ _ TB) as KB. pose proof (tab_len _ _ _ _ TVV) as KV.
  destruct T0f as [K0f _]. destruct T0s as [K0s _]. destruct T1f as [K1f _]. destruct T1s as [K1s _].
  split; [split; [split|]|].
  - constructor; try assumption; [].
    constructor; cbn [b_set_blocks b_set_t b_t t_set_gates t_set_tables t_V t_add t_mult t_gsum t_g0f t_g0s t_g1f t_g1s]; assumption.
  - constructor; try assumption. destruct PP'. constructor; assumption.
  - exact Tgs.
  - cbn [removelast length folds b_set_blocks b_set_t b_beta b_V]. rewrite Nat.sub_0_r.
    fold k in Plb. rewrite Plb in TB. split; [exact TB|exact TVV].
Qed.

(** The value at [t] of the message after the challenges [R]. *)
Definition msg0 (R : list F) (t : F) : F :=
  round0 (2 ^ lg) L W (k - S (length R)) (folds R (eqw Rb)) (foldsV R VB) t.
Definition run0 (R : list F) : F := bsum (2 ^ (k - length R)) (2 ^ lg) L W (folds R (eqw Rb)) (foldsV R VB).
Lemma msg0_sum : forall R, length R < k -> (msg0 R 0 + msg0 R 1)%F = run0 R.
Proof.
  intros R HR. unfold msg0, run0. rewrite (round0_01 (2 ^ lg) b L W o_BG).
  replace (S (k - S (length R))) with (k - length R) by lia. reflexivity.
Qed.
Lemma msg0_run : forall R x, length R < k -> run0 (R ++ [x]) = msg0 R x.
Proof.
  intros R x HR. unfold msg0, run0, round0. rewrite app_length. cbn [length].
  replace (length R + 1) with (S (length R)) by lia.
  apply (bsum_ext (2 ^ lg) b L W o_BG).
  - intros B _. rewrite folds_snoc. reflexivity.
  - intros B y _ _. apply foldsV_snoc.
Qed.
Lemma update0_rep : forall p R prev, length R < k -> during0 p R -> (R = [] \/ rep prev (last R 0%F)) ->
  returns (bc_phase0_update p prev (length R)) (fun res => (forall x, during0 (snd res) (R ++ [x])) /\
    exists c, crep (fst res) c /\ forall t, peval c t = msg0 R t).
Proof.
  intros p R prev HR (WT & TB & TV) Hp. pose proof WT as [RD TG]. pose proof RD as [PI BP].
  unfold bc_phase0_update. rewrite (bp_k _ _ _ _ _ _ _ _ _ _ BP). fold k.
  destruct (Nat.leb_spec k (length R)); [lia|].
  rewrite (bp_u _ _ _ _ _ _ _ _ _ _ BP), (bp_layer _ _ _ _ _ _ _ _ _ _ BP), (tp_lg _ _ _ _ _ _ (bp_t _ _ _ _ _ _ _ _ _ _ BP)).
  rewrite (bn_C _ _ _ PI).
  eapply (returns_bind _ _ _ _ (fun st => tab (2 ^ k) (fst st) (2 ^ (k - length R)) (folds R (eqw Rb)) /\
            vtab (2 ^ (k + m)) (snd st) (2 ^ (k - length R)) b (foldsV R VB))).
  { destruct (last_case R) as [->|(Q & x & ->)].
    - cbn [length removelast] in *. apply returns_ok. cbn [fst snd]. split; assumption.
    - destruct Hp as [Hp|Hp]; [destruct Q; discriminate Hp|]. rewrite last_last in Hp. rewrite removelast_snoc in TB, TV.
      rewrite app_length in *. cbn [length] in *. replace (length Q + 1) with (S (length Q)) in * by lia.
      replace (k - length Q) with (S (k - S (length Q))) in TB, TV by lia.
      eapply returns_conseq; [apply (fold_blocks_ok _ _ _ _ _ _ _ _ _ _ TB TV Hp)|].
      intros [bv vv]. cbn [fst snd]. intros [T1 T2]. rewrite folds_snoc. split; [exact T1|].
      eapply vtab_ext; [exact T2|]. intros. symmetry. apply foldsV_snoc. }
  intros [bv vv]. cbn [fst snd]. intros [T1 T2].
  set (n2 := k - length R - 1) in *. assert (E2 : 2 ^ (k - length R) = 2 * 2 ^ n2).
  { rewrite <- pow2_S. f_equal. unfold n2. lia. }
  eapply (returns_bind _ _ _ _ (fun q => exists c, crep q c /\ forall t, peval c t = msg0 R t)).
  { eapply returns_conseq.
    - apply (returns_for _ (2 ^ n2) 0 _ (fun n q => exists c, crep q c /\ forall t,
        peval c t = bsum n (2 ^ lg) L W (fold1 t (folds R (eqw Rb))) (foldV t (foldsV R VB)))).
      + exists [0;0;0;0]%F. split; [exact zero_cubic_ok|]. intro t. unfold bsum. cbn [sumn peval length Fpow]. ring.
      + intros B q HB (c & Cq & Hc). simpl in HB.
        assert (HBk : B < total_blocks C).
        { pose proof o_blocks. assert (2 ^ n2 <= 2 ^ k) by (apply pow_mono; unfold n2; lia). lia. }
        eapply rb_nth; [apply (block_rd C CC), HBk|].
        rewrite E2 in T1, T2.
        eapply returns_bind.
        { eapply (block_part_ok (2 ^ lg) b L W o_HG o_BG (2 ^ (k + m)) (2 ^ n2) vv _ T2 (2 ^ k) N bv _ _ T1 TG); [|reflexivity|lia].
          rewrite (block_wf C CC B i HBk) by (fold C0 d; lia). rewrite (bcc_same C CC B i HBk) by (fold C0 d; lia). reflexivity. }
        intros q' (e & Ce & He). apply returns_ok. eexists. split; [apply cubic_add_ok; eassumption|].
        intro t. rewrite peval_zipadd by (rewrite (crep_len _ _ Cq), (crep_len _ _ Ce); reflexivity).
        rewrite Hc, He. unfold bsum. cbn [sumn]. reflexivity.
    - cbv beta. simpl (0 + 2 ^ n2). intros q (c & Cq & Hc). exists c. split; [exact Cq|]. intro t. rewrite Hc.
      unfold msg0, round0. replace (k - S (length R)) with n2 by (unfold n2; lia). reflexivity. }
  intros q (c & Cq & Hc). apply returns_ok. cbn [fst snd]. split.
  - intro x. unfold during0. rewrite removelast_snoc. cbn [b_set_blocks b_beta b_V].
    split; [|split; [exact T1|exact T2]]. split; [split|exact TG].
    + destruct PI. constructor; try assumption; cbn [b_set_blocks b_beta b_V].
      * exact (tab_len _ _ _ _ T1).
      * exact (tab_len _ _ _ _ T2).
    + destruct BP. constructor; assumption.
  - exists c. split; assumption.
Qed.
Lemma update0_ok : forall p R prev, length R < k -> during0 p R -> (R = [] \/ rep prev (last R 0%F)) ->
  returns (bc_phase0_update p prev (length R)) (fun res => (forall x, during0 (snd res) (R ++ [x])) /\
    forall x t, rep x t -> rep (cubic_eval (fst res) x) (msg0 R t)).
Proof.
  intros p R prev HR D Hp. eapply returns_conseq; [apply (update0_rep p R prev HR D Hp)|].
  intros [q p'] [H (c & Cc & Hc)]. split; [exact H|]. intros x t Rx. cbn [fst].
  eapply rep_eq; [apply (cubic_eval_ok _ _ _ _ Cc Rx)|]. apply Hc.
Qed.
Lemma rounds0_ok : forall p r_b rb sum, length rb = k -> reps r_b rb -> during0 p [] ->
  rep sum (bsum (2 ^ k) (2 ^ lg) L W (eqw Rb) VB) ->
  returns (bc_rounds0 bc_phase0_update k r_b sum p) (fun st => let '(prev, sum, p') := st in
    rep prev (last rb 0%F) /\ rep sum (mle rb (eqw Rb) * gsumF (2 ^ lg) L W (fun x => mle rb (fun B => VB B x)))%F /\ during0 p' rb).
Proof.
  intros p r_b rb sum Lr Hr D0 Hs. unfold bc_rounds0.
  eapply returns_conseq.
  { apply (drive cubic_eval bc_phase0_update k during0 msg0 run0 update0_ok msg0_sum msg0_run r_b rb _ sum p Lr Hr D0).
    unfold run0. cbn [length folds]. rewrite Nat.sub_0_r. exact Hs. }
  intros [[prev sm] p'] (Hp & Hs' & D'). split; [apply Hp; apply (bcc_bits C CC)|]. split; [|exact D'].
  eapply rep_eq; [exact Hs'|]. unfold run0. rewrite Lr, Nat.sub_diag. unfold bsum. cbn [Nat.pow sumn].
  rewrite mle_folds. rewrite (gsumF_ext (2 ^ lg) b L W o_BG (foldsV rb VB 0) (fun x => mle rb (fun B => VB B x))).
  - ring.
  - intros x _. unfold foldsV. rewrite mle_folds. reflexivity.
Qed.

(** *** Phases 1 and 2 *)
Section Point.
Variable rb : list F.
Hypothesis Lrb : length rb = k.
(** The values of the previous layer and the equality factor at the block point. *)
Let V : nat -> F := fun x => mle rb (fun B => VB B x).
Let bb : F := mle rb (eqw Rb).
(** The parts of the state the two phases use. *)
Definition b_point (p : bprover) : Prop := b_ready p /\ t_total_uv (b_t p) = 2 ^ b /\
  tab N (b_copy p) (2 ^ b) V /\ rep (b_blk p) bb.
Lemma phase1_init_ok : forall p prev, during0 p rb -> rep prev (last rb 0%F) ->
  returns (bc_phase1_init p prev) (fun p' => b_point p' /\ before N lg b L V W (wu L) (b_t p') []).
Proof.
  intros p prev ([[PI BP] TG] & TB & TV) Rp. pose proof (bcc_bits C CC) as Hk. fold k in Hk.
  destruct (last_case rb) as [E|(Q & x & E)]; [rewrite E in Lrb; simpl in Lrb; lia|].
  rewrite E, removelast_snoc in TB, TV. rewrite E, last_last in Rp.
  assert (LQ : k - length Q = 1) by (rewrite <- Lrb, E, app_length; simpl; lia). rewrite LQ in TB, TV.
  change (2 ^ 1) with 2 in TB, TV.
  assert (EV : forall u, u < 2 ^ b -> V u = (foldsV Q VB 0 u * (1 - x) + foldsV Q VB 1 u * x)%F).
  { intros u _. unfold V. rewrite mle_folds, E, folds_snoc. unfold fold1, foldsV. cbn [Nat.mul Nat.add]. reflexivity. }
  assert (EB : bb = (folds Q (eqw Rb) 0%nat * (1 - x) + folds Q (eqw Rb) 1%nat * x)%F).
  { unfold bb. rewrite mle_folds, E, folds_snoc. unfold fold1. cbn [Nat.mul Nat.add]. reflexivity. }
  unfold bc_phase1_init. rewrite (bp_u _ _ _ _ _ _ _ _ _ _ BP). pose proof o_HN as HN.
  pose proof PI as [EC EC0 Rows [lnV lnA lnM lnbg ln0f ln0s ln1f ln1s] lnB lnVV lnC].
  eapply (returns_bind _ _ _ _ (fun st => tab N (fst st) (2 ^ b) V /\ tab N (snd st) (2 ^ b) V)).
  { apply (returns_for _ (2 ^ b) 0 _ (fun u st => tab N (fst st) u V /\ tab N (snd st) u V)).
    - cbn [fst snd]. fold N in lnV, lnC. split; [rewrite <- lnV|rewrite <- lnC]; apply tab_nil.
    - intros u [l1 l2] Hu [T1 T2]. cbn [fst snd] in *. simpl in Hu.
      replace (Nat.lor (2 ^ b) u) with (1 * 2 ^ b + u) by (rewrite <- (lor_shl b 1 u) by lia; rewrite Nat.shiftl_1_l; reflexivity).
      eapply rb_vtab; [exact TV|lia|lia|]. intros o Ro.
      change u with (0 * 2 ^ b + u) at 1. eapply rb_vtab; [exact TV|lia|lia|]. intros z Rz.
      assert (Rx : rep (interp z o prev) (V u)) by (rewrite EV by lia; apply interp_ok; assumption).
      pose proof (tab_len _ _ _ _ T1) as L1. pose proof (tab_len _ _ _ _ T2) as L2.
      apply rb_wr; [lia|]. assert (T1' : tab N (upd l1 u (interp z o prev)) (S u) V) by (apply tab_push; [exact T1|lia|exact Rx]).
      eapply rb_tab; [exact T1'|lia|]. intros y Ry. apply rb_wr; [lia|]. apply returns_ok. cbn [fst snd].
      split; [exact T1'|]. apply tab_push; [exact T2|lia|exact Ry]. }
  intros [l1 l2]. cbn [fst snd]. intros [T1 T2].
  eapply rb_tab; [exact TB|lia|]. intros o Ro. eapply rb_tab; [exact TB|lia|]. intros z Rz. apply returns_ok. split; [split; [split|]|].
  - constructor; try assumption; cbn [b_set_copy b_set_t b_copy b_t].
    + constructor; try assumption. exact (tab_len _ _ _ _ T1).
    + exact (tab_len _ _ _ _ T2).
  - destruct BP as [? ? PP ? ? ? ?]. constructor; try assumption. destruct PP. constructor; assumption.
  - cbn [b_set_copy b_set_t b_copy b_t b_blk t_set_V t_set_tables t_total_uv]. split; [reflexivity|]. split; [exact T2|].
    rewrite EB. apply interp_ok; assumption.
  - unfold before. cbn [removelast length folds b_set_copy b_set_t b_t t_set_V t_set_tables t_V t_gsum]. rewrite Nat.sub_0_r.
    split; [exact T1|]. split; [exact (tab_len _ _ _ _ TG)|]. intros g Hg. destruct (proj2 (proj2 TG) g Hg) as (y & Ey & Ry).
    exists y, (W g). split; [exact Ey|]. split; [exact Ry|]. intros _. unfold eqw. cbn [point map eqg]. ring.
Qed.

(** Rounds of phase 1 or 2. *)
Lemma same_point : forall p t, b_point p -> same N (b_t p) t -> length (t_V t) = N -> length (t_gsum t) = N -> b_point (b_set_t p t).
Proof.
  intros p t ([PI BP] & Euv & TC & Rb') (A & M & lV & gs & -> & LA & LM) LV LG.
  cbn [t_set_round t_V t_gsum] in LV, LG. split; [split|].
  - destruct PI as [? ? ? [] ? ? ?]. constructor; try assumption. constructor; assumption.
  - destruct BP as [? ? PP ? ? ? ?]. constructor; try assumption. destruct PP. constructor; assumption.
  - split; [exact Euv|]. split; assumption.
Qed.
Section Rounds.
Variables (sel : gate -> Z) (K : nat -> nat) (W' X : nat -> F) (other : gate -> outcome fe) (p1 : bprover).
Variable update : bprover -> fe -> nat -> outcome (quadratic_poly * bprover).
Hypothesis HK : forall g, g < 2 ^ lg -> livegate L g -> sel (gate_at L g) = Z.of_nat (K g) /\ K g < 2 ^ b.
Hypothesis Hother : forall g, g < 2 ^ lg -> livegate L g -> returns (other (gate_at L g)) (fun x => rep x (X g)).
Hypothesis HP : b_point p1.
Hypothesis Hup : forall t x j, same N (b_t p1) t -> update (b_set_t p1 t) x j =
  ( ' (q, t') <- cmt_update sel other t x j ;; Ok (scale_quad (b_blk p1) q, b_set_t p1 t')).
Let M := scat (2 ^ lg) (rM L W' K X).
Let A := scat (2 ^ lg) (rA L W' K X).
Definition duringR (p : bprover) (R : list F) : Prop :=
  exists t, p = b_set_t p1 t /\ same N (b_t p1) t /\ before N lg b L V W' K t R.
Definition msgR (R : list F) (t : F) : F := (bb * round (b - S (length R)) (folds R V) (folds R M) (folds R A) t)%F.
Definition runR (R : list F) : F := (bb * psum (b - length R) (folds R V) (folds R M) (folds R A))%F.
Lemma updateR_rep : forall p R prev, length R < b -> duringR p R -> (R = [] \/ rep prev (last R 0%F)) ->
  returns (update p prev (length R)) (fun res => (forall x, duringR (snd res) (R ++ [x])) /\
    exists c, qrep (fst res) c /\ forall t, peval c t = msgR R t).
Proof.
  intros p R prev HR (t & -> & HS & HB) Hp. rewrite (Hup t _ _ HS).
  destruct HP as ([PI BP] & Euv & TC & Rbb).
  assert (Ex : exists prev', cmt_update sel other t prev (length R) = cmt_update sel other t prev' (length R) /\ rep prev' (last R 0%F)).
  { destruct R as [|x R]; [|destruct Hp as [Hp|Hp]; [discriminate Hp|exists prev; auto]].
    exists (fe_of_int 0). split; [apply (cmt_update_0 sel other t prev (fe_of_int 0))|exact rep_i0]. }
  destruct Ex as (prev' & -> & Hp').
  eapply returns_bind.
  { apply (update_ok N lg b L V W' sel K X o_HG o_HN o_HGN (g_types lg b L o_TG) HK other Hother (b_t p1)) with (R := R);
      try assumption.
    - rewrite (bn_C0 _ _ _ PI), (bp_layer _ _ _ _ _ _ _ _ _ _ BP). exact o_lay.
    - apply (tp_lg _ _ _ _ _ _ (bp_t _ _ _ _ _ _ _ _ _ _ BP)).
    - intros; reflexivity. }
  intros [q t'] (HS' & HB' & c & Qc & Hc). apply returns_ok. cbn [fst snd]. split.
  - intro x. exists t'. split; [reflexivity|]. split; [exact HS'|apply HB'].
  - destruct (scale_quad_ok _ _ _ _ Qc Rbb) as (e & Qe & He). exists e. split; [exact Qe|].
    intro y. rewrite He, Hc. reflexivity.
Qed.
Lemma updateR_ok : forall p R prev, length R < b -> duringR p R -> (R = [] \/ rep prev (last R 0%F)) ->
  returns (update p prev (length R)) (fun res => (forall x, duringR (snd res) (R ++ [x])) /\
    forall x t, rep x t -> rep (quadratic_eval (fst res) x) (msgR R t)).
Proof.
  intros p R prev HR D Hp. eapply returns_conseq; [apply (updateR_rep p R prev HR D Hp)|].
  intros [q p'] [H (c & Cc & Hc)]. split; [exact H|]. intros x t Rx. cbn [fst].
  eapply rep_eq; [apply (quadratic_eval_ok _ _ _ _ Cc Rx)|]. apply Hc.
Qed.
Lemma msgR_sum : forall R, length R < b -> (msgR R 0 + msgR R 1)%F = runR R.
Proof.
  intros R HR. unfold msgR, runR. replace (b - length R) with (S (b - S (length R))) by lia. rewrite <- round_01. ring.
Qed.
Lemma msgR_run : forall R x, length R < b -> runR (R ++ [x]) = msgR R x.
Proof.
  intros R x HR. unfold msgR, runR, round. rewrite app_length. cbn [length].
  replace (length R + 1) with (S (length R)) by lia. rewrite !folds_snoc. reflexivity.
Qed.
Lemma duringR_0 : before N lg b L V W' K (b_t p1) [] -> duringR p1 [].
Proof.
  intro HB. exists (b_t p1). destruct HP as ([PI _] & _). destruct (bn_t _ _ _ PI).
  split; [apply b_set_t_id|]. split; [apply same_refl; assumption|exact HB].
Qed.
Lemma duringR_point : forall p R, duringR p R -> b_point p /\ before N lg b L V W' K (b_t p) R /\ same N (b_t p1) (b_t p).
Proof.
  intros p R (t & -> & HS & HB). split; [|split; [exact HB|exact HS]]. destruct HB as [TV [LG HB]].
  apply same_point; [exact HP|exact HS|exact (tab_len _ _ _ _ TV)|exact LG].
Qed.
Lemma roundsR_ok : forall r_u R prev sum, length R = b -> reps r_u R -> before N lg b L V W' K (b_t p1) [] ->
  rep sum (bb * psum b V M A)%F ->
  returns (bc_rounds update b r_u prev sum p1) (fun st => let '(prev', sum, p') := st in
    rep prev' (last R 0%F) /\ rep sum (bb * (mle R V * mle R M + mle R A))%F /\ duringR p' R).
Proof.
  intros r_u R prev sum LR Hr HB Hs. unfold bc_rounds. eapply returns_conseq.
  { apply (drive quadratic_eval update b duringR msgR runR updateR_ok msgR_sum msgR_run r_u R prev sum p1 LR Hr (duringR_0 HB)).
    unfold runR. cbn [length folds]. rewrite Nat.sub_0_r. exact Hs. }
  intros [[prev' sm] p'] (Hp & Hs' & D'). split; [apply Hp, o_Hb1|]. split; [|exact D'].
  eapply rep_eq; [exact Hs'|]. unfold runR. rewrite LR, Nat.sub_diag, psum_0, <- !mle_folds. reflexivity.
Qed.
End Rounds.

Definition b_between (p : bprover) (prev : fe) (ru : list F) : Prop :=
  b_point p /\ before N lg b L V W (wu L) (b_t p) ru /\ rep prev (last ru 0%F).
Lemma upd1_shape : forall p t x j, bc_phase1_update (b_set_t p t) x j =
  ( ' (q, t') <- cmt_update g_u (fun gt => iv <- idx (g_v gt) ;; rd (b_copy p) iv) t x j ;; Ok (scale_quad (b_blk p) q, b_set_t p t')).
Proof. reflexivity. Qed.
Lemma upd2_shape : forall p t x j, same N (b_t p) t -> bc_phase2_update (b_set_t p t) x j =
  ( ' (q, t') <- cmt_update g_v (fun _ => Ok (t_v_u (b_t p))) t x j ;; Ok (scale_quad (b_blk p) q, b_set_t p t')).
Proof. intros p t x j (A & M & lV & gs & -> & _ & _). reflexivity. Qed.
Lemma other1 : forall p g, b_point p -> g < 2 ^ lg -> livegate L g ->
  returns (iv <- idx (g_v (gate_at L g)) ;; rd (b_copy p) iv) (fun x => rep x (V (wv L g))).
Proof.
  intros p g (_ & _ & TC & _) Hg Hl. destruct (g_live lg b L o_TG g Hg Hl) as [_ [E Hlt]]. rewrite E. apply rb_idx; [lia|].
  rewrite Nat2Z.id. destruct (proj2 (proj2 TC) _ Hlt) as (x & Ex & Rx). exists x. unfold rd. rewrite Ex. auto.
Qed.
Lemma live1 : forall g, g < 2 ^ lg -> livegate L g -> g_u (gate_at L g) = Z.of_nat (wu L g) /\ wu L g < 2 ^ b.
Proof. intros g Hg Hl. apply (g_live lg b L o_TG g Hg Hl). Qed.
Lemma live2 : forall g, g < 2 ^ lg -> livegate L g -> g_v (gate_at L g) = Z.of_nat (wv L g) /\ wv L g < 2 ^ b.
Proof. intros g Hg Hl. apply (g_live lg b L o_TG g Hg Hl). Qed.
Lemma phase2_init_ok : forall p prev ru, length ru = b -> b_between p prev ru ->
  returns (bc_phase2_init p prev) (fun p' => b_point p' /\ rep (t_v_u (b_t p')) (mle ru V) /\
    before N lg b L V (fun g => W g * eqw ru (wu L g))%F (wv L) (b_t p') []).
Proof.
  intros p prev ru Lru (PT & HB & Rp). pose proof PT as ([PI BP] & Euv & TC & Rbb).
  unfold bc_phase2_init. rewrite (bn_C0 _ _ _ PI), (bp_layer _ _ _ _ _ _ _ _ _ _ BP), Euv.
  rewrite (tp_lg _ _ _ _ _ _ (bp_t _ _ _ _ _ _ _ _ _ _ BP)).
  eapply returns_bind; [apply (last_value_ok N lg b L V W (wu L) (b_t p) ru prev Lru o_Hb1 HB Rp)|].
  intros v_u Rvu. cbv beta in Rvu.
  eapply returns_bind; [eapply (load_V_ok N); [exact TC|apply (tl_V _ _ (bn_t _ _ _ PI))|exact o_HN]|].
  intros lV TV. cbv beta in TV.
  eapply rb_nth; [exact o_laym|]. eapply rb_nth; [exact o_lay|]. fold b.
  destruct (last_case ru) as [E|(Q & x & E)]; [rewrite E in Lru; simpl in Lru; pose proof o_Hb1; lia|].
  destruct HB as [_ BG]. rewrite E, removelast_snoc in BG. rewrite E, last_last in Rp.
  assert (Eb : b = S (length Q)) by (rewrite <- Lru, E, app_length; simpl; lia).
  eapply (returns_bind _ _ _ _ (fun gs => gtab N lg L W (wu L) gs (fun _ => ru))).
  { rewrite Eb, E. apply (scale_gates_ok N lg (S (length Q)) L W g_u (wu L)); try assumption.
    - exact o_HG.
    - rewrite <- Eb. exact o_HN.
    - exact o_HGN.
    - intros g Hg Hl. rewrite <- Eb. apply live1; assumption. }
  intros gs [LG Gs]. apply returns_ok. split; [|split].
  - split; [split|].
    + destruct PI as [? ? ? [] ? ? ?]. constructor; try assumption. constructor; try assumption. exact (tab_len _ _ _ _ TV).
    + destruct BP as [? ? PP ? ? ? ?]. constructor; try assumption. destruct PP. constructor; assumption.
    + split; [exact Euv|]. split; assumption.
  - exact Rvu.
  - unfold before. cbn [removelast length folds b_set_t b_t t_set_round t_V t_gsum]. rewrite Nat.sub_0_r. split; [exact TV|].
    split; [exact LG|]. intros g Hg. destruct (Gs g Hg) as (y & c & Ey & Ry & Hc).
    exists y, c. split; [exact Ey|]. split; [exact Ry|]. intro Hl. rewrite (Hc Hl). cbv beta. change (eqw [] (wv L g)) with 1%F. ring.
Qed.
Lemma finalize_ok : forall p prev rv W' K, length rv = b -> b_point p -> before N lg b L V W' K (b_t p) rv -> rep prev (last rv 0%F) ->
  returns (bc_finalize p prev) (fun res => fst (fst res) = t_v_u (b_t p) /\ rep (snd (fst res)) (mle rv V) /\
    binv C m (snd res) /\ b_blk (snd res) = b_blk p).
Proof.
  intros p prev rv W' K Lr PT HB Rp. pose proof PT as ([PI BP] & _). unfold bc_finalize, trad_finalize.
  destruct (last_value_ok N lg b L V W' K (b_t p) rv prev Lr o_Hb1 HB Rp) as (x & Ex & Rx). rewrite Ex. cbn [bind].
  apply returns_ok. cbn [fst snd]. split; [reflexivity|]. split; [exact Rx|]. split; [|reflexivity].
  destruct PI as [? ? ? [] ? ? ?]. constructor; try assumption. constructor; assumption.
Qed.
End Point.
End Weights.
End OneLayer.
