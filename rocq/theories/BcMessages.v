(** * Messages of the block prover (C57) *)
From Coq Require Import ZArith List Bool Arith Lia Ring.
From Verif Require Import Limbs Field FieldProofs Fp Base MleSpec GkrMath Poly PolyProofs Circuit
  FastProver Lazy TablesProofs FastProverProofs PhaseProofs FastVerifier FastVerifierProofs
  SpecGkr RoundProofs TradProver TradVerifier TradProofs TradPhase TradVerifierProofs
  BcProver BcVerifier BcPhase0 BcPhase.
Import ListNotations.
Open Scope nat_scope.

(** Specification: the polynomial in the block coordinates [X] that phase 0 sums;
    [gt g] is gate [g] of [n] gates, [W g] its weight, [V B] the previous layer's
    values in block [B], and [Rb] the block point of the claim. *)
Definition block_poly (n : nat) (gt : nat -> gate) (W : nat -> F) (Rb : list F) (V : nat -> nat -> F) (X : list F) : F :=
  (eqpt Rb X * sumn n (fun g => W g * gate_spec (fun x => mle X (fun B => V B x)) (gt g)))%F.

(** A phase with given challenges. *)
Definition bc_phase0_run (p : bprover) (rs : list fe) : outcome (list cubic_poly * fe * bprover) :=
  p <- bc_phase0_init p ;; collect bc_phase0_update 0 (fe_of_int 0) rs p.
Definition bc_phase1_run (p : bprover) (prev : fe) (rs : list fe) : outcome (list quadratic_poly * fe * bprover) :=
  p <- bc_phase1_init p prev ;; collect bc_phase1_update 0 prev rs p.
Definition bc_phase2_run (p : bprover) (prev : fe) (rs : list fe) : outcome (list quadratic_poly * fe * bprover) :=
  p <- bc_phase2_init p prev ;; collect bc_phase2_update 0 (fe_of_int 0) rs p.

Lemma says_ext : forall P (eval : P -> fe -> fe) qs n f g, says eval qs n f -> (forall j t, j < n -> f j t = g j t) -> says eval qs n g.
Proof.
  intros P eval qs n f g [L H] E. split; [exact L|]. intros j Hj. destruct (H j Hj) as (q & Eq & Hq). exists q. split; [exact Eq|].
  intros x t Rx. rewrite <- E by exact Hj. apply Hq, Rx.
Qed.

Section OneLayer.
Variables (C : blocked_circuit) (m i : nat).
Hypothesis CC : bc_circuit C.
Let C0 := block C 0.
Let k := total_blocks_binary_length C.
Hypothesis Hi : 0 < i < total_depth C0.
Hypothesis Hm : forall j, j < total_depth C0 -> bit_length (layer_at C0 j) <= m.
Let L := layer_at C0 i.
Let lg := bit_length L.
Let b := bit_length (layer_at C0 (i - 1)).
Let VB : nat -> nat -> F := fun B => vals (block C B) (i - 1).
Variables (a be : F) (Rb R0 R1 : list F).
Let W := out_weight a be R0 R1.

Lemma phase0_messages : forall p rs rb, b_ready C m i a be Rb R0 R1 p -> reps rs rb -> length rb = k ->
  returns (bc_phase0_run p rs) (fun st => let '(qs, prev, p') := st in
    says cubic_eval qs k (fun j t => hyper (k - S j) (fun bs => block_poly (2 ^ lg) (gate_at L) W Rb VB (firstn j rb ++ t :: bs))) /\
    during0 C m i a be Rb R0 R1 p' rb /\ rep prev (last rb 0%F)).
Proof.
  intros p rs rb RD Hr Lr. unfold bc_phase0_run.
  eapply returns_bind; [apply (phase0_init_ok C m i CC Hi Hm a be Rb R0 R1 p RD)|]. intros p1 D1. cbv beta in D1.
  pose proof RD as [_ BP]. pose proof (bp_lb _ _ _ _ _ _ _ _ _ _ BP) as LRb. fold k in LRb.
  eapply returns_conseq.
  { apply (collect_ok cubic_eval bc_phase0_update k (during0 C m i a be Rb R0 R1) (msg0 C i a be Rb R0 R1)
      (update0_ok C m i CC Hi a be Rb R0 R1) rs rb p1 [] (fe_of_int 0) Hr); [exact Lr|exact D1|left; reflexivity]. }
  intros [[qs prev] p2]. cbn [app]. intros (Hq & Hp & D2). rewrite Lr in Hq. split; [|split; [exact D2|]].
  - eapply says_ext; [exact Hq|]. intros j t Hj. cbv beta.
    unfold msg0, round0, bsum, hyper. rewrite firstn_length. replace (Nat.min j (length rb)) with j by lia.
    apply sumn_ext. intros x Hx. fold k in Hx. unfold block_poly.
    assert (EX : forall f, fold1 t (folds (firstn j rb) f) x = mle (firstn j rb ++ t :: bitvec (k - S j) x) f).
    { intro f. rewrite <- folds_snoc, (folds_mle _ (k - S j)) by exact Hx. rewrite <- app_assoc. reflexivity. }
    rewrite EX, eqw_sym_mle by (rewrite LRb; symmetry; apply point_len; [exact Lr|exact Hj|apply bitvec_length]). f_equal. unfold gsumF. fold C0 L lg. apply sumn_ext. intros g Hg. f_equal.
    apply (gate_spec_bc_ext (2 ^ b)); [apply (o_BG C m i CC Hi), Hg|]. intros y _. unfold foldV, foldsV. apply EX.
  - destruct Hp as [E|Hp]; [|exact Hp]. pose proof (bcc_bits C CC) as K. fold k in K. rewrite E in Lr. simpl in Lr. lia.
Qed.

Section Point.
Variable rb : list F.
Hypothesis Lrb : length rb = k.
Let V : nat -> F := fun x => mle rb (fun B => VB B x).
Lemma phase1_messages : forall p prev rs ru, length Rb = k -> during0 C m i a be Rb R0 R1 p rb -> rep prev (last rb 0%F) ->
  reps rs ru -> length ru = b ->
  returns (bc_phase1_run p prev rs) (fun st => let '(qs, prev', p') := st in
    says quadratic_eval qs b (fun j t => eqpt Rb rb * hyper (b - S j) (fun xs => hyper b (fun Y =>
      layer_poly (2 ^ lg) (gate_at L) W V (firstn j ru ++ t :: xs) Y)))%F /\
    b_between C m i a be Rb R0 R1 rb p' prev' ru).
Proof.
  intros p prev rs ru LRb D Rp Hr Lr. unfold bc_phase1_run.
  eapply returns_bind; [apply (phase1_init_ok C m i CC Hi Hm a be Rb R0 R1 rb Lrb p prev D Rp)|]. intros p1 [PT HB].
  assert (HK := live1 C m i CC Hi).
  assert (Hother : forall g, g < 2 ^ lg -> livegate L g ->
    returns (iv <- idx (g_v (gate_at L g)) ;; rd (b_copy p1) iv) (fun x => rep x (V (wv L g)))).
  { intros g Hg Hl. apply (other1 C m i CC Hi a be Rb R0 R1 rb Lrb p1 g PT Hg Hl). }
  assert (TG : forall g, g < 2 ^ lg -> trad_gate (2 ^ b) (gate_at L g)) by apply (o_TG C m i CC Hi).
  eapply returns_conseq.
  { apply (collect_ok quadratic_eval bc_phase1_update b (duringR C m i rb (wu L) W p1)
      (msgR C i Rb rb (wu L) W (fun g => V (wv L g)))
      (updateR_ok C m i CC Hi Hm a be Rb R0 R1 rb g_u (wu L) W (fun g => V (wv L g))
        (fun gt => iv <- idx (g_v gt) ;; rd (b_copy p1) iv) p1 bc_phase1_update HK Hother PT (fun t x j _ => upd1_shape p1 t x j))
      rs ru p1 [] prev Hr); [exact Lr|apply (duringR_0 C m i a be Rb R0 R1 rb (wu L) W p1 PT HB)|left; reflexivity]. }
  intros [[qs prev'] p2]. cbn [app]. rewrite Lr. intros (Hq & Hp & D2).
  destruct (duringR_point C m i a be Rb R0 R1 rb (wu L) W p1 PT p2 ru D2) as (PT2 & HB2 & _).
  split; [|split; [exact PT2|split; [exact HB2|]]].
  - eapply says_ext; [exact Hq|]. intros j t Hj. unfold msgR. rewrite firstn_length. replace (Nat.min j (length ru)) with j by lia.
    rewrite <- eqw_sym_mle by lia. f_equal. rewrite round_hyper. apply hyper_ext. intros xs Lx.
    etransitivity; [apply (g_eval1 lg b L W V TG)|].
    rewrite (RoundProofs.phase1_layer_poly (2 ^ lg) (gate_at L) W V b (g_proto lg b L TG)) by (apply point_len; assumption). reflexivity.
  - destruct Hp as [E|Hp]; [|exact Hp]. pose proof (o_Hb1 C m i CC Hi) as K. rewrite E in Lr. simpl in Lr. fold C0 b in K. lia.
Qed.
Lemma phase2_messages : forall p prev ru rs rv, length Rb = k -> b_between C m i a be Rb R0 R1 rb p prev ru -> length ru = b ->
  reps rs rv -> length rv = b ->
  returns (bc_phase2_run p prev rs) (fun st => let '(qs, prev', p') := st in
    says quadratic_eval qs b (fun j t => eqpt Rb rb * hyper (b - S j) (fun ys =>
      layer_poly (2 ^ lg) (gate_at L) W V ru (firstn j rv ++ t :: ys)))%F /\
    returns (bc_finalize p' prev') (fun res =>
      rep (fst (fst res)) (mle ru V) /\ rep (snd (fst res)) (mle rv V) /\
      rep (b_blk (snd res)) (eqpt Rb rb) /\ binv C m (snd res))).
Proof.
  intros p prev ru rs rv LRb BT Lu Hr Lr. unfold bc_phase2_run.
  eapply returns_bind; [apply (phase2_init_ok C m i CC Hi Hm a be Rb R0 R1 rb Lrb p prev ru Lu BT)|]. intros p1 (PT & Rvu & HB).
  assert (HK := live2 C m i CC Hi).
  assert (Hother : forall g, g < 2 ^ lg -> livegate L g ->
    returns (Ok (t_v_u (b_t p1))) (fun x => rep x (mle ru V))) by (intros; apply returns_ok, Rvu).
  assert (TG : forall g, g < 2 ^ lg -> trad_gate (2 ^ b) (gate_at L g)) by apply (o_TG C m i CC Hi).
  set (W2 := fun g => (W g * eqw ru (wu L g))%F).
  eapply returns_conseq.
  { apply (collect_ok quadratic_eval bc_phase2_update b (duringR C m i rb (wv L) W2 p1)
      (msgR C i Rb rb (wv L) W2 (fun _ => mle ru V))
      (updateR_ok C m i CC Hi Hm a be Rb R0 R1 rb g_v (wv L) W2 (fun _ => mle ru V)
        (fun _ => Ok (t_v_u (b_t p1))) p1 bc_phase2_update HK Hother PT (fun t x j HS => upd2_shape m p1 t x j HS))
      rs rv p1 [] (fe_of_int 0) Hr); [exact Lr|apply (duringR_0 C m i a be Rb R0 R1 rb (wv L) W2 p1 PT HB)|left; reflexivity]. }
  intros [[qs prev'] p2]. cbn [app]. rewrite Lr. intros (Hq & Hp & D2).
  destruct (duringR_point C m i a be Rb R0 R1 rb (wv L) W2 p1 PT p2 rv D2) as (PT2 & HB2 & S2).
  assert (Rp : rep prev' (last rv 0%F)).
  { destruct Hp as [E|Hp]; [|exact Hp]. pose proof (o_Hb1 C m i CC Hi) as K. rewrite E in Lr. simpl in Lr. fold C0 b in K. lia. }
  split.
  - eapply says_ext; [exact Hq|]. intros j t Hj. unfold msgR. rewrite firstn_length. replace (Nat.min j (length rv)) with j by lia.
    rewrite <- eqw_sym_mle by lia. f_equal. rewrite round_hyper. apply hyper_ext. intros ys Ly.
    etransitivity; [apply (g_eval2 lg b L W V TG ru)|].
    rewrite (RoundProofs.phase2_layer_poly (2 ^ lg) (gate_at L) W V b (g_proto lg b L TG)) by (apply point_len; assumption). reflexivity.
  - eapply returns_conseq; [apply (finalize_ok C m i CC Hi a be Rb R0 R1 rb p2 prev' rv _ _ Lr PT2 HB2 Rp)|].
    intros res (E1 & Rvv & PI & Ebl).
    assert (E2 : t_v_u (b_t p2) = t_v_u (b_t p1)) by (destruct S2 as (? & ? & ? & ? & -> & _); reflexivity).
    split; [rewrite E1, E2; exact Rvu|]. split; [exact Rvv|]. split; [|exact PI].
    rewrite Ebl, <- eqw_sym_mle by lia. apply PT2.
Qed.
End Point.
End OneLayer.
