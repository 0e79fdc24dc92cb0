(** * The verifier of the multi-threaded track against that of the traditional track *)
From Coq Require Import ZArith List Bool Arith Lia.
From Verif Require Import Limbs Field Base LoaderProofs Poly Circuit FastProver FastVerifier SoundProofs Loader LoadedProofs TradProver TradVerifier
  TradLoadedProofs ParaVerifier.
Import ListNotations.
Open Scope nat_scope.

(** The prover whose tables are set up at the end of [V_res]. *)
Definition with_init {S} (I : prover_if S) (init : S -> outcome S) : prover_if S := {|
  if_evaluate := if_evaluate I;
  if_V_res := fun s o r out n m => ' (x, s) <- if_V_res I s o r out n m ;; s <- init s ;; Ok (x, s);
  if_sumcheck_init := if_sumcheck_init I;
  if_phase1_init := if_phase1_init I;
  if_phase1_update := if_phase1_update I;
  if_phase2_init := if_phase2_init I;
  if_phase2_update := if_phase2_update I;
  if_finalize := if_finalize I;
  if_v_u := if_v_u I |}.
Lemma with_init_typed : forall S (I : prover_if S) init, typed I -> typed (with_init I init).
Proof. intros S I init [A B D E]. constructor; assumption. Qed.
Lemma with_init_trusted : forall S (I : prover_if S) init, trusted_V_res I -> trusted_V_res (with_init I init).
Proof.
  intros S I init T s o r row n k x s' H. cbn [with_init if_V_res] in H. apply bind_inv in H. destruct H as ([y s1] & E & H).
  apply bind_inv in H. destruct H as (s2 & _ & H). apply Ok_inj in H. injection H as -> _. exact (T _ _ _ _ _ _ _ _ E).
Qed.
Lemma with_init_layer : forall S (I : prover_if S) init C rnd i st, trad_layer (with_init I init) C rnd i st = trad_layer I C rnd i st.
Proof.
  intros. unfold trad_layer, with_init.
  cbn [if_sumcheck_init if_phase1_init if_phase1_update if_phase2_init if_phase2_update if_finalize]. reflexivity.
Qed.
Lemma for_ext_range : forall S n s (b b' : nat -> S -> outcome S) x, (forall i y, s <= i < s + n -> b i y = b' i y) -> for_ n s b x = for_ n s b' x.
Proof.
  intros S n. induction n; intros s b b' x H; [reflexivity|]. rewrite !for_S, H by lia. destruct (b' s x); cbn [bind]; try reflexivity.
  apply IHn. intros i y Hi. apply H. lia.
Qed.
Lemma para_inputs : forall L0, (forall g gt, g < 2 ^ bit_length L0 -> nth_error (gates L0) g = Some gt -> g_ty gt = 3%Z) ->
  para_input_vector L0 = input_vector L0.
Proof.
  intros L0 H. unfold para_input_vector, input_vector. apply for_ext_range. intros g a Hg. unfold rd.
  destruct (nth_error (gates L0) g) as [gt|] eqn:E; cbn [bind]; [|reflexivity]. rewrite (H g gt ltac:(lia) E). reflexivity.
Qed.
Lemma para_other_inputs : forall L0 g gt x, g < 2 ^ bit_length L0 -> nth_error (gates L0) g = Some gt -> g_ty gt <> 3%Z -> para_input_vector L0 <> Ok x.
Proof.
  intros L0 g gt x Hg E N H. unfold para_input_vector in H.
  destruct (for_ran _ _ _ _ _ _ g H Hg) as (s1 & s2 & Q). cbn [plus] in Q. unfold rd in Q. rewrite E in Q. cbn [bind] in Q.
  destruct (Z.eqb_spec (g_ty gt) 3); [contradiction|discriminate].
Qed.
Lemma bind_cong : forall A B (a b : outcome A) (f g : A -> outcome B), a = b -> (forall x, f x = g x) -> bind a f = bind b g.
Proof. intros A B a b f g -> H. destruct b; cbn [bind]; [apply H|reflexivity..]. Qed.
Theorem para_is_trad : forall S (I : prover_if S) init C rnd B0 s0,
  (forall L0, nth_error (circuit C) 0 = Some L0 -> forall g gt, g < 2 ^ bit_length L0 -> nth_error (gates L0) g = Some gt -> g_ty gt = 3%Z) ->
  para_verify I init C rnd B0 s0 = trad_verify (with_init I init) C rnd B0 s0.
Proof.
  intros S I init C rnd B0 s0 H. unfold para_verify, trad_verify. set (d := total_depth C).
  assert (K : para_verify_body I init C rnd B0 s0 = trad_verify_body (with_init I init) C rnd B0 s0); [|rewrite K; reflexivity].
  unfold para_verify_body, trad_verify_body. cbn [with_init if_evaluate if_V_res]. fold d.
  destruct (if_evaluate I s0) as [[row s1]| | | | | |]; cbn [bind]; [|reflexivity..].
  destruct (rd (circuit C) (d - 1)) as [Lo| | | | | |]; cbn [bind]; [|reflexivity..].
  destruct (generate_randomness rnd 0 (bit_length Lo)) as [r_0 pos]. destruct (generate_randomness rnd pos (bit_length Lo)) as [r_1 pos'].
  destruct (one_minus r_0 (bit_length Lo)) as [o_0| | | | | |]; cbn [bind]; [|reflexivity..].
  destruct (one_minus r_1 (bit_length Lo)) as [o_1| | | | | |]; cbn [bind]; [|reflexivity..].
  destruct (if_V_res I s1 o_0 r_0 row (bit_length Lo) (2 ^ bit_length Lo)) as [[x s2]| | | | | |]; cbn [bind]; [|reflexivity..].
  destruct (init s2) as [s3| | | | | |]; cbn [bind]; [|reflexivity..].
  apply bind_cong; [apply for_body_ext; intros; symmetry; apply with_init_layer|]. intro st.
  unfold rd. destruct (nth_error (circuit C) 0) as [L0|] eqn:E0; cbn [bind]; [|reflexivity].
  rewrite (para_inputs L0 (H L0 eq_refl)). reflexivity.
Qed.
Theorem para_never : forall S (I : prover_if S) init C rnd B0 s0 L0 g gt, nth_error (circuit C) 0 = Some L0 -> g < 2 ^ bit_length L0 ->
  nth_error (gates L0) g = Some gt -> g_ty gt <> 3%Z -> para_verify I init C rnd B0 s0 <> Ok true.
Proof.
  intros S I init C rnd B0 s0 L0 g gt E0 Hg Eg N H. unfold para_verify in H.
  destruct (para_verify_body I init C rnd B0 s0) as [v| | | | | |] eqn:V; try discriminate. apply Ok_inj in H. subst v.
  unfold para_verify_body in V. apply bind_inv in V. destruct V as ([row s1] & _ & V).
  apply bind_inv in V. destruct V as (Lo & _ & V).
  destruct (generate_randomness rnd 0 (bit_length Lo)) as [r_0 pos]. destruct (generate_randomness rnd pos (bit_length Lo)) as [r_1 pos'].
  apply bind_inv in V. destruct V as (o_0 & _ & V). apply bind_inv in V. destruct V as (o_1 & _ & V).
  apply bind_inv in V. destruct V as ([x s2] & _ & V). apply bind_inv in V. destruct V as (s3 & _ & V).
  apply bind_inv in V. destruct V as (st & _ & V). apply bind_inv in V. destruct V as (L & EL & V).
  unfold rd in EL. rewrite E0 in EL. apply Ok_inj in EL. subst L. apply bind_inv in V. destruct V as (input & EI & _).
  exact (para_other_inputs L0 g gt input Hg Eg N EI).
Qed.
Theorem with_init_none : forall S (I : prover_if S) C rnd B0 s0, trad_verify (with_init I Ok) C rnd B0 s0 = trad_verify I C rnd B0 s0.
Proof.
  intros S I C rnd B0 s0. unfold trad_verify. set (d := total_depth C).
  assert (K : trad_verify_body (with_init I Ok) C rnd B0 s0 = trad_verify_body I C rnd B0 s0); [|rewrite K; reflexivity].
  unfold trad_verify_body. cbn [with_init if_evaluate if_V_res]. fold d.
  destruct (if_evaluate I s0) as [[row s1]| | | | | |]; cbn [bind]; [|reflexivity..].
  destruct (rd (circuit C) (d - 1)) as [Lo| | | | | |]; cbn [bind]; [|reflexivity..].
  destruct (generate_randomness rnd 0 (bit_length Lo)) as [r_0 pos]. destruct (generate_randomness rnd pos (bit_length Lo)) as [r_1 pos'].
  destruct (one_minus r_0 (bit_length Lo)) as [o_0| | | | | |]; cbn [bind]; [|reflexivity..].
  destruct (one_minus r_1 (bit_length Lo)) as [o_1| | | | | |]; cbn [bind]; [|reflexivity..].
  destruct (if_V_res I s1 o_0 r_0 row (bit_length Lo) (2 ^ bit_length Lo)) as [[x s2]| | | | | |]; cbn [bind]; [|reflexivity..].
  apply bind_cong; [apply for_body_ext; intros; apply with_init_layer|]. reflexivity.
Qed.
