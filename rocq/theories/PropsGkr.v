(** * Properties C14 and C18-C26: polynomials and the non-zk protocol

    Statements; the proofs are in PolyProofs, TablesProofs, FastProverProofs,
    PhaseProofs, RoundProofs, FastVerifierProofs, FastCheat and SoundProofs.
    [rep x a]: the field element object [x] is reduced and denotes [a : F].
    [reps]: the same for lists.  [tab N l n f]: the array [l] has [N] entries and
    entry [i < n] denotes [f i].  [returns m Q]: [m] completes normally (no
    undefined behaviour, failed assertion, exit or divergence) with a result in
    [Q]. *)
From Coq Require Import ZArith List Bool Arith Lia Ring.
From Verif Require Import Limbs Field FieldProofs Fp Base MleSpec SpecGkr GkrMath Poly PolyProofs Circuit
  FastProver FastVerifier Lazy TablesProofs FastProverProofs PhaseProofs FastVerifierProofs RoundProofs
  FastCheat Count SoundProofs.
Import ListNotations.
Open Scope nat_scope.

(** ** C14 *)
(** Evaluation is the value of the polynomial with the stored coefficients. *)
Theorem C14_eval :
  (forall p c x a, lrep p c -> rep x a -> rep (linear_eval p x) (peval c a)) /\
  (forall p c x a, qrep p c -> rep x a -> rep (quadratic_eval p x) (peval c a)) /\
  (forall p c x a, crep p c -> rep x a -> rep (cubic_eval p x) (peval c a)) /\
  (forall p c x a, frep p c -> rep x a -> rep (quadruple_eval p x) (peval c a)) /\
  (forall p c x a, prep p c -> rep x a -> rep (quintuple_eval p x) (peval c a)).
Proof.
  split; [exact linear_eval_ok|]. split; [exact quadratic_eval_ok|]. split; [exact cubic_eval_ok|].
  split; [exact quadruple_eval_ok|exact quintuple_eval_ok].
Qed.
Print Assumptions C14_eval.
Lemma lrep_len : forall p c, lrep p c -> length c = 2.
Proof. intros p c (a & b & -> & _). reflexivity. Qed.
Lemma qrep_len : forall p c, qrep p c -> length c = 3.
Proof. intros p c (a & b & d & -> & _). reflexivity. Qed.
Lemma crep_len : forall p c, crep p c -> length c = 4.
Proof. intros p c (a & b & d & e & -> & _). reflexivity. Qed.
Lemma frep_len : forall p c, frep p c -> length c = 5.
Proof. intros p c (a & b & d & e & f & -> & _). reflexivity. Qed.
Lemma prep_len : forall p c, prep p c -> length c = 6.
Proof. intros p c (a & b & d & e & f & g & -> & _). reflexivity. Qed.
Theorem C14_add : forall c d x a, rep x a ->
  (forall p q, lrep p c -> lrep q d -> rep (linear_eval (linear_add p q) x) (peval c a + peval d a)%F) /\
  (forall p q, qrep p c -> qrep q d -> rep (quadratic_eval (quadratic_add p q) x) (peval c a + peval d a)%F) /\
  (forall p q, crep p c -> crep q d -> rep (cubic_eval (cubic_add p q) x) (peval c a + peval d a)%F) /\
  (forall p q, frep p c -> frep q d -> rep (quadruple_eval (quadruple_add p q) x) (peval c a + peval d a)%F) /\
  (forall p q, prep p c -> prep q d -> rep (quintuple_eval (quintuple_add p q) x) (peval c a + peval d a)%F).
Proof.
  intros c d x a Rx. split; [|split; [|split; [|split]]]; intros p q Hp Hq.
  - rewrite <- peval_zipadd by (rewrite (lrep_len _ _ Hp), (lrep_len _ _ Hq); reflexivity).
    apply linear_eval_ok; [apply linear_add_ok; assumption|exact Rx].
  - rewrite <- peval_zipadd by (rewrite (qrep_len _ _ Hp), (qrep_len _ _ Hq); reflexivity).
    apply quadratic_eval_ok; [apply quadratic_add_ok; assumption|exact Rx].
  - rewrite <- peval_zipadd by (rewrite (crep_len _ _ Hp), (crep_len _ _ Hq); reflexivity).
    apply cubic_eval_ok; [apply cubic_add_ok; assumption|exact Rx].
  - rewrite <- peval_zipadd by (rewrite (frep_len _ _ Hp), (frep_len _ _ Hq); reflexivity).
    apply quadruple_eval_ok; [apply quadruple_add_ok; assumption|exact Rx].
  - rewrite <- peval_zipadd by (rewrite (prep_len _ _ Hp), (prep_len _ _ Hq); reflexivity).
    apply quintuple_eval_ok; [apply quintuple_add_ok; assumption|exact Rx].
Qed.
Print Assumptions C14_add.
Theorem C14_mul : forall p q c d x a, rep x a ->
  (lrep p c -> lrep q d -> rep (quadratic_eval (linear_mul p q) x) (peval c a * peval d a)%F).
Proof.
  intros p q c d x a Rx Hp Hq. destruct (linear_mul_ok p q c d Hp Hq) as (e & He & E).
  rewrite <- E. apply quadratic_eval_ok; assumption.
Qed.
Print Assumptions C14_mul.
Theorem C14_mul_quadratic : forall p q c d x a, rep x a ->
  (qrep p c -> lrep q d -> rep (cubic_eval (quadratic_mul p q) x) (peval c a * peval d a)%F).
Proof.
  intros p q c d x a Rx Hp Hq. destruct (quadratic_mul_ok p q c d Hp Hq) as (e & He & E).
  rewrite <- E. apply cubic_eval_ok; assumption.
Qed.
Print Assumptions C14_mul_quadratic.
Example C14_example : exists p q, lrep p [1; (1 + 1)]%F /\ qrep q [(1 + 1); 0; 1]%F /\
  (peval [(1 + 1); 0; 1] (1 + 1 + 1) = ofZ 19)%F.
Proof.
  exists (LinearPoly (fe_of_int 1) (fe_of_int 2)), (QuadraticPoly (fe_of_int 2) (fe_of_int 0) (fe_of_int 1)).
  split; [exists 1%F, (1 + 1)%F; split; [reflexivity|split; [exact rep_i1|exact rep_i2]]|].
  split; [exists (1 + 1)%F, 0%F, 1%F; split; [reflexivity|split; [exact rep_i2|split; [exact rep_i0|exact rep_i1]]]|].
  apply F_eq. vm_compute. reflexivity.
Qed.

(** ** A concrete circuit used in the examples

    Inputs 5, 7, -1 and a zero gate; copies; product, range sum, exclusive or and
    relay; then NAAB and NOT. *)
Definition ex_circuit : layered_circuit := Circuit [
  plain_layer [Gate 3 5 0; Gate 3 7 0; Gate 3 (-1) 0; Gate 2 0 0] 2;
  plain_layer [Gate 4 0 0; Gate 4 1 0; Gate 4 2 0; Gate 4 3 0] 2;
  plain_layer [Gate 1 0 1; Gate 5 0 3; Gate 8 1 2; Gate 10 3 0] 2;
  plain_layer [Gate 9 0 1; Gate 6 2 0] 1 ] 4.
Lemma ex_cases4 : forall (Q : nat -> Prop), Q 0 -> Q 1 -> Q 2 -> Q 3 -> forall g, g < 4 -> Q g.
Proof. intros Q H0 H1 H2 H3 [|[|[|[|g]]]] Hg; try assumption; lia. Qed.
Lemma ex_complete : complete_circuit ex_circuit.
Proof.
  constructor; try (cbn; lia).
  - apply ex_cases4; cbn; lia.
  - apply ex_cases4; cbn; auto.
  - intros _. split; [reflexivity|]. apply ex_cases4; reflexivity.
  - intros i g Hi. cbn [ex_circuit total_depth] in Hi. assert (E : i = 2 \/ i = 3) by lia.
    destruct E as [-> | ->]; intro Hg.
    + revert g Hg. apply ex_cases4; unfold proto_gate; cbn; lia.
    + cbn in Hg. destruct g as [|[|g]]; [| |lia]; unfold proto_gate; cbn; lia.
Qed.
Definition ex_rnd (k : nat) : fe := fe_of_int (Z.of_nat k * Z.of_nat k + 3).
Lemma ex_rnd_reduced : forall k, reduced (ex_rnd k).
Proof. intro k. eapply rep_reduced. apply rep_of_int. Qed.
Lemma ex_sizes : forall k, k < total_depth ex_circuit -> bit_length (layer_at ex_circuit k) <= 2.
Proof. cbn [ex_circuit total_depth]. apply ex_cases4; cbn; lia. Qed.

(** ** C18 (fast track) *)
(** [V] is the assignment of values to the gates of every layer. *)
Definition circuit_values (C : layered_circuit) (V : nat -> nat -> F) : Prop :=
  (forall g, V 0 g = ofZ (g_u (gate_at (layer_at C 0) g) mod 2 ^ 64)) /\
  forall i g, S i < total_depth C -> V (S i) g = gate_spec (V i) (gate_at (layer_at C (S i)) g).
Theorem C18_evaluate_fast_track : forall p, wf_circuit (p_C p) ->
  exists row p' V, evaluate p = Ok (row, p') /\ circuit_values (p_C p) V /\
    (forall i, i < total_depth (p_C p) -> exists r, nth_error (p_circuit_value p') i = Some r /\
       let n := 2 ^ bit_length (layer_at (p_C p) i) in tab n r n (V i)) /\
    nth_error (p_circuit_value p') (total_depth (p_C p) - 1) = Some row.
Proof.
  intros p WF. destruct (evaluate_ok p WF) as ([row p'] & E & cv & Es & (Lc & Rows) & Er). cbn [fst snd] in *.
  exists row, p', (vals (p_C p)). split; [exact E|].
  assert (Hd : total_depth (p_C p) = length (circuit (p_C p))) by apply WF.
  split; [split|split].
  - intro g. rewrite vals_0; [reflexivity|]. intro K. pose proof (wf_pos _ WF). rewrite K in Hd. simpl in Hd. lia.
  - intros i g Hi. rewrite vals_S by lia. reflexivity.
  - rewrite Es. exact Rows.
  - rewrite Es. exact Er.
Qed.
Print Assumptions C18_evaluate_fast_track.
Example C18_example : wf_circuit ex_circuit /\ forall V, circuit_values ex_circuit V ->
  V 2 0 = ofZ 35 /\ V 2 1 = (ofZ (5 + 7 + (2 ^ 64 - 1))) /\ (V 3%nat 0%nat = - ofZ 34 * V 2%nat 1%nat)%F.
Proof.
  split; [exact (complete_wf _ ex_complete)|]. intros V [H0 HS].
  pose proof (HS 0 0 ltac:(cbn; lia)) as A0. pose proof (HS 0 1 ltac:(cbn; lia)) as A1. pose proof (HS 0 2 ltac:(cbn; lia)) as A2.
  pose proof (HS 1 0 ltac:(cbn; lia)) as B0. pose proof (HS 1 1 ltac:(cbn; lia)) as B1. pose proof (HS 2 0 ltac:(cbn; lia)) as D0.
  unfold gate_spec in A0, A1, A2, B0, B1, D0. unfold layer_at, gate_at in *.
  cbn [ex_circuit circuit plain_layer nth gates g_ty g_u g_v Z.to_nat Pos.to_nat Pos.iter_op Nat.add Nat.sub sumn] in *.
  rewrite H0 in A0, A1, A2. cbn [nth g_u] in A0, A1, A2.
  assert (E0 : V 2 0 = ofZ 35) by (transitivity (V 1%nat 0%nat * V 1%nat 1%nat)%F; [exact B0|]; rewrite A0, A1; apply F_eq; vm_compute; reflexivity).
  assert (E1 : V 2 1 = ofZ (5 + 7 + (2 ^ 64 - 1))) by (transitivity (0 + V 1%nat 0%nat + V 1%nat 1%nat + V 1%nat 2%nat)%F; [exact B1|]; rewrite A0, A1, A2; apply F_eq; vm_compute; reflexivity).
  split; [exact E0|]. split; [exact E1|].
  transitivity ((1 - V 2%nat 0%nat) * V 2%nat 1%nat)%F; [exact D0|]. rewrite E0, E1. apply F_eq. vm_compute. reflexivity.
Qed.

(** ** C19 *)
(** [g] is the multilinear polynomial function that agrees with [f] on 0/1 points. *)
Definition extension (n : nat) (f : nat -> F) (g : list F -> F) : Prop :=
  multiaffine g /\ forall x, x < 2 ^ n -> g (bitvec n x) = f x.
Lemma extension_unique : forall R f g, extension (length R) f g -> mle R f = g R.
Proof. intros R f g [M E]. rewrite (mle_unique g M). apply mle_ext. intros x Hx. symmetry. apply E, Hx. Qed.
Theorem C19_extension_exists : forall n f, extension n f (fun r => mle r f).
Proof. intros n f. split; [apply mle_multiaffine|]. intros x Hx. apply mle_bitvec, Hx. Qed.
Print Assumptions C19_extension_exists.
Theorem C19_V_res : forall N l r o R f g, reps r R -> reps o (comp R) -> tab N l (2 ^ length R) f ->
  extension (length R) f g ->
  returns (V_res o r l (length R) (2 ^ length R)) (fun x => rep x (g R)).
Proof. intros N l r o R f g Hr Ho T E. rewrite <- (extension_unique R f g E). eapply V_res_ok; eassumption. Qed.
Print Assumptions C19_V_res.
Theorem C19_V_in : forall N l r o R f g, reps r R -> reps o (comp R) -> tab N l (2 ^ length R) f ->
  extension (length R) f g ->
  returns (V_in r o l (length R) (2 ^ length R)) (fun x => rep x (g R)).
Proof. intros N l r o R f g Hr Ho T E. rewrite <- (extension_unique R f g E). eapply V_in_ok; eassumption. Qed.
Print Assumptions C19_V_in.
Example C19_example :
  tab 2 [fe_of_int 5; fe_of_int 9] 2 (fun i => ofZ (if i =? 0 then 5 else 9)) /\
  extension 1 (fun i => ofZ (if i =? 0 then 5 else 9)) (fun r => ofZ 5 + ofZ 4 * nth 0 r 0)%F /\
  (ofZ 5 + ofZ 4 * nth 0 [ofZ 3] 0)%F = ofZ 17.
Proof.
  split; [|split; [split|]].
  - split; [reflexivity|]. split; [lia|]. intros [|[|i]] Hi; [| |lia]; eexists; (split; [reflexivity|]); apply rep_of_int.
  - intros [|p pre] a suf; cbn [app nth]; ring.
  - intros [|[|x]] Hx; [| |simpl in Hx; lia]; apply F_eq; vm_compute; reflexivity.
  - apply F_eq. vm_compute. reflexivity.
Qed.

(** ** C20 *)
(** The equality weight as a product over the bits of the index. *)
Definition eq_weight (R : list F) (x : nat) : F :=
  prodn (length R) (fun j => let b := ind (Nat.testbit x j) in let rj := nth j R 0%F in
                             (b * rj + (1 - b) * (1 - rj))%F).
(** Prover: two half tables, split at any [h] (the code uses [length / 2]). *)
Theorem C20_half_tables : forall N t1 t2 r o R h i, reps r R -> reps o (comp R) -> h <= length R ->
  2 ^ h <= N -> 2 ^ (length R - h) <= N -> length t1 = N -> length t2 = N -> i < 2 ^ length R ->
  returns (f <- half_table r o 0 h (upd t1 0 (fe_of_int 1)) ;;
           s <- half_table r o h (length R - h) (upd t2 0 (fe_of_int 1)) ;;
           u_weight f s h i) (fun x => rep x (eq_weight R i)).
Proof.
  intros N t1 t2 r o R h i Hr Ho Hh HN1 HN2 L1 L2 Hi. pose proof (pow2_pos h) as Hp.
  eapply returns_bind; [apply (half_table_ok N _ r o R (comp R) 0 h 1%F Hr Ho); rewrite ?comp_length; try lia; apply eqtab_init; [exact L1|lia|exact rep_i1]|].
  intros f Tf.
  eapply returns_bind; [apply (half_table_ok N _ r o R (comp R) h (length R - h) 1%F Hr Ho); rewrite ?comp_length; try lia; apply eqtab_init; [exact L2|lia|exact rep_i1]|].
  intros s Ts. eapply returns_conseq; [eapply u_weight_ok; [apply prs_length|exact Tf|exact Ts|]|].
  - rewrite prs_length. replace (h + (length R - h)) with (length R) by lia. exact Hi.
  - cbv beta. intros x Rx. eapply rep_eq; [exact Rx|]. rewrite <- prs_app. replace (h + (length R - h)) with (length R) by lia.
    rewrite prs_point. fold (eqw R i). rewrite eqw_prod. unfold eq_weight. ring.
Qed.
Print Assumptions C20_half_tables.
(** Prover: the combined weights for two output points with coefficients. *)
Theorem C20_prover_output_tables : forall N t0 s0 t1 s1 r0 o0 r1 o1 R0 R1 al be a b h i,
  reps r0 R0 -> reps o0 (comp R0) -> reps r1 R1 -> reps o1 (comp R1) -> length R0 = length R1 ->
  rep al a -> rep be b -> h <= length R0 -> 2 ^ h <= N -> 2 ^ (length R0 - h) <= N ->
  length t0 = N -> length t1 = N -> length s0 = N -> length s1 = N -> i < 2 ^ length R0 ->
  returns (' (f0, f1) <- half_tables2 r0 o0 r1 o1 0 h (upd t0 0 al) (upd t1 0 be) ;;
           ' (g0, g1) <- half_tables2 r0 o0 r1 o1 h (length R0 - h) (upd s0 0 (fe_of_int 1)) (upd s1 0 (fe_of_int 1)) ;;
           g_weight f0 g0 f1 g1 h i) (fun x => rep x (a * eq_weight R0 i + b * eq_weight R1 i)%F).
Proof.
  intros N t0 s0 t1 s1 r0 o0 r1 o1 R0 R1 al be a b h i Hr0 Ho0 Hr1 Ho1 EL Ra Rb Hh HN1 HN2 L0 L1 L2 L3 Hi.
  pose proof (pow2_pos h) as Hp.
  eapply returns_bind; [apply (half_tables2_gen N _ _ r0 o0 r1 o1 R0 R1 0 h a b (length R0)); try assumption; try lia; apply eqtab_init; try assumption; lia|].
  intros [f0 f1]. cbn [fst snd]. intros [T0 T1].
  eapply returns_bind; [apply (half_tables2_gen N _ _ r0 o0 r1 o1 R0 R1 h (length R0 - h) 1%F 1%F (length R0)); try assumption; try lia; apply eqtab_init; try assumption; try lia; exact rep_i1|].
  intros [g0 g1]. cbn [fst snd]. intros [T2 T3].
  eapply returns_conseq; [eapply (g_weight_ok N f0 g0 f1 g1 h); [apply prs_length|apply prs_length| |exact T0|exact T2|exact T1|exact T3|]|].
  - rewrite !prs_length. reflexivity.
  - rewrite prs_length. replace (h + (length R0 - h)) with (length R0) by lia. exact Hi.
  - cbv beta. intros x Rx. eapply rep_eq; [exact Rx|]. rewrite <- !prs_app. replace (h + (length R0 - h)) with (length R0) by lia.
    rewrite prs_point. rewrite EL. rewrite prs_point. fold (eqw R0 i) (eqw R1 i). rewrite !eqw_prod. reflexivity.
Qed.
Print Assumptions C20_prover_output_tables.
(** The table sizes allocated by the prover suffice for the split in the middle. *)
Theorem C20_half_table_sizes : forall n m, n <= m ->
  2 ^ (n / 2) <= 2 ^ (m / 2 + 1) /\ 2 ^ (n - n / 2) <= 2 ^ (m / 2 + 1).
Proof.
  intros n m H. pose proof (half_bound n m H). pose proof (Nat.div_le_mono n m 2 ltac:(lia) H).
  split; apply Nat.pow_le_mono_r; lia.
Qed.
Print Assumptions C20_half_table_sizes.
(** Verifier: the four tables. *)
Theorem C20_beta_init : forall N lg lu al be r0 r1 ru rv o0 o1 ou ov B a b R0 R1 Ru Rv,
  reps r0 R0 -> reps r1 R1 -> reps ru Ru -> reps rv Rv ->
  reps o0 (comp R0) -> reps o1 (comp R1) -> reps ou (comp Ru) -> reps ov (comp Rv) ->
  length R0 = lg -> length R1 = lg -> length Ru = lu -> length Rv = lu ->
  length (b_g0 B) = N -> length (b_g1 B) = N -> length (b_u B) = N -> length (b_v B) = N ->
  2 ^ lg <= N -> 2 ^ lu <= N -> rep al a -> rep be b ->
  returns (beta_init lg lu al be r0 r1 ru rv o0 o1 ou ov B) (fun B' =>
    tab N (b_g0 B') (2 ^ lg) (fun x => a * eq_weight R0 x)%F /\ tab N (b_g1 B') (2 ^ lg) (fun x => b * eq_weight R1 x)%F /\
    tab N (b_u B') (2 ^ lu) (eq_weight Ru) /\ tab N (b_v B') (2 ^ lu) (eq_weight Rv)).
Proof.
  intros N lg lu al be r0 r1 ru rv o0 o1 ou ov B a b R0 R1 Ru Rv H0 H1 H2 H3 G0 G1 G2 G3 L0 L1 L2 L3 M0 M1 M2 M3 S0 S1 Ra Rb.
  eapply returns_conseq; [apply (beta_init_ok N lg lu al be r0 r1 ru rv o0 o1 ou ov B a b R0 R1 Ru Rv _ _ _ _ H0 H1 H2 H3 G0 G1 G2 G3);
    rewrite ?comp_length; assumption|].
  cbv beta. intros B' (T0 & T1 & TU & TV).
  assert (K : forall c R n t, length R = n -> eqtab N c (prs R (comp R) 0 n) t -> tab N t (2 ^ n) (fun x => c * eq_weight R x)%F).
  { intros c R n t Ln T. rewrite <- Ln in T |- *. rewrite prs_point in T. unfold eqtab in T. rewrite point_length in T.
    eapply tab_ext; [exact T|]. intros k _. cbv beta. fold (eqw R k). rewrite eqw_prod. reflexivity. }
  split; [apply K; assumption|]. split; [apply K; assumption|].
  split; (eapply tab_ext; [apply (K 1%F); [|eassumption]; assumption|]; intros k _; cbv beta; ring).
Qed.
Print Assumptions C20_beta_init.
Example C20_example : eq_weight [ofZ 3; ofZ 4; ofZ 6] 5 = (ofZ 3 * (1 - ofZ 4) * ofZ 6)%F /\
  reps [fe_of_int 3; fe_of_int 4; fe_of_int 6] [ofZ 3; ofZ 4; ofZ 6] /\ 5 < 2 ^ 3 /\ 3 / 2 <= 3 /\ 2 ^ (3 - 3 / 2) <= 2 ^ (3 / 2 + 1).
Proof.
  split; [apply F_eq; vm_compute; reflexivity|]. split; [|cbn; lia].
  constructor; [apply rep_of_int|]. constructor; [apply rep_of_int|]. constructor; [apply rep_of_int|constructor].
Qed.

(** ** C21 *)
Theorem C21_direct_relay_layer1 : forall n r_g r_u Rg Ru, reps r_g Rg -> reps r_u Ru -> length Rg = n -> length Ru = n ->
  returns (direct_relay 1 n r_g r_u) (fun x => rep x
    (prodn n (fun j => nth j Rg 0 * nth j Ru 0 + (1 - nth j Rg 0) * (1 - nth j Ru 0))%F)).
Proof.
  intros n r_g r_u Rg Ru Hg Hu Lg Lu. eapply returns_conseq; [apply (direct_relay_ok n r_g r_u Rg Ru); assumption|].
  cbv beta. intros x Rx. eapply rep_eq; [exact Rx|]. clear - Lg Lu. subst n. revert Ru Lu.
  induction Rg as [|a Rg IH]; intros [|c Ru] L; try discriminate; [reflexivity|]. injection L as L.
  cbn [length]. rewrite prodn_shift. cbn [nth]. rewrite <- (IH Ru L). reflexivity.
Qed.
Print Assumptions C21_direct_relay_layer1.
Theorem C21_direct_relay_other : forall i n r_g r_u, i <> 1 ->
  returns (direct_relay i n r_g r_u) (fun x => rep x 0%F).
Proof. intros i n r_g r_u H. rewrite direct_relay_0 by exact H. apply returns_ok. exact rep_i0. Qed.
Print Assumptions C21_direct_relay_other.
Example C21_example : (prodn 2 (fun j => nth j [ofZ 2; ofZ 3] 0 * nth j [ofZ 5; ofZ 7] 0 +
  (1 - nth j [ofZ 2; ofZ 3] 0) * (1 - nth j [ofZ 5; ofZ 7] 0)) = ofZ 462)%F /\
  reps [fe_of_int 2; fe_of_int 3] [ofZ 2; ofZ 3].
Proof.
  split; [apply F_eq; vm_compute; reflexivity|].
  constructor; [apply rep_of_int|]. constructor; [apply rep_of_int|constructor].
Qed.

(** ** C22 (fast track) *)
(** The predicate of a two-input gate type at the points [Ru], [Rv]. *)
Definition wiring (L : layer) (ty : Z) (W : nat -> F) (Ru Rv : list F) : F :=
  sumn (2 ^ bit_length L) (fun k => let g := gate_at L k in
    ind (g_ty g =? ty)%Z * (W k * eqw Ru (Z.to_nat (g_u g)) * eqw Rv (Z.to_nat (g_v g))))%F.
(** The predicate of range sums. *)
Definition wiring_range (L : layer) (W : nat -> F) (Ru Rv : list F) : F :=
  sumn (2 ^ bit_length L) (fun k => let g := gate_at L k in
    ind (g_ty g =? 5)%Z * (W k * sumn (Z.to_nat (g_v g) - Z.to_nat (g_u g))
                                   (fun j => eqw Ru (Z.to_nat (g_u g) + j)%nat * eqw Rv 0)))%F.
Theorem C22_fast_track_predicates : forall L b N al be r0 r1 ru rv o0 o1 ou ov B a c R0 R1 Ru Rv,
  (forall k, k < 2 ^ bit_length L -> proto_gate (2 ^ b) (gate_at L k) \/ gate_at L k = Gate 4 (Z.of_nat k) 0) ->
  2 ^ bit_length L <= length (gates L) ->
  reps r0 R0 -> reps r1 R1 -> reps ru Ru -> reps rv Rv ->
  reps o0 (comp R0) -> reps o1 (comp R1) -> reps ou (comp Ru) -> reps ov (comp Rv) ->
  length R0 = bit_length L -> length R1 = bit_length L -> length Ru = b -> length Rv = b ->
  length (b_g0 B) = N -> length (b_g1 B) = N -> length (b_u B) = N -> length (b_v B) = N ->
  2 ^ bit_length L <= N -> 2 ^ b <= N -> rep al a -> rep be c ->
  let W := out_weight a c R0 R1 in
  let after f x := returns (B' <- beta_init (bit_length L) b al be r0 r1 ru rv o0 o1 ou ov B ;; f L B') (fun y => rep y x) in
  after add_pred (wiring L 0 W Ru Rv) /\ after mult_pred (wiring L 1 W Ru Rv) /\
  after not_pred (wiring L 6 W Ru Rv) /\ after minus_pred (wiring L 7 W Ru Rv) /\
  after xor_pred (wiring L 8 W Ru Rv) /\ after NAAB_pred (wiring L 9 W Ru Rv) /\
  after relay_pred (wiring L 10 W Ru Rv) /\ after sum_pred (wiring_range L W Ru Rv).
Proof.
  intros L b N al be r0 r1 ru rv o0 o1 ou ov B a c R0 R1 Ru Rv HL HG H0 H1 H2 H3 G0 G1 G2 G3 L0 L1 L2 L3 M0 M1 M2 M3 S0 S1 Ra Rb W after.
  assert (BI : returns (beta_init (bit_length L) b al be r0 r1 ru rv o0 o1 ou ov B) (fun B' => btabs N (bit_length L) b B' W (eqw Ru) (eqw Rv))).
  { eapply returns_conseq; [apply (beta_init_btabs N (bit_length L) b al be r0 r1 ru rv o0 o1 ou ov B a c R0 R1 Ru Rv (comp Rv) H0 H1 H2 H3 G0 G1 G2 G3);
      rewrite ?comp_length; assumption|].
    cbv beta. intros B' [[TG TU TV] _]. constructor; [exact TG|exact TU|]. rewrite <- L3 in TV at 2. rewrite prs_point in TV. exact TV. }
  assert (T : forall f ty, (forall B', btabs N (bit_length L) b B' W (eqw Ru) (eqw Rv) -> returns (f L B') (fun x => rep x (pred (2 ^ bit_length L) (gate_at L) W ty (eqw Ru) (eqw Rv)))) ->
     In ty [0;1;6;7;8;9;10]%Z -> after f (wiring L ty W Ru Rv)).
  { intros f ty Hf Ht. unfold after. eapply returns_bind; [exact BI|]. intros B' BT. eapply returns_conseq; [apply Hf, BT|].
    cbv beta. intros x Rx. rewrite (pred_two (bit_length L) L W (eqw Ru) (eqw Rv) ty Ht) in Rx. exact Rx. }
  split; [apply T; [intros B' BT; apply (add_pred_ok N (bit_length L) b L B' W _ _ BT eq_refl HG HL)|cbn; tauto]|].
  split; [apply T; [intros B' BT; apply (mult_pred_ok N (bit_length L) b L B' W _ _ BT eq_refl HG HL)|cbn; tauto]|].
  split; [apply T; [intros B' BT; apply (not_pred_ok N (bit_length L) b L B' W _ _ BT eq_refl HG HL)|cbn; tauto]|].
  split; [apply T; [intros B' BT; apply (minus_pred_ok N (bit_length L) b L B' W _ _ BT eq_refl HG HL)|cbn; tauto]|].
  split; [apply T; [intros B' BT; apply (xor_pred_ok N (bit_length L) b L B' W _ _ BT eq_refl HG HL)|cbn; tauto]|].
  split; [apply T; [intros B' BT; apply (NAAB_pred_ok N (bit_length L) b L B' W _ _ BT eq_refl HG HL)|cbn; tauto]|].
  split; [apply T; [intros B' BT; apply (relay_pred_ok N (bit_length L) b L B' W _ _ BT eq_refl HG HL)|cbn; tauto]|].
  unfold after. eapply returns_bind; [exact BI|]. intros B' BT.
  eapply returns_conseq; [apply (sum_pred_ok' N (bit_length L) b L B' W _ _ BT eq_refl HG HL)|].
  cbv beta. intros x Rx. rewrite (pred_sum (bit_length L) L W (eqw Ru) (eqw Rv)) in Rx. exact Rx.
Qed.
Print Assumptions C22_fast_track_predicates.
(** These values are the multilinear extension of the wiring indicator. *)
Theorem C22_wiring_is_extension : forall L ty W n x y, x < 2 ^ n -> y < 2 ^ n -> 
  (forall k, k < 2 ^ bit_length L -> Z.to_nat (g_u (gate_at L k)) < 2 ^ n /\ Z.to_nat (g_v (gate_at L k)) < 2 ^ n) ->
  wiring L ty W (bitvec n x) (bitvec n y) =
  sumn (2 ^ bit_length L) (fun k => let g := gate_at L k in
    ind ((g_ty g =? ty)%Z && (Z.to_nat (g_u g) =? x) && (Z.to_nat (g_v g) =? y))%nat * W k)%F.
Proof.
  intros L ty W n x y Hx Hy H. unfold wiring. apply sumn_ext. intros k Hk. cbv zeta. destruct (H k Hk).
  rewrite !eqw_bitvec by assumption.
  destruct (g_ty (gate_at L k) =? ty)%Z, (Z.to_nat (g_u (gate_at L k)) =? x), (Z.to_nat (g_v (gate_at L k)) =? y); cbn [ind andb]; ring.
Qed.
Print Assumptions C22_wiring_is_extension.
Example C22_example : let L := layer_at ex_circuit 2 in
  (forall k, k < 2 ^ bit_length L -> proto_gate (2 ^ 2) (gate_at L k) \/ gate_at L k = Gate 4 (Z.of_nat k) 0) /\
  2 ^ bit_length L <= length (gates L) /\
  wiring L 1 (fun k => ofZ (Z.of_nat k + 2)) [ofZ 3; ofZ 4] [ofZ 5; ofZ 6] = (ofZ 2 * ((1 - ofZ 3) * (1 - ofZ 4)) * (ofZ 5 * (1 - ofZ 6)))%F.
Proof.
  split; [|split].
  - intros k Hk. left. apply (cc_wires ex_circuit ex_complete 2 k); [cbn; lia|exact Hk].
  - cbn. lia.
  - apply F_eq. vm_compute. reflexivity.
Qed.

(** ** C24 *)
(** [pinv C m p]: the prover object [p] holds circuit [C] with its evaluated
    layers and arrays of the allocated sizes; it holds right after [evaluate]
    and is preserved by each layer. *)
Theorem C24_ready : forall C m row p i lg lu lv al be r0 r1 o0 o1 a b R0 R1,
  complete_circuit C -> evaluate (init_prover C m) = Ok (row, p) ->
  rep al a -> rep be b -> reps r0 R0 -> reps r1 R1 -> reps o0 (comp R0) -> reps o1 (comp R1) ->
  length R0 = lg -> length R1 = lg ->
  let p' := sumcheck_init p i lg lu lv al be r0 r1 o0 o1 in
  pinv C m p' /\ p_layer p' = i /\ pparams p' lg a b R0 R1 /\ p_length_u p' = lu.
Proof.
  intros C m row p i lg lu lv al be r0 r1 o0 o1 a b R0 R1 CC E. 
  apply (sumcheck_init_ready C m). apply (init_ready C m row p CC E).
Qed.
Print Assumptions C24_ready.
(** Phase 1, layers above the copy layer: round [j]'s message evaluates at [t] to
    the sum of the layer polynomial over the remaining coordinates of [X] and
    all of [Y]. *)
Theorem C24_phase1 : forall C m i p a be R0 R1 rs ru,
  complete_circuit C -> 1 < i < total_depth C -> (forall k, k < total_depth C -> bit_length (layer_at C k) <= m) ->
  let L := layer_at C i in let b := bit_length (layer_at C (i - 1)) in
  pinv C m p -> p_layer p = i -> pparams p (bit_length L) a be R0 R1 -> p_length_u p = b -> reps rs ru -> length ru = b ->
  returns (phase1_run p rs) (fun st => let '(qs, prev, p') := st in
    messages qs b (fun j t => hyper (b - S j) (fun xs => hyper b (fun Y =>
      layer_poly (2 ^ bit_length L) (gate_at L) (out_weight a be R0 R1) (vals C (i - 1)) (firstn j ru ++ t :: xs) Y))) /\
    between C m i p' prev a be R0 R1 ru).
Proof. exact phase1_messages. Qed.
Print Assumptions C24_phase1.
(** Phase 2: [X] is fixed to the challenges [ru] of phase 1. *)
Theorem C24_phase2 : forall C m i p prev r_u o_u a be R0 R1 ru rs Rv,
  complete_circuit C -> 1 < i < total_depth C -> (forall k, k < total_depth C -> bit_length (layer_at C k) <= m) ->
  let L := layer_at C i in let b := bit_length (layer_at C (i - 1)) in
  between C m i p prev a be R0 R1 ru -> length ru = b -> reps r_u ru -> reps o_u (comp ru) -> reps rs Rv -> length Rv = b ->
  returns (phase2_run p prev r_u o_u rs) (fun st => let '(qs, _, p') := st in
    messages qs b (fun j t => hyper (b - S j) (fun ys =>
      layer_poly (2 ^ bit_length L) (gate_at L) (out_weight a be R0 R1) (vals C (i - 1)) ru (firstn j Rv ++ t :: ys))) /\
    rep (p_v_u p') (mle ru (vals C (i - 1))) /\ pinv C m p').
Proof. exact phase2_messages. Qed.
Print Assumptions C24_phase2.
(** The copy layer: only [X] is summed; phase 2 sends zero polynomials. *)
Theorem C24_copy_phase1 : forall C m p a be R0 R1 rs ru,
  complete_circuit C -> 1 < total_depth C -> (forall k, k < total_depth C -> bit_length (layer_at C k) <= m) ->
  let L := layer_at C 1 in let b := bit_length (layer_at C 0) in
  pinv C m p -> p_layer p = 1 -> pparams p (bit_length L) a be R0 R1 -> p_length_u p = b -> reps rs ru -> length ru = b ->
  returns (phase1_run p rs) (fun st => let '(qs, prev, p') := st in
    messages qs b (fun j t => hyper (b - S j) (fun xs =>
      layer_poly (2 ^ bit_length L) (gate_at L) (out_weight a be R0 R1) (vals C 0) (firstn j ru ++ t :: xs) (map (fun _ => 0%F) ru))) /\
    between C m 1 p' prev a be R0 R1 ru).
Proof. exact copy_phase1_messages. Qed.
Print Assumptions C24_copy_phase1.
Theorem C24_copy_phase2 : forall C m p prev r_u o_u a be R0 R1 ru rs Rv,
  complete_circuit C -> 1 < total_depth C -> (forall k, k < total_depth C -> bit_length (layer_at C k) <= m) ->
  let b := bit_length (layer_at C 0) in
  between C m 1 p prev a be R0 R1 ru -> length ru = b -> reps r_u ru -> reps o_u (comp ru) -> reps rs Rv -> length Rv = b ->
  returns (phase2_run p prev r_u o_u rs) (fun st => let '(qs, _, p') := st in
    messages qs b (fun _ _ => 0%F) /\ rep (p_v_u p') (mle ru (vals C 0)) /\ pinv C m p').
Proof. exact copy_phase2_messages. Qed.
Print Assumptions C24_copy_phase2.
Example C24_example : exists row p, evaluate (init_prover ex_circuit 2) = Ok (row, p) /\
  let p' := sumcheck_init p 3 1 2 2 (fe_of_int 1) (fe_of_int 0) [fe_of_int 4] [fe_of_int 9]
     [fe_sub (fe_of_int 1) (fe_of_int 4)] [fe_sub (fe_of_int 1) (fe_of_int 9)] in
  pinv ex_circuit 2 p' /\ p_layer p' = 3 /\ pparams p' 1 1%F 0%F [ofZ 4] [ofZ 9] /\ p_length_u p' = 2.
Proof.
  destruct (evaluate_ok (init_prover ex_circuit 2) (complete_wf _ ex_complete)) as ([row p] & E & _). exists row, p. split; [exact E|].
  apply (C24_ready ex_circuit 2 row p 3 1 2 2 _ _ _ _ _ _ 1%F 0%F [ofZ 4] [ofZ 9] ex_complete E); try reflexivity.
  - exact rep_i1.
  - exact rep_i0.
  - constructor; [apply rep_of_int|constructor].
  - constructor; [apply rep_of_int|constructor].
  - constructor; [apply rep_sub; [exact rep_i1|apply rep_of_int]|constructor].
  - constructor; [apply rep_sub; [exact rep_i1|apply rep_of_int]|constructor].
Qed.

(** ** C25 *)
Theorem C25_completeness : forall C rnd, complete_circuit C -> (forall k, reduced (rnd k)) ->
  run_fast_track C rnd = Ok true.
Proof. exact verify_honest_ok. Qed.
Print Assumptions C25_completeness.
Example C25_example : complete_circuit ex_circuit /\ (forall k, reduced (ex_rnd k)) /\ ex_rnd 1 <> ex_rnd 2.
Proof.
  split; [exact ex_complete|]. split; [exact ex_rnd_reduced|]. intro K.
  assert (K' : val512 (ex_rnd 1) = val512 (ex_rnd 2)) by (rewrite K; reflexivity). vm_compute in K'. discriminate.
Qed.

(** ** C26 *)
(** Whole-protocol soundness is false: the verifier of [Cv] accepts, for every
    choice of randomness, the output of another circuit [C] that differs from
    [Cv] in its inputs. *)
Lemma same_above_max : forall C C', complete_circuit C -> complete_circuit C' -> same_above C C' ->
  max_bit_length C = max_bit_length C'.
Proof.
  intros C C' CC CC' [D L S]. unfold max_bit_length. f_equal.
  pose proof (cc_depth C CC) as E. pose proof (cc_depth C' CC') as E'.
  apply (nth_ext _ _ 0 0); rewrite !map_length; [lia|]. intros n Hn.
  assert (H : forall C, nth n (map bit_length (circuit C)) 0 = bit_length (layer_at C n)).
  { intro C0. unfold layer_at. exact (map_nth bit_length (circuit C0) (plain_layer [] 0) n). }
  rewrite !H. destruct n as [|n]; [exact S|]. rewrite L by lia. reflexivity.
Qed.
Theorem C26_any_input_accepted : forall Cv C rnd, complete_circuit Cv -> complete_circuit C -> same_above Cv C ->
  1 < total_depth C -> 0 < bit_length (layer_at C 0) -> (forall k, reduced (rnd k)) ->
  let m := max_bit_length Cv in let n := 2 ^ bit_length (layer_at Cv (total_depth Cv - 1)) in
  exists row p, if_evaluate (cheat Cv) (init_prover C m) = Ok (row, p) /\
    tab n row n (vals C (total_depth C - 1)) /\
    verify (cheat Cv) Cv rnd (init_betas m) (init_prover C m) = Ok true.
Proof.
  intros Cv C rnd CCv CC SA Hd Hb Hr m n. unfold m. rewrite (same_above_max Cv C CCv CC SA).
  destruct (cheat_accepted Cv C rnd CCv CC SA Hd Hb Hr) as (row & p & E & T & A). exists row, p.
  split; [exact E|]. split; [|exact A]. unfold n. destruct SA as [D L S]. rewrite D. rewrite L by lia. exact T.
Qed.
Print Assumptions C26_any_input_accepted.
Definition ex_lie : layered_circuit := Circuit
  (plain_layer [Gate 3 6 0; Gate 3 7 0; Gate 3 (-1) 0; Gate 2 0 0] 2 :: tl (circuit ex_circuit)) 4.
Lemma ex_lie_complete : complete_circuit ex_lie.
Proof.
  constructor; try (cbn; lia).
  - apply ex_cases4; cbn; lia.
  - apply ex_cases4; cbn; auto.
  - intros _. split; [reflexivity|]. apply ex_cases4; reflexivity.
  - intros i g Hi. cbn [ex_lie total_depth] in Hi. assert (E : i = 2 \/ i = 3) by lia.
    destruct E as [-> | ->]; intro Hg.
    + revert g Hg. apply ex_cases4; unfold proto_gate; cbn; lia.
    + cbn in Hg. destruct g as [|[|g]]; [| |lia]; unfold proto_gate; cbn; lia.
Qed.
Lemma ex_lie_above : same_above ex_circuit ex_lie.
Proof. constructor; try reflexivity. cbn [ex_circuit total_depth]. intros [|[|[|[|i]]]] Hi; try lia; reflexivity. Qed.
(** A run that accepts a wrong output, for every choice of randomness. *)
Theorem C26_soundness_refuted : exists Cv S (I : prover_if S) s0 row s1 out,
  complete_circuit Cv /\ if_evaluate I s0 = Ok (row, s1) /\
  let n := 2 ^ bit_length (layer_at Cv (total_depth Cv - 1)) in
  tab n row n out /\ (exists x, x < n /\ out x <> vals Cv (total_depth Cv - 1) x) /\
  forall rnd, (forall k, reduced (rnd k)) -> verify I Cv rnd (init_betas (max_bit_length Cv)) s0 = Ok true.
Proof.
  destruct (C26_any_input_accepted ex_circuit ex_lie ex_rnd ex_complete ex_lie_complete ex_lie_above ltac:(cbn; lia) ltac:(cbn; lia) ex_rnd_reduced)
    as (row & p & E & T & _).
  exists ex_circuit, prover, (cheat ex_circuit), (init_prover ex_lie (max_bit_length ex_circuit)), row, p, (vals ex_lie 3).
  split; [exact ex_complete|]. split; [exact E|]. split; [exact T|]. split.
  - exists 0. split; [cbn; lia|]. intro K. assert (K' : fz (vals ex_lie 3 0) = fz (vals ex_circuit (total_depth ex_circuit - 1) 0)) by (rewrite K; reflexivity).
    vm_compute in K'. discriminate.
  - intros rnd Hr.
    destruct (C26_any_input_accepted ex_circuit ex_lie rnd ex_complete ex_lie_complete ex_lie_above ltac:(cbn; lia) ltac:(cbn; lia) Hr)
      as (_ & _ & _ & _ & A). exact A.
Qed.
Print Assumptions C26_soundness_refuted.
(** What does hold: a prover with a wrong claim at a layer above the copy layer
    keeps a wrong claim at the next layer except for few challenges.
    [few n k E]: at most [k / P] of the vectors in [F^n] satisfy [E]. *)
Theorem C26_layer_sound : forall S (I : prover_if S) C m i st a be R0 R1 w,
  typed I -> complete_circuit C -> 1 < i < total_depth C ->
  (forall k, k < total_depth C -> bit_length (layer_at C k) <= m) ->
  vst C m i st a be R0 R1 ->
  rep (s_sum st) w -> w <> (a * mle R0 (vals C i) + be * mle R1 (vals C i))%F ->
  let b := bit_length (layer_at C (i - 1)) in
  few (b + (b + 2)) (2 * b + (2 * b + 1)) (fun v => exists rnd st', drawn rnd (s_pos st) v /\
    verify_layer I C rnd i st = Ok st' /\ true_claim C (i - 1) st').
Proof. intros S I C m i st a be R0 R1 w TI CC Hi Hm. exact (layer_sound I TI C m i CC Hi Hm st a be R0 R1 w). Qed.
Print Assumptions C26_layer_sound.
(** From the output down to layer 1: whatever the prover does, if the claimed
    output is wrong and the verifier evaluates its extension itself, then the
    run reaches the copy layer with a true claim only for few challenges. *)
Theorem C26_sound_above_copy_layer : forall S (I : prover_if S) C m s0 row s1 out B0,
  typed I -> trusted_V_res I -> complete_circuit C -> 2 <= total_depth C ->
  (forall k, k < total_depth C -> bit_length (layer_at C k) <= m) ->
  length (b_g0 B0) = 2 ^ m /\ length (b_g1 B0) = 2 ^ m /\ length (b_u B0) = 2 ^ m /\ length (b_v B0) = 2 ^ m ->
  if_evaluate I s0 = Ok (row, s1) ->
  let lo := bit_length (layer_at C (total_depth C - 1)) in
  tab (2 ^ lo) row (2 ^ lo) out ->
  (exists x, x < 2 ^ lo /\ out x <> vals C (total_depth C - 1) x) ->
  few (lo + (lo + n_challenges C (total_depth C - 2))) (lo + error C (total_depth C - 2)) (fun v =>
    exists st, verify_upper I C (stream v) B0 s0 = Ok st /\ true_claim C 1 st).
Proof. exact upper_sound. Qed.
Print Assumptions C26_sound_above_copy_layer.
Theorem C26_accepting_runs_pass : forall S (I : prover_if S) C rnd B0 s0, 2 <= total_depth C ->
  verify I C rnd B0 s0 = Ok true -> exists st, verify_upper I C rnd B0 s0 = Ok st.
Proof. exact verify_upper_runs. Qed.
Print Assumptions C26_accepting_runs_pass.
(** [few] is a proper bound: fewer than all vectors. *)
Theorem C26_few_is_small : forall n k E, few n k E -> (Z.of_nat k < P)%Z -> exists v, length v = n /\ ~ E v.
Proof. exact few_proper. Qed.
Print Assumptions C26_few_is_small.
