(** * Files in order, from the text to the verdict of the programs of src/traditional_gkr *)
From Coq Require Import ZArith List Bool Arith Lia Permutation.
From Verif Require Import Limbs LimbsProofs Field FieldProofs Fp Base Circuit MleSpec FastProver Lazy TablesProofs FastProverProofs PhaseProofs
  FastVerifier FastVerifierProofs Loader SpecLoader LoaderProofs LoadedProofs FastLoader SpecFastLoader FastLoaderProofs FastLoadedProofs
  TradProver TradVerifier TradProofs TradPhase TradVerifierProofs BcProver BcVerifier BcPhase0 BcPhase BcVerifierProofs
  CompilerWiring TradLoader SpecTradLoader TradLoaderProofs.
Import ListNotations.
Open Scope nat_scope.

Lemma trad_layer_at : forall L i, i < length L -> layer_at (trad_file_circuit L) i = trad_file_layer (nth i L []).
Proof.
  intros L i H. unfold layer_at, trad_file_circuit. cbn [circuit].
  rewrite (nth_indep _ _ (trad_file_layer [])) by (rewrite map_length; exact H). apply map_nth.
Qed.
Lemma trad_gate_at : forall l k, (exists f, In f l /\ nth k (trad_gates l) (Gate 2 0 0) = trad_file_gate f) \/ nth k (trad_gates l) (Gate 2 0 0) = Gate 2 0 0.
Proof.
  intros l k. unfold trad_gates. destruct (nth_error l k) as [f|] eqn:E.
  - left. exists f. split; [eapply nth_error_In, E|]. assert (k < length l) by (apply nth_error_Some; congruence).
    rewrite app_nth1 by (rewrite map_length; assumption). apply nth_error_nth. apply map_nth_error, E.
  - right. apply nth_error_None in E. rewrite app_nth2 by (rewrite map_length; exact E). rewrite map_length.
    destruct (Nat.eqb (length l) 1); destruct (k - length l) as [|[|q]]; reflexivity.
Qed.
Lemma trad_gates_positions : forall l, 1 <= length l -> length (trad_gates l) = positions l.
Proof. intros l H. rewrite trad_gates_length. unfold positions, pad. destruct (Nat.eqb_spec (length l) 1); lia. Qed.
Lemma trad_rows : forall s L n, trad_upper s n L -> Forall (fun l => pow2_size l /\ (Z.of_nat (length l) <= 2 ^ 30)%Z) L.
Proof. intros s. induction L as [|l L IH]; intros n H; constructor; destruct H as (A & B & _ & U); [split; assumption|]. eapply IH, U. Qed.
Lemma trad_upper_nth : forall s L l i, trad_upper s (positions l) L -> i < length L ->
  Forall (trad_gate_ok s (positions (nth i (l :: L) []))) (nth i L []).
Proof.
  intros s. induction L as [|x L IH]; intros l i U H; cbn [length] in H; [lia|]. destruct U as (_ & _ & F & U).
  destruct i; [exact F|]. cbn [nth]. apply (IH x i U). lia.
Qed.
Section File.
Variables (strict : bool) (l : list fgate) (L : list (list fgate)).
Hypothesis T : trad_file strict (l :: L).
Let C := trad_file_circuit (l :: L).
Lemma tf_rows : forall i, i < length (l :: L) -> pow2_size (nth i (l :: L) []) /\ (Z.of_nat (length (nth i (l :: L) [])) <= 2 ^ 30)%Z.
Proof.
  intros i Hi. destruct T as (P & B & _ & U). pose proof (trad_rows _ _ _ U) as F. rewrite Forall_forall in F.
  destruct i; [split; assumption|]. cbn [nth length] in *. apply F, nth_In. lia.
Qed.
Lemma tf_pos : forall i, i < length (l :: L) -> 1 <= length (nth i (l :: L) []).
Proof. intros i Hi. destruct (tf_rows i Hi) as [[k ->] _]. apply pow2_pos. Qed.
Lemma tf_bits : forall i, i < length (l :: L) -> 2 ^ bit_length (layer_at C i) = positions (nth i (l :: L) []).
Proof.
  intros i Hi. unfold C. rewrite trad_layer_at by exact Hi. unfold trad_file_layer. cbn [plain_layer bit_length]. apply pow2_least, (tf_rows i Hi).
Qed.
Lemma tf_bits_pos : forall i, i < length (l :: L) -> 0 < bit_length (layer_at C i).
Proof. intros i Hi. unfold C. rewrite trad_layer_at by exact Hi. unfold trad_file_layer. cbn [plain_layer bit_length]. unfold least_bits. lia. Qed.
Lemma tf_gates : forall i, i < length (l :: L) -> 2 ^ bit_length (layer_at C i) <= length (gates (layer_at C i)).
Proof.
  intros i Hi. rewrite tf_bits by exact Hi. unfold C. rewrite trad_layer_at by exact Hi. unfold trad_file_layer. cbn [plain_layer gates].
  rewrite trad_gates_positions by (apply tf_pos, Hi). lia.
Qed.
Lemma tf_input : forall g, g_ty (gate_at (layer_at C 0) g) = 3%Z \/ (g_ty (gate_at (layer_at C 0) g) = 2%Z /\ g_u (gate_at (layer_at C 0) g) = 0%Z).
Proof.
  intro g. unfold C. rewrite trad_layer_at by (cbn [length]; lia). cbn [nth]. unfold gate_at, trad_file_layer. cbn [plain_layer gates].
  destruct (trad_gate_at l g) as [(f & If & ->)| ->]; [|right; split; reflexivity].
  destruct T as (_ & _ & I & _). rewrite Forall_forall in I. destruct (I f If) as (_ & _ & K). exact K.
Qed.
Lemma tf_wires : forall i g, 0 < i < length (l :: L) ->
  trad_gate (2 ^ bit_length (layer_at C (i - 1))) (gate_at (layer_at C i) g) /\
  (strict = true -> bc_gate (2 ^ bit_length (layer_at C (i - 1))) (gate_at (layer_at C i) g)).
Proof.
  intros i g Hi. rewrite tf_bits by lia. pose proof (tf_bits (i - 1) ltac:(lia)) as PB.
  assert (P0 : 0 < positions (nth (i - 1) (l :: L) [])) by (rewrite <- PB; apply pow2_pos).
  unfold C. rewrite trad_layer_at by lia. unfold gate_at, trad_file_layer. cbn [plain_layer gates].
  destruct T as (_ & _ & _ & U). pose proof (trad_upper_nth strict L l (i - 1) U ltac:(cbn [length] in Hi; lia)) as F. rewrite Forall_forall in F.
  replace (nth i (l :: L) []) with (nth (i - 1) L []) by (destruct i; [lia|]; cbn [nth Nat.sub]; rewrite Nat.sub_0_r; reflexivity).
  destruct (trad_gate_at (nth (i - 1) L []) g) as [(f & If & ->)| ->].
  - destruct (F f If) as (_ & _ & Ty & W). unfold trad_gate, bc_gate, trad_file_gate. cbn [g_ty g_u g_v]. cbn [In] in Ty. split.
    + destruct Ty as [E|[E|[E|[]]]]; rewrite <- E in *; try exact I; apply W; left; discriminate.
    + intro S. split; [|apply W; right; exact S]. intuition congruence.
  - split; [exact I|]. intros _. unfold bc_gate. cbn [g_ty g_u g_v]. split; [auto|]. lia.
Qed.
Lemma tf_trad : length (l :: L) <= 1000 -> trad_circuit C.
Proof.
  intro H. constructor.
  - unfold C, trad_file_circuit. cbn [total_depth circuit]. rewrite map_length. reflexivity.
  - unfold C, trad_file_circuit. cbn [total_depth length]. lia.
  - unfold C, trad_file_circuit. cbn [total_depth]. lia.
  - exact tf_gates.
  - intros g _. apply tf_input.
  - intros i Hi. apply tf_bits_pos. unfold C, trad_file_circuit in Hi. cbn [total_depth] in Hi. lia.
  - intros i g Hi _. apply tf_wires, Hi.
Qed.
Lemma tf_blocks : strict = true -> forall n k, 0 < k -> 2 ^ k <= n -> bc_circuit (copies C n k).
Proof.
  intros St n k Hk Hn. assert (N : 0 < n) by (pose proof (pow2_pos k); lia).
  assert (B : forall b, b < n -> block (copies C n k) b = C).
  { intros b Hb. unfold block, copies. cbn [blocks]. apply (nth_error_nth _ _ _ (nth_error_repeat C Hb)). }
  assert (D : total_depth C = length (l :: L)) by reflexivity.
  constructor; unfold copies; cbn [blocks total_blocks total_blocks_binary_length]; fold (copies C n k); rewrite ?(B 0 N).
  - apply repeat_length.
  - exact Hn.
  - exact Hk.
  - rewrite D. cbn [length]. lia.
  - intros b Hb. rewrite (B b Hb). split; [reflexivity|]. unfold C, trad_file_circuit. cbn [circuit]. rewrite map_length. reflexivity.
  - intros b i Hb _. rewrite (B b Hb). reflexivity.
  - intros b Hb. rewrite (B b Hb). reflexivity.
  - intros b i Hb Hi. rewrite (B b Hb). apply tf_gates. exact Hi.
  - intros b g Hb _. rewrite (B b Hb). destruct (tf_input g) as [E|[E _]]; auto.
  - intros i Hi. apply tf_bits_pos. rewrite D in Hi. lia.
  - intros i g Hi _. apply tf_wires; assumption.
Qed.
Lemma tf_tokens : Forall (fun x => 1 <= length x /\ (Z.of_nat (length x) <= 2 ^ 30)%Z /\ Forall int_gate x) (l :: L).
Proof.
  apply Forall_forall. intros x Ix. apply (In_nth _ _ []) in Ix. destruct Ix as (i & Hi & <-).
  split; [apply tf_pos, Hi|]. split; [apply tf_rows, Hi|]. apply Forall_forall. intros f If. destruct T as (_ & _ & I & U).
  destruct i.
  - cbn [nth] in If. rewrite Forall_forall in I. destruct (I f If) as (Iu & Iv & Ty). unfold int_gate. split; [|split; assumption].
    unfold is_int. destruct Ty as [->|[-> _]]; lia.
  - cbn [nth length] in *. pose proof (trad_upper_nth strict L l i U ltac:(lia)) as F. rewrite Forall_forall in F.
    destruct (F f If) as (Iu & Iv & Ty & _). unfold int_gate. split; [|split; assumption].
    unfold is_int. cbn [In] in Ty. destruct Ty as [<-|[<-|[<-|[]]]]; lia.
Qed.
End File.
Lemma trad_loads : forall s L r, trad_file s L -> (Z.of_nat (length L) < 2 ^ 31)%Z ->
  tread_circuit (fcircuit_tokens (in_order L) ++ r) = Ok (trad_file_circuit L, Z.of_nat (fast_bits L)) /\
  max_bit_length (trad_file_circuit L) = fast_bits L.
Proof.
  intros s [|l L] r H Hd; [contradiction|]. split; [apply trad_in_order; [discriminate|eapply tf_tokens, H|exact Hd]|].
  unfold max_bit_length, fast_bits, trad_file_circuit, trad_file_layer. cbn [circuit]. rewrite map_map. reflexivity.
Qed.

(** ** The programs *)
Lemma trad_main_iff : forall n t rnd, trad_main n t rnd = Ok true <->
  (0 <= n)%Z /\ forall i, (Z.of_nat i < n)%Z -> exists C mx, tread_circuit t = Ok (C, mx) /\ run_trad C (rnd i) = Ok true.
Proof.
  intros n t rnd. unfold trad_main. destruct (Z.ltb_spec n 0) as [N|N]; [split; [discriminate|lia]|].
  set (step := fun (i : nat) (final : bool) => ' (C, _) <- tread_circuit t ;; result <- run_trad C (rnd i) ;; Ok (final && result)).
  assert (ST : forall i b b', step i b = Ok b' <-> exists C mx x, tread_circuit t = Ok (C, mx) /\ run_trad C (rnd i) = Ok x /\ b' = b && x).
  { intros i b b'. unfold step. split.
    - intro E. apply bind_inv in E. destruct E as ([C mx] & E1 & E). apply bind_inv in E. destruct E as (rs & E2 & E). apply Ok_inj in E.
      exists C, mx, rs. auto.
    - intros (C & mx & x & E1 & E2 & ->). rewrite E1, bind_ok, E2. reflexivity. }
  assert (G : forall m s b, for_ m s step b = Ok true <->
     b = true /\ forall i, s <= i < s + m -> exists C mx, tread_circuit t = Ok (C, mx) /\ run_trad C (rnd i) = Ok true).
  { clearbody step. induction m; intros s b.
    - cbn [for_]. split; [intro E; apply Ok_inj in E; split; [exact E|intros; lia]|]. intros [-> _]. reflexivity.
    - rewrite for_S. split.
      + intro H. apply bind_inv in H. destruct H as (b' & E & H). apply ST in E. destruct E as (C & mx & rs & E1 & E2 & ->).
        apply IHm in H. destruct H as [K H].
        apply andb_true_iff in K. destruct K as [K1 K2]. split; [exact K1|]. intros i Hi. destruct (Nat.eq_dec i s) as [->|Ne].
        * exists C, mx. subst rs. auto.
        * apply H. lia.
      + intros [-> H]. destruct (H s ltac:(lia)) as (C & mx & E1 & E2).
        assert (E : step s true = Ok true) by (apply ST; exists C, mx, true; auto). rewrite E, bind_ok.
        apply IHm. split; [reflexivity|]. intros i Hi. apply H. lia. }
  rewrite G. split.
  - intros [_ H]. split; [exact N|]. intros i Hi. apply H. lia.
  - intros [_ H]. split; [reflexivity|]. intros i Hi. apply H. lia.
Qed.

(** The announced outputs have [total_blocks] rows, and [V_res] reads [2^k] of them. *)
Lemma bc_evaluate_length : forall p row p' C0 L, bc_evaluate p = Ok (row, p') -> rd (blocks (b_C p)) 0 = Ok C0 ->
  rd (circuit C0) (total_depth C0 - 1) = Ok L -> length row = total_blocks (b_C p) * 2 ^ bit_length L.
Proof.
  intros p row p' C0 L H E0 EL. unfold bc_evaluate in H. rewrite E0, bind_ok in H.
  apply bind_inv in H. destruct H as (cv & _ & H). rewrite EL, bind_ok in H.
  apply bind_inv in H. destruct H as (res & E & H). apply Ok_inj in H. injection H as <- _.
  set (N := total_blocks (b_C p) * 2 ^ bit_length L) in *.
  apply (for_inv _ _ (fun _ r => length r = N)) in E; [exact E|apply repeat_length|].
  intros i r r' _ Hr E1. apply (for_inv _ _ (fun _ r => length r = N)) in E1; [exact E1|exact Hr|].
  intros j r1 r2 _ Hr1 E2. apply bind_inv in E2. destruct E2 as (rows & _ & E2). apply bind_inv in E2. destruct E2 as (rw & _ & E2).
  apply bind_inv in E2. destruct E2 as (x & _ & E2). apply wr_iff in E2. destruct E2 as [_ ->]. rewrite upd_length. exact Hr1.
Qed.
Lemma copy_n_short : forall raw n x, copy_n raw n = Ok x -> n <= length raw.
Proof.
  intros raw n x H. unfold copy_n in H. destruct n as [|n]; [lia|].
  destruct (for_ran _ _ _ _ _ _ n H ltac:(lia)) as (s1 & s2 & E). apply bind_inv in E. destruct E as (y & E & _).
  unfold rd in E. destruct (nth_error raw (0 + n)) eqn:Q; [|discriminate]. assert (0 + n < length raw) by (apply nth_error_Some; congruence). lia.
Qed.
Lemma bc_too_few : forall n k t rnd, (n < 2 ^ k)%Z -> bc_main n k t rnd <> Ok true.
Proof.
  intros n k t rnd Hk H. unfold bc_main in H. apply bind_inv in H. destruct H as ([B mx] & E & H).
  apply bread_circuit_iff in E. destruct E as (Hn & Hk0 & Hmx & C & EC & ->).
  unfold run_bc in H. apply bind_inv in H. destruct H as (C0 & E0 & H).
  unfold bc_verify, bc_verify_with in H. set (p0 := init_bprover _ _ _) in H.
  destruct (bc_verify_body bc_honest (asked bc_honest) (copies C (Z.to_nat n) (Z.to_nat k)) rnd (init_betas (max_bit_length C0)) p0) as [v| | | | | |] eqn:V; try discriminate.
  clear H. unfold bc_verify_body in V. apply bind_inv in V. destruct V as ([row p1] & Ev & V). rewrite E0, bind_ok in V.
  apply bind_inv in V. destruct V as (L & EL & V). cbv zeta in V.
  destruct (generate_randomness rnd 0 (bit_length L)) as [r_0 pos0]. destruct (generate_randomness rnd pos0 _) as [r_b pos1].
  destruct (generate_randomness rnd pos1 (bit_length L)) as [r_1 pos2].
  apply bind_inv in V. destruct V as (o_0 & _ & V). apply bind_inv in V. destruct V as (o_1 & _ & V). apply bind_inv in V. destruct V as (o_b & _ & V).
  apply bind_inv in V. destruct V as ([a_0 p2] & EV & _). cbn [bc_honest bi_V_res] in EV. apply bind_inv in EV. destruct EV as (x & EV & _).
  unfold bc_V_res in EV. apply bind_inv in EV. destruct EV as (out & EV & _). apply copy_n_short in EV.
  cbn [bc_honest bi_evaluate] in Ev. pose proof (bc_evaluate_length p0 row p1 C0 L Ev E0 EL) as LR. rewrite LR in EV.
  unfold p0, copies in EV. cbn [init_bprover b_C total_blocks total_blocks_binary_length] in EV.
  rewrite Nat.pow_add_r, (Nat.mul_comm (2 ^ bit_length L)) in EV. apply Nat.mul_le_mono_pos_r in EV; [|apply pow2_pos].
  assert (Z.to_nat n < 2 ^ Z.to_nat k); [|lia].
  apply Nat2Z.inj_lt. rewrite Nat2Z.inj_pow, !Z2Nat.id by lia. exact Hk.
Qed.

(** A prover that announces other values for the blocks after the first [2^k]. *)
Definition bc_extra (f : list fe -> list fe) : bprover_if bprover := {|
  bi_evaluate := fun p => ' (row, p) <- bc_evaluate p ;; Ok (f row, p);
  bi_V_res := bi_V_res bc_honest;
  bi_sumcheck_init := bi_sumcheck_init bc_honest;
  bi_phase0_init := bi_phase0_init bc_honest;
  bi_phase0_update := bi_phase0_update bc_honest;
  bi_phase1_init := bi_phase1_init bc_honest;
  bi_phase1_update := bi_phase1_update bc_honest;
  bi_phase2_init := bi_phase2_init bc_honest;
  bi_phase2_update := bi_phase2_update bc_honest;
  bi_finalize := bi_finalize bc_honest;
  bi_beta_blk_val := bi_beta_blk_val bc_honest |}.
Lemma copy_n_ext : forall n a b, (forall i, i < n -> nth_error a i = nth_error b i) -> copy_n a n = copy_n b n.
Proof.
  intros n a b H. unfold copy_n. generalize (repeat fe_zero n) as out.
  assert (G : forall m s out, s + m <= n -> for_ m s (fun i out => x <- rd a i ;; wr out i x) out = for_ m s (fun i out => x <- rd b i ;; wr out i x) out).
  { induction m; intros s out Hs; [reflexivity|]. rewrite !for_S. unfold rd at 1 3. rewrite (H s) by lia.
    destruct (nth_error b s) as [x|]; cbn [bind]; [|reflexivity].
    destruct (wr out s x) as [out'| | | | | |]; cbn [bind]; try reflexivity. apply IHm. lia. }
  intro out. apply G. lia.
Qed.
Lemma bc_V_res_ext : forall o r ob rb a b n nb size, (forall i, i < size -> nth_error a i = nth_error b i) ->
  bc_V_res o r ob rb a n nb size = bc_V_res o r ob rb b n nb size.
Proof. intros o r ob rb a b n nb size H. unfold bc_V_res. rewrite (copy_n_ext size a b H). reflexivity. Qed.
Lemma bc_extra_layer : forall f factor C0 k rnd i st, bc_layer_with (bc_extra f) factor C0 k rnd i st = bc_layer_with bc_honest factor C0 k rnd i st.
Proof.
  intros. unfold bc_layer_with, bc_extra.
  cbn [bi_sumcheck_init bi_phase0_init bi_phase0_update bi_phase1_init bi_phase1_update bi_phase2_init bi_phase2_update bi_finalize]. reflexivity.
Qed.
Lemma for_body_ext : forall S n s (b b' : nat -> S -> outcome S) x, (forall i y, b i y = b' i y) -> for_ n s b x = for_ n s b' x.
Proof.
  intros S n. induction n; intros s b b' x H; [reflexivity|]. rewrite !for_S, H. destruct (b' s x); cbn [bind]; try reflexivity. apply IHn, H.
Qed.
(** The verifier does not look at them. *)
Lemma bc_extra_same : forall factor C rnd B0 p tail, bc_circuit C -> b_C p = C ->
  let d := total_depth (block C 0) in
  let size := 2 ^ total_blocks_binary_length C * 2 ^ bit_length (layer_at (block C 0) (d - 1)) in
  bc_verify_with (bc_extra (fun row => firstn size row ++ tail)) factor C rnd B0 p = bc_verify_with bc_honest factor C rnd B0 p.
Proof.
  intros factor C rnd B0 p tail CC Ep. subst C. set (C := b_C p) in *. intros d size. unfold bc_verify_with, bc_verify_body. cbn [bi_evaluate bc_extra bc_honest].
  destruct (bc_evaluate p) as [[row p1]| | | | | |] eqn:Ev; cbn [bind]; [|reflexivity..].
  assert (E0 : rd (blocks C) 0 = Ok (block C 0)) by (unfold rd; rewrite (block_rd C CC 0 (some_block C CC)); reflexivity).
  assert (EL : rd (circuit (block C 0)) (d - 1) = Ok (layer_at (block C 0) (d - 1))).
  { unfold rd. rewrite (block_wf C CC 0 (d - 1) (some_block C CC)); [reflexivity|]. pose proof (bcc_pos C CC). unfold d. lia. }
  rewrite E0. cbn [bind]. fold d. rewrite EL. cbn [bind].
  assert (LR : size <= length row).
  { rewrite (bc_evaluate_length p row p1 _ _ Ev E0 EL). apply Nat.mul_le_mono_r, (bcc_count C CC). }
  set (lo := bit_length (layer_at (block C 0) (d - 1))) in *. set (k := total_blocks_binary_length C) in *.
  destruct (generate_randomness rnd 0 lo) as [r_0 pos0]. destruct (generate_randomness rnd pos0 k) as [r_b pos1].
  destruct (generate_randomness rnd pos1 lo) as [r_1 pos2].
  destruct (one_minus r_0 lo) as [o_0| | | | | |]; cbn [bind]; [|reflexivity..].
  destruct (one_minus r_1 lo) as [o_1| | | | | |]; cbn [bind]; [|reflexivity..].
  destruct (one_minus r_b k) as [o_b| | | | | |]; cbn [bind]; [|reflexivity..].
  cbn [bi_V_res bc_extra bc_honest].
  rewrite (bc_V_res_ext o_0 r_0 o_b r_b (firstn size row ++ tail) row lo k (2 ^ (lo + k))).
  - destruct (bc_V_res o_0 r_0 o_b r_b row lo k (2 ^ (lo + k))) as [a_0| | | | | |]; cbn [bind]; [|reflexivity..].
    erewrite for_body_ext; [reflexivity|]. intros i y. apply bc_extra_layer.
  - intros i Hi. rewrite Nat.pow_add_r, (Nat.mul_comm (2 ^ lo)) in Hi. fold size in Hi.
    rewrite nth_error_app1 by (rewrite firstn_length_le; assumption).
    rewrite <- (firstn_skipn size row) at 2. rewrite nth_error_app1 by (rewrite firstn_length_le; assumption). reflexivity.
Qed.
