(** * The zero-knowledge protocol: C20, C22, C23, C27 to C31 and C40

    Statements; the proofs are in the Zk* files.  See PropsGkr for the notation
    ([rep], [reps], [tab], [returns]).  [comp R] lists [1 - r] for [r] in [R]. *)
From Coq Require Import ZArith List Bool Arith Lia Ring.
From Verif Require Import Limbs Field FieldProofs Fp Base ArithProofs MleSpec SpecGkr GkrMath Circuit
  FastProver FastVerifier Lazy TablesProofs FastProverProofs PhaseProofs FastVerifierProofs SpecVpd SpecTranscript Transcript
  TranscriptProofs Loader SpecLoader LoaderProofs LoadedProofs ZkEval ZkEvalProofs ZkProver ZkVerifier ZkPhaseProofs ZkPredProofs ZkOpenProofs
  ZkLinkProofs ZkVerifierProofs ZkComplete ZkCheat SpecZk ZkFacts ZkLoaded PropsGkr PropsTranscript PropsLoader.
Import ListNotations.
Open Scope nat_scope.

(** ** A circuit for the examples *)
(** Four inputs, the copy layer, a layer of two products (one block, repeated),
    and an output layer with a sum and a bit test. *)
Definition zex : layered_circuit := Circuit
  [plain_layer [Gate 3 2 0; Gate 3 5 0; Gate 3 7 0; Gate 2 0 0] 2;
   Layer [Gate 4 0 0; Gate 4 1 0; Gate 4 2 0; Gate 4 3 0] 2 false 2 1 2 1;
   Layer [Gate 1 0 1; Gate 1 2 3] 1 true 1 0 2 1;
   plain_layer [Gate 0 0 1; Gate 13 1 1] 1] 4.
Lemma zex_complete : zcomplete_circuit zex.
Proof.
  split; cbn [zex total_depth circuit length].
  - reflexivity.
  - lia.
  - reflexivity.
  - intros [|[|[|[|i]]]] H; cbn; lia.
  - intros [|[|[|[|g]]]] H; cbn in *; try lia; auto.
  - intros _. split; [|reflexivity]. split; [reflexivity|]. intros [|[|[|[|g]]]] H; cbn in *; try lia; reflexivity.
  - intros [|[|[|[|i]]]] g Hi Hg; try lia; destruct g as [|[|g]]; cbn in *; lia.
  - intros [|[|[|[|i]]]] Hi; try lia; intro Hp; cbn in Hp; try discriminate.
    exists 0, 1, 1. repeat (split; [cbn; lia|]). split.
    + intros [|j] Hj; cbn in Hj; [|lia]. cbn. repeat split; (lia || discriminate).
    + intros [|[|k]] [|j] Hk Hj; cbn in Hk, Hj; try lia; cbn; repeat split; reflexivity.
  - intros [|[|[|[|i]]]] H; cbn in *; lia.
  - cbn. lia.
Qed.

(** ** C20 (zk verifier) *)
(** The entries of two half tables for index [x] multiply to [w]. *)
Definition half_pair (f s : list fe) (h x : nat) (w : F) : Prop :=
  exists p q, nth_error f (x mod 2 ^ h) = Some p /\ nth_error s (x / 2 ^ h) = Some q /\ rep (fe_mul p q) w.
(** [beta_init] fills the tables of the layer, or of one block of it. *)
Theorem C20_zk_beta_init : forall m depth L Lm alpha beta r0 r1 ru rv o0 o1 ou ov BB a be R0 R1 Ru Rv,
  reps r0 R0 -> reps r1 R1 -> reps ru Ru -> reps rv Rv ->
  reps o0 (comp R0) -> reps o1 (comp R1) -> reps ou (comp Ru) -> reps ov (comp Rv) ->
  length R0 = bit_length L -> length R1 = bit_length L -> length Ru = bit_length Lm -> length Rv = bit_length Lm ->
  bit_length L <= m -> bit_length Lm <= m -> bsizes m BB -> rep alpha a -> rep beta be ->
  (depth = 1 -> is_parallel L = false) -> zpar_ok L Lm ->
  let lg := if is_parallel L then Z.to_nat (log_block_size L) else bit_length L in
  let lu := if is_parallel L then Z.to_nat (log_block_size Lm) else bit_length Lm in
  returns (zbeta_init depth L Lm alpha beta r0 r1 ru rv o0 o1 ou ov BB) (fun BB' =>
    let B := if is_parallel L then snd BB' else fst BB' in
    (forall x, x < 2 ^ lg -> half_pair (zb_g0f B) (zb_g0s B) (lg / 2) x (a * eq_weight (firstn lg R0) x)%F /\
                             half_pair (zb_g1f B) (zb_g1s B) (lg / 2) x (be * eq_weight (firstn lg R1) x)%F) /\
    (forall x, x < 2 ^ lu -> half_pair (zb_uf B) (zb_us B) (lu / 2) x (eq_weight (firstn lu Ru) x) /\
                             half_pair (zb_vf B) (zb_vs B) (lu / 2) x (eq_weight (firstn lu Rv) x))).
Proof.
  intros m depth L Lm alpha beta r0 r1 ru rv o0 o1 ou ov BB a be R0 R1 Ru Rv H0 H1 Hu Hv K0 K1 Ku Kv L0 L1 Lu Lv M1 M2 HB Ra Rb Hd HP lg lu.
  assert (Hl : lg <= bit_length L /\ lu <= bit_length Lm).
  { unfold lg, lu. destruct (is_parallel L) eqn:Ep; [|lia]. destruct (HP Ep) as (lb & b & lr & E1 & E2 & E3 & _ & E5 & _). rewrite E3, E5, !Nat2Z.id. lia. }
  eapply returns_conseq.
  - apply (zbeta_init_ok m depth L Lm alpha beta r0 r1 ru rv o0 o1 ou ov BB a be R0 R1 Ru Rv (comp R0) (comp R1) (comp Ru) (comp Rv));
      rewrite ?comp_length; assumption.
  - intros BB' [_ T]. cbv zeta. 
    assert (T' : ztabs (2 ^ (m / 2)) (2 ^ (m - m / 2)) lg lu (if is_parallel L then snd BB' else fst BB') a be R0 (comp R0) R1 (comp R1) Ru (comp Ru) Rv (comp Rv)).
    { unfold btables in T. unfold lg, lu. destruct (is_parallel L); exact T. }
    clear T. set (B := if is_parallel L then snd BB' else fst BB') in *.
    assert (G : forall f s n R c x, n <= length R -> eqtab (2 ^ (m / 2)) c (prs R (comp R) 0 (n / 2)) f ->
      eqtab (2 ^ (m - m / 2)) 1%F (prs R (comp R) (n / 2) (n - n / 2)) s -> x < 2 ^ n -> half_pair f s (n / 2) x (c * eq_weight (firstn n R) x)%F).
    { intros f s n R c x Hn T1 T2 Hx. destruct (two_weight_ok fe_weight _ _ f s n R (comp R) c x (or_introl eq_refl) T1 T2 Hx) as (y & E & Ry).
      unfold fe_weight in E. cbv zeta in E. apply bind_inv' in E. destruct E as (p & E1 & E). apply bind_inv' in E. destruct E as (q & E2 & E).
      injection E as <-. exists p, q. rewrite <- Nat.land_ones, Nat.ones_equiv, <- Nat.sub_1_r, <- Nat.shiftr_div_pow2.
      split; [apply rd_inv, E1|]. split; [apply rd_inv, E2|]. eapply rep_eq; [exact Ry|]. f_equal.
      transitivity (eqw (firstn n R) x); [|rewrite eqw_prod; reflexivity].
      rewrite <- (wt_point (firstn n R) n) by (apply firstn_length_le; exact Hn).
      unfold wt. f_equal. unfold prs. apply map_ext_in. intros k Hk. apply in_seq in Hk. rewrite Nat.add_0_r.
      assert (NF : forall l : list F, k < n -> nth k (firstn n l) 0%F = nth k l 0%F).
      { intros l Hkn. rewrite <- (firstn_skipn n l) at 2. destruct (Nat.lt_ge_cases k (length (firstn n l))) as [Q|Q].
        - rewrite app_nth1 by exact Q. reflexivity.
        - rewrite (nth_overflow (firstn n l)) by exact Q. rewrite app_nth2 by exact Q.
          rewrite firstn_length in Q. rewrite nth_overflow; [reflexivity|]. rewrite skipn_length, firstn_length. lia. }
      unfold comp. rewrite <- firstn_map, !NF by lia. reflexivity. }
    destruct T' as [T1 T2 T3 T4 T5 T6 T7 T8]. split; intros x Hx.
    + split; (eapply G; [lia| | |]; eassumption).
    + split.
      * replace (eq_weight (firstn lu Ru) x) with (1 * eq_weight (firstn lu Ru) x)%F by ring. eapply G; [lia| | |]; eassumption.
      * replace (eq_weight (firstn lu Rv) x) with (1 * eq_weight (firstn lu Rv) x)%F by ring. eapply G; [lia| | |]; eassumption.
Qed.
Print Assumptions C20_zk_beta_init.
Example C20_zk_example : let L := layer_at zex 2 in let Lm := layer_at zex 1 in
  is_parallel L = true /\ zpar_ok L Lm /\ bsizes 2 (init_zbetas 2, init_zbetas 2) /\ length [ofZ 3] = bit_length L /\ length [ofZ 3; ofZ 4] = bit_length Lm.
Proof.
  split; [reflexivity|]. split; [apply (zc_par zex zex_complete 2); cbn; lia|]. split; [apply init_bsizes|]. split; reflexivity.
Qed.

(** ** C22 (zk verifier) *)
Theorem C22_zk_predicates : forall m depth L Lm alpha beta r0 r1 ru rv o0 o1 ou ov BB a be R0 R1 Ru Rv, depth <> 1 ->
  reps r0 R0 -> reps r1 R1 -> reps ru Ru -> reps rv Rv ->
  reps o0 (comp R0) -> reps o1 (comp R1) -> reps ou (comp Ru) -> reps ov (comp Rv) ->
  length R0 = bit_length L -> length R1 = bit_length L -> length Ru = bit_length Lm -> length Rv = bit_length Lm ->
  bit_length L <= m -> bit_length Lm <= m -> bsizes m BB -> rep alpha a -> rep beta be ->
  zpar_ok L Lm -> 2 ^ bit_length L <= length (gates L) ->
  (forall k, k < 2 ^ bit_length L -> zproto_gate (2 ^ bit_length Lm) (gate_at L k)) ->
  let W := out_weight a be R0 R1 in
  returns (BB' <- zbeta_init depth L Lm alpha beta r0 r1 ru rv o0 o1 ou ov BB ;; predicates depth L Lm BB' r0 r1 ru rv) (fun ret =>
    (forall ty, In ty two_input_types -> exists x, nth_error ret (Z.to_nat ty) = Some x /\ rep x (zwiring L ty W Ru Rv)) /\
    (exists x, nth_error ret 5 = Some x /\ rep x (zwiring_range L W Ru Rv)) /\
    (exists x, nth_error ret 12 = Some x /\ rep x (zwiring_exp L W Ru Rv))).
Proof.
  intros m depth L Lm alpha beta r0 r1 ru rv o0 o1 ou ov BB a be R0 R1 Ru Rv Hd H0 H1 Hu Hv K0 K1 Ku Kv L0 L1 Lu Lv M1 M2 HB Ra Rb HP HG HW W.
  eapply returns_conseq; [apply (zpredicates_ok m depth L Lm alpha beta r0 r1 ru rv o0 o1 ou ov BB a be R0 R1 Ru Rv); assumption|].
  intros ret (Lr & _ & T). split; [|split].
  - intros ty Hty. assert (0 <= ty < 14)%Z by (unfold two_input_types in Hty; cbn [In] in Hty; lia).
    destruct (T (Z.to_nat ty) ltac:(lia)) as (x & E & Rx). exists x. split; [exact E|]. eapply rep_eq; [exact Rx|].
    rewrite Z2Nat.id by lia. apply zpred_two, Hty.
  - destruct (T 5 ltac:(lia)) as (x & E & Rx). exists x. split; [exact E|]. eapply rep_eq; [exact Rx|]. apply zpred_range.
  - destruct (T 12 ltac:(lia)) as (x & E & Rx). exists x. split; [exact E|]. eapply rep_eq; [exact Rx|]. apply zpred_exp.
Qed.
Print Assumptions C22_zk_predicates.
(** In the copy layer every predicate is reported as zero: it has no gate of these types. *)
Theorem C22_zk_copy_layer : forall L Lm BB r0 r1 ru rv W Ru Rv,
  (forall k, k < 2 ^ bit_length L -> gate_at L k = Gate 4 (Z.of_nat k) 0) ->
  returns (predicates 1 L Lm BB r0 r1 ru rv) (fun ret =>
    (forall ty, In ty two_input_types -> exists x, nth_error ret (Z.to_nat ty) = Some x /\ rep x (zwiring L ty W Ru Rv)) /\
    (exists x, nth_error ret 5 = Some x /\ rep x (zwiring_range L W Ru Rv)) /\
    (exists x, nth_error ret 12 = Some x /\ rep x (zwiring_exp L W Ru Rv))).
Proof.
  intros L Lm BB r0 r1 ru rv W Ru Rv HC. unfold predicates. cbn [Nat.eqb]. apply returns_ok.
  assert (Z : forall n, n < 14 -> nth_error (repeat (fe_of_int 0) gate_type_count) n = Some (fe_of_int 0)) by (intros n Hn; apply nth_error_repeat; exact Hn).
  assert (R0 : forall w, w = 0%F -> rep (fe_of_int 0) w) by (intros w ->; exact rep_i0).
  split; [|split].
  - intros ty Hty. assert (Hr : (0 <= ty < 14 /\ ty <> 4)%Z) by (unfold two_input_types in Hty; cbn [In] in Hty; lia).
    exists (fe_of_int 0). split; [apply Z; lia|]. apply R0. unfold zwiring. apply sumn_zero'. intros k Hk. cbv zeta. rewrite (HC k Hk). cbn [g_ty].
    destruct (Z.eqb_spec 4 ty) as [E|_]; [lia|]. cbn [ind]. ring.
  - exists (fe_of_int 0). split; [apply Z; lia|]. apply R0. unfold zwiring_range. apply sumn_zero'. intros k Hk. cbv zeta. rewrite (HC k Hk). cbn [g_ty Z.eqb Pos.eqb ind]. ring.
  - exists (fe_of_int 0). split; [apply Z; lia|]. apply R0. unfold zwiring_exp. apply sumn_zero'. intros k Hk. cbv zeta. rewrite (HC k Hk). cbn [g_ty Z.eqb Pos.eqb ind]. ring.
Qed.
Print Assumptions C22_zk_copy_layer.
Example C22_zk_example : let L := layer_at zex 2 in let Lm := layer_at zex 1 in
  zpar_ok L Lm /\ 2 ^ bit_length L <= length (gates L) /\
  (forall k, k < 2 ^ bit_length L -> zproto_gate (2 ^ bit_length Lm) (gate_at L k)) /\
  (forall k, k < 2 ^ bit_length Lm -> gate_at Lm k = Gate 4 (Z.of_nat k) 0) /\
  zwiring L 1 (fun k => ofZ (Z.of_nat k + 2)) [ofZ 3; 1%F] [ofZ 5; 1%F] = (ofZ 3 * (1 - ofZ 3) * ofZ 5)%F.
Proof.
  split; [apply (zc_par zex zex_complete 2); cbn; lia|]. split; [cbn; lia|].
  split; [intros k Hk; apply (zc_wires zex zex_complete 2 k); [cbn; lia|exact Hk]|].
  split; [intros k Hk; apply (zc_copy zex zex_complete); [cbn; lia|exact Hk]|].
  apply F_eq. vm_compute. reflexivity.
Qed.

(** ** C23 *)
(** [zpar_ok L Lm] with the flag set: the gates of [L] are one block of [2^lb] gates
    repeated [2^lr] times, each time shifted by the [2^b] wires of a block of [Lm],
    and the meta data say so. *)
Theorem C23_block_predicates : forall m depth L Lm alpha beta r0 r1 ru rv o0 o1 ou ov BB a be R0 R1 Ru Rv, depth <> 1 ->
  reps r0 R0 -> reps r1 R1 -> reps ru Ru -> reps rv Rv ->
  reps o0 (comp R0) -> reps o1 (comp R1) -> reps ou (comp Ru) -> reps ov (comp Rv) ->
  length R0 = bit_length L -> length R1 = bit_length L -> length Ru = bit_length Lm -> length Rv = bit_length Lm ->
  bit_length L <= m -> bit_length Lm <= m -> bsizes m BB -> rep alpha a -> rep beta be ->
  is_parallel L = true -> zpar_ok L Lm -> 2 ^ bit_length L <= length (gates L) ->
  (forall k, k < 2 ^ bit_length L -> zproto_gate (2 ^ bit_length Lm) (gate_at L k)) ->
  let run L := BB' <- zbeta_init depth L Lm alpha beta r0 r1 ru rv o0 o1 ou ov BB ;; predicates depth L Lm BB' r0 r1 ru rv in
  exists ret, length ret = 14 /\ run L = Ok ret /\ run (unblocked L) = Ok ret.
Proof.
  intros m depth L Lm alpha beta r0 r1 ru rv o0 o1 ou ov BB a be R0 R1 Ru Rv Hd H0 H1 Hu Hv K0 K1 Ku Kv L0 L1 Lu Lv M1 M2 HB Ra Rb Hp HP HG HW run.
  destruct (zpredicates_ok m depth L Lm alpha beta r0 r1 ru rv o0 o1 ou ov BB a be R0 R1 Ru Rv Hd H0 H1 Hu Hv K0 K1 Ku Kv L0 L1 Lu Lv M1 M2 HB Ra Rb HP HG HW)
    as (ret & E & Lr & _ & T).
  destruct (zpredicates_ok m depth (unblocked L) Lm alpha beta r0 r1 ru rv o0 o1 ou ov BB a be R0 R1 Ru Rv Hd H0 H1 Hu Hv K0 K1 Ku Kv L0 L1 Lu Lv M1 M2 HB Ra Rb
    ltac:(intro Q; discriminate Q) HG HW) as (ret' & E' & Lr' & _ & T').
  exists ret. split; [exact Lr|]. split; [exact E|]. rewrite <- (nth_error_ext _ ret' ret); [exact E'|].
  intro n. destruct (Nat.lt_ge_cases n 14) as [Hn|Hn].
  - destruct (T n Hn) as (x & -> & Rx). destruct (T' n Hn) as (y & -> & Ry). f_equal. apply (rep_inj _ _ _ Ry Rx).
  - rewrite !(proj2 (nth_error_None _ _)) by lia. reflexivity.
Qed.
Print Assumptions C23_block_predicates.
Example C23_example : let L := layer_at zex 2 in let Lm := layer_at zex 1 in
  is_parallel L = true /\ zpar_ok L Lm /\ 2 ^ bit_length L <= length (gates L) /\
  (forall k, k < 2 ^ bit_length L -> zproto_gate (2 ^ bit_length Lm) (gate_at L k)).
Proof. split; [reflexivity|]. split; [apply C22_zk_example|]. split; apply C22_zk_example. Qed.
(** Not covered: a range gate that ends at the last wire of its block.  The code masks
    the end of the range to the block and finds the empty range. *)
Definition sum_block : layer := Layer [Gate 5 0 2; Gate 5 2 4] 1 true 1 0 2 1.
Definition sum_below : layer := Layer [Gate 3 1 0; Gate 3 1 0; Gate 3 1 0; Gate 3 1 0] 2 false 2 1 2 1.
Definition sum_run (L : layer) : outcome (list fe) :=
  let z := fe_of_int 0 in let o := fe_of_int 1 in
  BB <- zbeta_init 2 L sum_below o z [z] [z] [o; z] [z; z] [o] [o] [z; o] [o; o] (init_zbetas 2, init_zbetas 2) ;;
  predicates 2 L sum_below BB [z] [z] [o; z] [z; z].
Theorem C23_range_end_refuted :
  (forall k, k < 2 -> zproto_gate 4 (gate_at sum_block k)) /\ zproto_gate 2 (gate_at sum_block 0) /\
  shifted 1 0 (gate_at sum_block 0) (gate_at sum_block 0) /\ shifted 1 1 (gate_at sum_block 0) (gate_at sum_block 1) /\
  exists ret ret' x y, sum_run sum_block = Ok ret /\ sum_run (unblocked sum_block) = Ok ret' /\
    nth_error ret 5 = Some x /\ nth_error ret' 5 = Some y /\ rep x 0%F /\ rep y 1%F /\
    zwiring_range sum_block (out_weight 1 0 [0%F] [0%F]) [1%F; 0%F] [0%F; 0%F] = 1%F.
Proof.
  split; [intros [|[|k]] Hk; cbn; lia|]. split; [cbn; lia|].
  split; [split; [reflexivity|intros _; split; reflexivity]|]. split; [split; [reflexivity|intros _; split; reflexivity]|].
  eexists _, _, _, _. split; [vm_compute; reflexivity|]. split; [vm_compute; reflexivity|].
  split; [reflexivity|]. split; [reflexivity|].
  split; [exact rep_i0|]. split; [exact rep_i1|]. apply F_eq. vm_compute. reflexivity.
Qed.
Print Assumptions C23_range_end_refuted.

(** ** C27 *)
(** [m_gmp]: the coefficients that were committed to; the announced sum is that of
    [rho] times the committed polynomial, over all 0/1 assignments of its
    [2n + 1] variables. *)
Theorem C27_mask_sum : forall fr zr z n rho r, stream_ok fr zr -> 1 <= n -> (Z.of_nat (2 * n + 1) < 2 ^ 31)%Z -> rep rho r ->
  returns (' (d, da, z1) <- generate_maskpoly_pre_rho fr zr z (n * 2 + 1) 2 ;;
           generate_maskpoly_after_rho (set_rho z1 rho) (n * 2 + 1) 2) (fun z' =>
    exists c, length c = 4 * n + 9 /\ m_gmp (z_m z') = map fz c /\
      rep (m_sumc (z_m z')) (hyper (2 * n + 1) (fun X => r * mask_poly (2 * n + 1) (fun i => nth i c 0) (fun i => nth i X 0)))%F).
Proof. exact mask_sum_ok. Qed.
Print Assumptions C27_mask_sum.
(** A stream of random elements. *)
Definition fr_ex (k : nat) : u512 := fe_of_int (Z.of_nat k mod 7).
Definition zr_ex (k : nat) : Z := (Z.of_nat k mod 11)%Z.
Lemma stream_ex : stream_ok fr_ex zr_ex.
Proof.
  assert (PB : (100 < P)%Z) by (vm_compute; reflexivity). split.
  - intro k. pose proof (Z.mod_pos_bound (Z.of_nat k) 7 ltac:(lia)) as B. unfold fr_ex.
    assert (Q : (0 <= Z.of_nat k mod 7 < W64)%Z) by (rewrite LimbsProofs.W64_val; lia).
    destruct (rep_of_int_small _ Q) as [W V]. split; [exact W|]. rewrite V. cbn [fz ofZ].
    rewrite Z.mod_small by lia. lia.
  - intro k. unfold red, zr_ex. pose proof (Z.mod_pos_bound (Z.of_nat k) 11 ltac:(lia)). lia.
Qed.
Example C27_example : stream_ok fr_ex zr_ex /\ (Z.of_nat (2 * 1 + 1) < 2 ^ 31)%Z /\ rep (fe_of_int 3) (ofZ 3) /\
  hyper 3 (fun X => ofZ 3 * mask_poly 3 (fun i => ofZ (Z.of_nat i)) (fun i => nth i X 0))%F = ofZ 1008.
Proof.
  split; [exact stream_ex|]. split; [cbn; lia|]. split; [apply rep_of_int|]. apply F_eq. vm_compute. reflexivity.
Qed.

(** ** C28 *)
(** [fr], [zr]: the random elements and integers the prover draws (masks, keys,
    blinding); [enc]: the encoding of group elements on the transcript; [aes]: the
    block cipher of the hash that the challenges come from.  The bound keeps the bit
    count of the transcript within an [int]. *)
Theorem C28_completeness : forall enc ec1 aes fr zr C, (forall x, length (enc x) = ec1) -> 0 < ec1 -> is_cipher aes ->
  stream_ok fr zr -> zcomplete_circuit C -> (Z.of_nat (zmessages C * msize ec1 + 512) < 2 ^ 31)%Z ->
  run_zk enc aes fr zr C = Ok true.
Proof. exact zk_complete. Qed.
Print Assumptions C28_completeness.
Definition enc_ex (x : F) : list Z := repeat (fz x mod 256)%Z 48.
Lemma enc_ex_length : forall x, length (enc_ex x) = 48.
Proof. intro x. apply repeat_length. Qed.
Example C28_example : (forall x, length (enc_ex x) = 48) /\ is_cipher toy /\ stream_ok fr_ex zr_ex /\ zcomplete_circuit zex /\
  (Z.of_nat (zmessages zex * msize 48 + 512) < 2 ^ 31)%Z.
Proof.
  split; [exact enc_ex_length|]. split; [exact toy_cipher|]. split; [exact stream_ex|]. split; [exact zex_complete|].
  vm_compute. reflexivity.
Qed.

(** ** C29 *)
(** Any list of field elements is accepted as the output of any circuit. *)
Theorem C29_any_output_accepted : forall enc ec1 aes fr zr C lie out, (forall x, length (enc x) = ec1) -> 0 < ec1 -> is_cipher aes ->
  stream_ok fr zr -> zcomplete_circuit C -> 2 <= total_depth C ->
  reps lie out -> length out = 2 ^ bit_length (layer_at C (total_depth C - 1)) ->
  (Z.of_nat (zmessages C * msize ec1 + 512) < 2 ^ 31)%Z ->
  let m := max_bit_length C in let I := liar fr zr (total_depth C) lie in
  (exists z, zi_evaluate I (init_zprover C m) = Ok (lie, z)) /\
  zverify enc (transcript_random aes) I C (init_zbetas m, init_zbetas m) (init_zprover C m) = Ok true.
Proof. exact liar_accepted. Qed.
Print Assumptions C29_any_output_accepted.
(** So for every circuit, whatever the challenges, a wrong output is accepted. *)
Theorem C29_soundness_refuted : forall enc ec1 aes fr zr C, (forall x, length (enc x) = ec1) -> 0 < ec1 -> is_cipher aes ->
  stream_ok fr zr -> zcomplete_circuit C -> 2 <= total_depth C -> (Z.of_nat (zmessages C * msize ec1 + 512) < 2 ^ 31)%Z ->
  let m := max_bit_length C in
  exists (I : zprover_if zprover) lie wrong out z z', zi_evaluate I (init_zprover C m) = Ok (lie, z) /\ reps lie wrong /\
    zk_evaluate (init_zprover C m) = Ok (out, z') /\
    (let n := 2 ^ bit_length (layer_at C (total_depth C - 1)) in
     length wrong = n /\ tab n out n (vals C (total_depth C - 1)) /\ forall k, k < n -> nth k wrong 0%F <> vals C (total_depth C - 1) k) /\
    zverify enc (transcript_random aes) I C (init_zbetas m, init_zbetas m) (init_zprover C m) = Ok true.
Proof.
  intros enc ec1 aes fr zr C Henc Hec1 Ha Hst CC Hd HK m.
  destruct (zevaluate_ok C (zcomplete_wf C CC)) as ([row cv] & EV & (Lc & Rows) & Ro). cbn [fst snd] in Rows, Ro.
  destruct (Rows (total_depth C - 1) ltac:(lia)) as (row' & Er & Tr). rewrite Ro in Er. injection Er as <-.
  set (n := 2 ^ bit_length (layer_at C (total_depth C - 1))) in *.
  set (wrong := map (fun k => (vals C (total_depth C - 1) k + 1)%F) (seq 0 n)).
  assert (Lw : length wrong = n) by (unfold wrong; rewrite map_length, seq_length; reflexivity).
  set (lie := map (fun x => fe_add x (fe_of_int 1)) row).
  assert (Hl : reps lie wrong).
  { unfold lie, wrong. destruct Tr as (Lr & _ & H). clear - Lr H. revert Lr H. generalize (vals C (total_depth C - 1)) as V. revert n.
    assert (G : forall n row (V : nat -> F), length row = n -> (forall i, i < n -> exists x, nth_error row i = Some x /\ rep x (V i)) ->
      Forall2 rep (map (fun x => fe_add x (fe_of_int 1)) row) (map (fun k => (V k + 1)%F) (seq 0 n))).
    { intros n l. revert n. induction l as [|x l IH]; intros [|n] V Ln H; try discriminate; [constructor|].
      cbn [seq map]. constructor.
      - destruct (H 0 ltac:(lia)) as (y & E & Ry). injection E as <-. apply rep_add; [exact Ry|exact rep_i1].
      - rewrite <- seq_shift, map_map. apply (IH n (fun k => V (S k))); [injection Ln as Ln; exact Ln|].
        intros i Hi. apply (H (S i)). lia. }
    intros n V Lr H. apply G; assumption. }
  destruct (liar_accepted enc ec1 aes fr zr C lie wrong Henc Hec1 Ha Hst CC Hd Hl Lw HK) as [(z & E1) E2].
  exists (liar fr zr (total_depth C) lie), lie, wrong, row, z, (set_p (init_zprover C m) (set_values (z_p (init_zprover C m)) cv)).
  split; [exact E1|]. split; [exact Hl|]. split.
  { unfold zk_evaluate. change (p_C (z_p (init_zprover C m))) with C. rewrite EV. reflexivity. }
  split; [|exact E2]. cbv zeta. fold n. split; [exact Lw|]. split; [exact Tr|].
  intros k Hk E. unfold wrong in E. rewrite (nth_indep _ 0%F (vals C (total_depth C - 1) 0 + 1)%F) in E by (rewrite map_length, seq_length; exact Hk).
  rewrite (map_nth (fun k => (vals C (total_depth C - 1) k + 1)%F)), seq_nth in E by exact Hk. cbn [Nat.add] in E.
  apply F1_neq_F0. transitivity ((vals C (total_depth C - 1) k + 1) - vals C (total_depth C - 1) k)%F; [ring|]. rewrite E. ring.
Qed.
Print Assumptions C29_soundness_refuted.
Example C29_example : zcomplete_circuit zex /\ 2 <= total_depth zex /\ (Z.of_nat (zmessages zex * msize 48 + 512) < 2 ^ 31)%Z /\
  length [ofZ 100; ofZ 200] = 2 ^ bit_length (layer_at zex (total_depth zex - 1)) /\ vals zex 3 0 = ofZ 10.
Proof.
  split; [exact zex_complete|]. split; [cbn; lia|]. split; [apply C28_example|]. split; [reflexivity|]. apply F_eq. vm_compute. reflexivity.
Qed.

(** ** C30 *)
Theorem C30_loaded_accepted : forall ct mt C mx, read_circuit ct mt = Ok (C, mx) ->
  exists D r, ct = circuit_tokens (d_layers D) ++ r /\ (Forall pow2_size (d_layers D) ->
    (Z.of_nat (total_depth C) < 1000000)%Z ->
    (forall i g, 2 <= i < total_depth C -> provable (gate_at (layer_at C i) g)) ->
    is_parallel (layer_at C 1) = false -> (forall i, 2 <= i < total_depth C -> zpar_ok (layer_at C i) (layer_at C (i - 1))) ->
    forall enc ec1 aes fr zr, (forall x, length (enc x) = ec1) -> 0 < ec1 -> is_cipher aes -> stream_ok fr zr ->
      (Z.of_nat (zmessages C * msize ec1 + 512) < 2 ^ 31)%Z -> run_zk enc aes fr zr C = Ok true).
Proof.
  intros ct mt C mx E. apply read_circuit_iff in E. destruct E as (D & r1 & r2 & -> & _ & H & -> & _).
  exists D, r1. split; [reflexivity|]. intros P Hd HG HP1 HP enc ec1 aes fr zr Henc Hec1 Ha Hst HK.
  apply (zk_complete enc ec1); try assumption. apply loaded_zcomplete; assumption.
Qed.
Print Assumptions C30_loaded_accepted.
(** Layer sizes that are not powers of two are never accepted. *)
Theorem C30_needs_power_of_two : forall D enc aes fr zr, desc_ok D -> run_zk enc aes fr zr (denotes D) = Ok true ->
  Forall pow2_size (d_layers D).
Proof. intros D enc aes fr zr H E. apply run_evaluates in E. destruct E as (x & E). apply (loaded_ok_pow2 D x H E). Qed.
Print Assumptions C30_needs_power_of_two.
Theorem C30_refuted : exists ct mt C mx, read_circuit ct mt = Ok (C, mx) /\
  forall enc aes fr zr, run_zk enc aes fr zr C <> Ok true.
Proof.
  destruct C17_refuted as (ct & mt & C & mx & E & U). exists ct, mt, C, mx. split; [exact E|].
  intros enc aes fr zr H. apply run_evaluates in H. destruct H as (x & H). rewrite U in H. discriminate.
Qed.
Print Assumptions C30_refuted.
(** Nor are gate types that the loader does not know. *)
Theorem C30_unknown_type_refuted : exists ct mt C mx, read_circuit ct mt = Ok (C, mx) /\
  (forall i, i < total_depth C -> length (gates (layer_at C i)) = 2 ^ bit_length (layer_at C i)) /\
  forall enc aes fr zr, run_zk enc aes fr zr C <> Ok true.
Proof.
  exists [2; 2; 3;0;5;0; 3;1;6;0;  2; 11;0;0;1; 0;1;0;1]%Z, [0;0;0;0;0; 0;0;0;0;0]%Z. eexists _, _.
  split; [vm_compute; reflexivity|]. split; [intros [|[|[|i]]] Hi; cbn in *; lia|].
  intros enc aes fr zr H. apply run_evaluates in H. destruct H as (x & H). vm_compute in H. discriminate.
Qed.
Print Assumptions C30_unknown_type_refuted.
Definition zero_meta : list Z := repeat 0%Z 15.
Example C30_example : exists C mx, read_circuit ex_file zero_meta = Ok (C, mx) /\ total_depth C = 4 /\ Forall pow2_size (d_layers ex_desc) /\
  ex_file = circuit_tokens (d_layers ex_desc) ++ [] /\
  (forall i g, 2 <= i < total_depth C -> provable (gate_at (layer_at C i) g)) /\
  is_parallel (layer_at C 1) = false /\ (forall i, 2 <= i < total_depth C -> zpar_ok (layer_at C i) (layer_at C (i - 1))) /\
  (Z.of_nat (zmessages C * msize 48 + 512) < 2 ^ 31)%Z.
Proof.
  eexists _, _. split; [vm_compute; reflexivity|]. split; [reflexivity|]. split; [apply C17_example|]. split; [reflexivity|].
  split; [|split; [reflexivity|split; [|vm_compute; reflexivity]]].
  - intros i g Hi. cbn [total_depth] in Hi.
    destruct i as [|[|[|[|i]]]]; try lia; unfold provable, layer_at, gate_at; cbn -[In];
      destruct g as [|[|[|[|g]]]]; cbn; try tauto; try (right; split; [reflexivity|cbv; discriminate]);
      destruct g; tauto.
  - intros i Hi. cbn [total_depth] in Hi. destruct i as [|[|[|[|i]]]]; try lia; intro H; discriminate H.
Qed.

(** ** C31 *)
(** Off the hypersurface where a coordinate is 0 or 1, all values are revealed
    equally often. *)
Theorem C31_one_value : forall V R s t, vanishing R <> 0%F ->
  same_size 6 (fun mk => masked_value V mk R = s) (fun mk => masked_value V mk R = t).
Proof. exact one_point_same_size. Qed.
Print Assumptions C31_one_value.
(** The two values of a layer together. *)
Theorem C31_two_values : forall V R R' s s' t t', vanishing R <> 0%F -> vanishing R' <> 0%F -> last R 0%F <> last R' 0%F ->
  same_size 6 (fun mk => masked_value V mk R = s /\ masked_value V mk R' = s')
              (fun mk => masked_value V mk R = t /\ masked_value V mk R' = t').
Proof. exact two_points_same_size. Qed.
Print Assumptions C31_two_values.
(** If the last coordinates agree, the mask cancels out of a combination of the two. *)
Theorem C31_same_last_refuted : forall V mk R R', last R 0%F = last R' 0%F ->
  (vanishing R' * masked_value V mk R - vanishing R * masked_value V mk R' = vanishing R' * mle R V - vanishing R * mle R' V)%F.
Proof. exact same_last_leak. Qed.
Print Assumptions C31_same_last_refuted.
Theorem C31_agrees_on_cube : forall n V mk x, 0 < n -> x < 2 ^ n -> masked_value V mk (bitvec n x) = V x.
Proof. exact masked_on_cube. Qed.
Print Assumptions C31_agrees_on_cube.
(** These are the values that the honest prover reveals in layer [d - 1 - k > 1], with
    six elements drawn in that layer as the mask. *)
Theorem C31_revealed : forall enc ec1 aes fr zr C k, (forall x, length (enc x) = ec1) -> 0 < ec1 -> is_cipher aes ->
  stream_ok fr zr -> zcomplete_circuit C -> (Z.of_nat (zmessages C * msize ec1 + 512) < 2 ^ 31)%Z ->
  let d := total_depth C in let m := max_bit_length C in let I := zhonest fr zr in let rng := transcript_random aes in
  1 + k < d - 1 ->
  exists dI dI2 st0 st st' ru rv, zverify_start enc rng I C (init_zbetas m, init_zbetas m) (init_zprover C m) = Ok (dI, dI2, st0) /\
    zverify_layers enc rng I C k st0 = Ok st /\ zverify_layer enc rng I C (d - 1 - k) st = Ok st' /\
    reps (t_r0 st') ru /\ reps (t_r1 st') rv /\
    let mk := drawn fr (z_pos (t_p st)) 6 in
    rep (p_v_u (z_p (t_p st'))) (masked_value (vals C (d - 1 - k - 1)) mk ru) /\
    rep (p_v_v (z_p (t_p st'))) (masked_value (vals C (d - 1 - k - 1)) mk rv).
Proof.
  intros enc ec1 aes fr zr C k Henc Hec1 Ha Hst CC HK d m I rng Hk.
  destruct (zk_revealed enc ec1 aes fr zr C k Henc Hec1 Ha Hst CC HK Hk) as (dI & dI2 & st0 & st & st' & E0 & E1 & E2 & ru & rv & R0 & R1 & _ & _ & Vu & Vv).
  exists dI, dI2, st0, st, st', ru, rv. split; [exact E0|]. split; [exact E1|]. split; [exact E2|]. split; [exact R0|]. split; [exact R1|].
  cbv zeta in Vu, Vv |- *. rewrite zp_vanishing in Vu, Vv. split; assumption.
Qed.
Print Assumptions C31_revealed.
(** In layer 1 the second value is not masked: the verifier overwrites its point with
    zeros, where the mask vanishes, and receives the first value of the input. *)
Theorem C31_first_input_refuted : forall enc ec1 aes fr zr C, (forall x, length (enc x) = ec1) -> 0 < ec1 -> is_cipher aes ->
  stream_ok fr zr -> zcomplete_circuit C -> (Z.of_nat (zmessages C * msize ec1 + 512) < 2 ^ 31)%Z ->
  let d := total_depth C in let m := max_bit_length C in let I := zhonest fr zr in let rng := transcript_random aes in
  1 < d ->
  exists dI dI2 st0 st st', zverify_start enc rng I C (init_zbetas m, init_zbetas m) (init_zprover C m) = Ok (dI, dI2, st0) /\
    zverify_layers enc rng I C (d - 2) st0 = Ok st /\ zverify_layer enc rng I C 1 st = Ok st' /\
    rep (p_v_v (z_p (t_p st'))) (vals C 0 0).
Proof. exact zk_first_input. Qed.
Print Assumptions C31_first_input_refuted.
Example C31_example : vanishing [ofZ 3; ofZ 4] <> 0%F /\ vanishing [ofZ 5; ofZ 6] <> 0%F /\ last [ofZ 3; ofZ 4] 0%F <> last [ofZ 5; ofZ 6] 0%F /\
  1 + 0 < total_depth zex - 1 /\ zcomplete_circuit zex /\ vals zex 0 0 = ofZ 2 /\
  masked_value (vals zex 0) [1%F; ofZ 2; ofZ 3; ofZ 4; ofZ 5; ofZ 6] [ofZ 3; ofZ 4] = ofZ 10495.
Proof.
  assert (NZ : forall a : F, fz a <> 0%Z -> a <> 0%F) by (intros a H E; apply H; rewrite E; reflexivity).
  split; [apply NZ; vm_compute; discriminate|]. split; [apply NZ; vm_compute; discriminate|].
  split; [intro E; apply (f_equal fz) in E; vm_compute in E; discriminate|]. split; [cbn; lia|]. split; [exact zex_complete|].
  split; apply F_eq; vm_compute; reflexivity.
Qed.

(** ** C40 (challenges of a layer) *)
(** Two provers, with the same circuit and transcript at the start of a layer: if their
    commitments for the layer agree, they face the same points, whatever round
    polynomials they send. *)
Theorem C40_round_polynomials_refuted : forall S S' enc rng (I : zprover_if S) (I' : zprover_if S') C i st st1 st' st1',
  t_tr st = t_tr st' -> layer_commits I C i st = layer_commits I' C i st' ->
  zverify_layer enc rng I C i st = Ok st1 -> zverify_layer enc rng I' C i st' = Ok st1' ->
  t_r0 st1 = t_r0 st1' /\ t_r1 st1 = t_r1 st1'.
Proof.
  intros S S' enc rng I I' C i st st1 st' st1' Et Ec H H'.
  destruct (layer_points_ok _ _ _ _ _ _ _ _ H) as (cs & E1 & E2). destruct (layer_points_ok _ _ _ _ _ _ _ _ H') as (cs' & E1' & E2').
  rewrite Ec, E1' in E1. injection E1 as <-. rewrite Et, E2' in E2. injection E2 as -> ->. split; reflexivity.
Qed.
Print Assumptions C40_round_polynomials_refuted.
(** They are this function of the transcript and the commitments. *)
Theorem C40_layer_points : forall S enc rng (I : zprover_if S) C i st st1, zverify_layer enc rng I C i st = Ok st1 ->
  exists cs, layer_commits I C i st = Ok cs /\ layer_points enc rng C i (t_tr st) cs = Ok (t_r0 st1, t_r1 st1).
Proof. exact layer_points_ok. Qed.
Print Assumptions C40_layer_points.
(** A layer that is accepted. *)
Example C40_zk_example : exists st st1,
  zverify_layer enc_ex (transcript_random toy) (zhonest fr_ex zr_ex) zex 3 st = Ok st1.
Proof.
  destruct C28_example as (A & B & C & D & E).
  destruct (zk_revealed enc_ex 48 toy fr_ex zr_ex zex 0 A ltac:(lia) B C D E ltac:(cbn; lia)) as (dI & dI2 & st0 & st & st' & _ & _ & H & _).
  exists st, st'. exact H.
Qed.
