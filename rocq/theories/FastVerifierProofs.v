(** * The fast-track verifier: predicates (C22), and completeness of the protocol (C25) *)
From Coq Require Import ZArith List Bool Arith Lia Ring.
From Verif Require Import Limbs Field FieldProofs Fp Base MleSpec GkrMath Poly PolyProofs Circuit
  FastProver FastVerifier Lazy TablesProofs FastProverProofs PhaseProofs.
Import ListNotations.
Open Scope nat_scope.

(** ** Predicates *)
(** The verifier's tables: gate weights [W = W0 + W1] and wire weights. *)
Record btabs (N lg b : nat) (B : betas) (W U U' : nat -> F) : Prop := {
  bt_g : exists W0 W1, tab N (b_g0 B) (2 ^ lg) W0 /\ tab N (b_g1 B) (2 ^ lg) W1 /\
            forall k, k < 2 ^ lg -> W k = (W0 k + W1 k)%F;
  bt_u : tab N (b_u B) (2 ^ b) U;
  bt_v : tab N (b_v B) (2 ^ b) U' }.

Section Preds.
Variables (N lg b : nat) (L : layer) (B : betas).
Variables W U U' : nat -> F.
Hypothesis BT : btabs N lg b B W U U'.
Hypothesis Hlg : bit_length L = lg.
Hypothesis HG : 2 ^ lg <= length (gates L).

Lemma pred_term_ok : forall g u v, g < 2 ^ lg -> (0 <= u < Z.of_nat (2 ^ b))%Z -> (0 <= v < Z.of_nat (2 ^ b))%Z ->
  returns (pred_term B g u v) (fun x => rep x (W g * U (Z.to_nat u) * U' (Z.to_nat v))%F).
Proof.
  intros g u v Hg Hu Hv. destruct BT as [(W0 & W1 & T0 & T1 & HW) TU TV]. unfold pred_term.
  eapply rb_tab; [exact T0|exact Hg|]. intros x0 R0. eapply rb_tab; [exact T1|exact Hg|]. intros x1 R1.
  apply rb_idx; [lia|]. eapply rb_tab; [exact TU|lia|]. intros xu Ru.
  apply rb_idx; [lia|]. eapply rb_tab; [exact TV|lia|]. intros xv Rv.
  apply returns_ok. rewrite (HW g Hg). lzr.
Qed.

(** The predicate of a two-wire gate type. *)
Lemma pred_loop_ok : forall ty chk,
  (forall i, i < 2 ^ lg -> g_ty (gate_at L i) = ty ->
     (0 <= g_u (gate_at L i) < Z.of_nat (2 ^ b) /\ 0 <= g_v (gate_at L i) < Z.of_nat (2 ^ b))%Z /\
     (chk = true -> g_v (gate_at L i) = 0%Z)) ->
  returns (pred_loop L B ty chk) (fun x => rep x
    (sumn (2 ^ lg) (fun i => ind (g_ty (gate_at L i) =? ty)%Z *
       (W i * U (Z.to_nat (g_u (gate_at L i))) * U' (Z.to_nat (g_v (gate_at L i)))))%F)).
Proof.
  intros ty chk HR. unfold pred_loop. rewrite Hlg.
  apply (returns_for _ (2 ^ lg) 0 _ (fun n x => rep x
    (sumn n (fun i => ind (g_ty (gate_at L i) =? ty)%Z *
       (W i * U (Z.to_nat (g_u (gate_at L i))) * U' (Z.to_nat (g_v (gate_at L i)))))%F))); [exact rep_i0|].
  intros i x Hi Rx. simpl in Hi. eapply rb_nth; [apply gate_rd; lia|].
  cbn [sumn]. destruct (Z.eqb_spec (g_ty (gate_at L i)) ty) as [E|E]; cbn [ind].
  - destruct (HR i ltac:(lia) E) as [[H1 H2] H3].
    apply rb_assert. { destruct chk; [rewrite (H3 eq_refl); reflexivity|reflexivity]. }
    eapply returns_bind; [apply pred_term_ok; [lia|exact H1|exact H2]|]. intros t Rt. cbv beta in Rt.
    apply returns_ok. lzr.
  - apply returns_ok. eapply rep_eq; [exact Rx|ring].
Qed.
Lemma finish_ok : forall x a, rep x a -> rep (finish x) a.
Proof. intros x a H. unfold finish. apply rep_fix_neg. lzr. Qed.

Lemma sum_pred_ok :
  (forall i, i < 2 ^ lg -> g_ty (gate_at L i) = 5%Z ->
     (0 <= g_u (gate_at L i) <= g_v (gate_at L i) /\ g_v (gate_at L i) <= Z.of_nat (2 ^ b))%Z) ->
  returns (sum_pred L B) (fun x => rep x
    (sumn (2 ^ lg) (fun i => ind (g_ty (gate_at L i) =? 5)%Z *
       (W i * sumn (Z.to_nat (g_v (gate_at L i)) - Z.to_nat (g_u (gate_at L i)))
                   (fun k => U (Z.to_nat (g_u (gate_at L i)) + k)%nat * U' 0%nat)))%F)).
Proof.
  intros HR. unfold sum_pred. rewrite Hlg. destruct BT as [(W0 & W1 & T0 & T1 & HW) TU TV].
  eapply returns_bind.
  - apply (returns_for _ (2 ^ lg) 0 _ (fun n x => rep x
      (sumn n (fun i => ind (g_ty (gate_at L i) =? 5)%Z *
       (W i * sumn (Z.to_nat (g_v (gate_at L i)) - Z.to_nat (g_u (gate_at L i)))
                   (fun k => U (Z.to_nat (g_u (gate_at L i)) + k)%nat * U' 0%nat)))%F))); [exact rep_i0|].
    intros i x Hi Rx. simpl in Hi. eapply rb_nth; [apply gate_rd; lia|].
    cbn [sumn]. destruct (Z.eqb_spec (g_ty (gate_at L i)) 5) as [E|E]; cbn [ind].
    + pose proof (HR i ltac:(lia) E) as H.
      set (S0 := sumn i _) in *. set (u := Z.to_nat (g_u (gate_at L i))) in *.
      eapply returns_conseq.
      * apply (returns_forz _ _ _ _ (fun j y => rep y (S0 + W i * sumn (Z.to_nat j - u) (fun k => U (u + k)%nat * U' 0%nat))%F)); [lia| |].
        -- eapply rep_eq; [exact Rx|]. subst u. rewrite Nat.sub_diag. cbn [sumn]. ring.
        -- intros j y Hj Ry. eapply rb_tab; [exact T0|lia|]. intros x0 R0. eapply rb_tab; [exact T1|lia|]. intros x1 R1.
           pose proof (pow2_pos b). eapply rb_tab; [exact TV|lia|]. intros xv Rv.
           apply rb_idx; [lia|]. eapply rb_tab; [exact TU|lia|]. intros xu Ru. apply returns_ok.
           replace (Z.to_nat (j + 1) - u) with (S (Z.to_nat j - u)) by lia. cbn [sumn].
           replace (u + (Z.to_nat j - u)) with (Z.to_nat j) by lia. rewrite (HW i ltac:(lia)) in *. lzr.
      * cbv beta. intros y Ry. eapply rep_eq; [exact Ry|]. ring.
    + apply returns_ok. eapply rep_eq; [exact Rx|ring].
  - intros x Rx. apply returns_ok. apply finish_ok, Rx.
Qed.

(** The predicates computed by the code are those of the layer algebra. *)
Definition layer_ok (g : gate) (k : nat) : Prop := proto_gate (2 ^ b) g \/ g = Gate 4 (Z.of_nat k) 0.
Hypothesis HL : forall k, k < 2 ^ lg -> layer_ok (gate_at L k) k.
Let PR (ty : Z) : F := pred (2 ^ lg) (gate_at L) W ty U U'.

Lemma copy_wires : forall k, wires (Gate 4 (Z.of_nat k) 0) = [].
Proof. reflexivity. Qed.
Lemma pred_two : forall ty, In ty [0;1;6;7;8;9;10]%Z ->
  PR ty = (sumn (2 ^ lg) (fun i => ind (g_ty (gate_at L i) =? ty)%Z *
       (W i * U (Z.to_nat (g_u (gate_at L i))) * U' (Z.to_nat (g_v (gate_at L i)))))%F).
Proof.
  intros ty Ht. unfold PR, pred. apply sumn_ext. intros i Hi.
  destruct (Z.eqb_spec (g_ty (gate_at L i)) ty) as [E|E]; cbn [ind]; [|ring].
  assert (K : wires (gate_at L i) = [(1%F, Z.to_nat (g_u (gate_at L i)), Z.to_nat (g_v (gate_at L i)))]).
  { unfold wires. rewrite E. cbn [In] in Ht. decompose [or] Ht; try contradiction;
      match goal with H : _ = ty |- _ => rewrite <- H end; reflexivity. }
  rewrite K, lsum_cons, lsum_nil. unfold w_c, w_l, w_r. cbn [fst snd]. ring.
Qed.
Lemma pred_sum : PR 5%Z = sumn (2 ^ lg) (fun i => ind (g_ty (gate_at L i) =? 5)%Z *
       (W i * sumn (Z.to_nat (g_v (gate_at L i)) - Z.to_nat (g_u (gate_at L i)))
                   (fun k => U (Z.to_nat (g_u (gate_at L i)) + k)%nat * U' 0%nat)))%F.
Proof.
  unfold PR, pred. apply sumn_ext. intros i Hi.
  destruct (Z.eqb_spec (g_ty (gate_at L i)) 5) as [E|E]; cbn [ind]; [|ring].
  unfold wires. rewrite E, lsum_map, lsum_seq. f_equal. f_equal. apply sumn_ext. intros k _.
  unfold w_c, w_l, w_r. cbn [fst snd]. ring.
Qed.
Lemma loop_types : forall ty chk, In (ty, chk) [(0,false);(1,false);(6,true);(7,false);(8,false);(9,false);(10,true)]%Z ->
  returns (pred_loop L B ty chk) (fun x => rep x (PR ty)).
Proof.
  intros ty chk Ht. rewrite pred_two.
  2:{ cbn [In] in *. decompose [or] Ht; try contradiction; match goal with H : _ = (ty, _) |- _ => injection H as <- <- end; tauto. }
  apply pred_loop_ok. intros i Hi E. pose proof (pow2_pos b).
  destruct (HL i Hi) as [HP|HP].
  - unfold proto_gate in HP. cbn [In] in Ht.
    decompose [or] Ht; try contradiction; match goal with H : _ = (ty, _) |- _ => injection H as <- <- end;
      rewrite E in HP; (split; [lia|]); intro; try discriminate; apply HP.
  - rewrite HP in E. cbn [g_ty] in E. cbn [In] in Ht.
    decompose [or] Ht; try contradiction; match goal with H : _ = (ty, _) |- _ => injection H as <- <- end; discriminate.
Qed.
Lemma add_pred_ok : returns (add_pred L B) (fun x => rep x (PR 0)).
Proof. unfold add_pred. eapply returns_bind; [apply (loop_types 0 false); cbn [In]; tauto|]. intros x Rx. apply returns_ok, finish_ok, Rx. Qed.
Lemma mult_pred_ok : returns (mult_pred L B) (fun x => rep x (PR 1)).
Proof. unfold mult_pred. eapply returns_bind; [apply (loop_types 1 false); cbn [In]; tauto|]. intros x Rx. apply returns_ok, finish_ok, Rx. Qed.
Lemma not_pred_ok : returns (not_pred L B) (fun x => rep x (PR 6)).
Proof. apply (loop_types 6 true); cbn [In]; tauto. Qed.
Lemma minus_pred_ok : returns (minus_pred L B) (fun x => rep x (PR 7)).
Proof. unfold minus_pred. eapply returns_bind; [apply (loop_types 7 false); cbn [In]; tauto|]. intros x Rx. apply returns_ok, finish_ok, Rx. Qed.
Lemma xor_pred_ok : returns (xor_pred L B) (fun x => rep x (PR 8)).
Proof. apply (loop_types 8 false); cbn [In]; tauto. Qed.
Lemma NAAB_pred_ok : returns (NAAB_pred L B) (fun x => rep x (PR 9)).
Proof. unfold NAAB_pred. eapply returns_bind; [apply (loop_types 9 false); cbn [In]; tauto|]. intros x Rx. apply returns_ok, finish_ok, Rx. Qed.
Lemma relay_pred_ok : returns (relay_pred L B) (fun x => rep x (PR 10)).
Proof. unfold relay_pred. eapply returns_bind; [apply (loop_types 10 true); cbn [In]; tauto|]. intros x Rx. apply returns_ok, finish_ok, Rx. Qed.
Lemma sum_pred_ok' : returns (sum_pred L B) (fun x => rep x (PR 5)).
Proof.
  rewrite pred_sum. apply sum_pred_ok. intros i Hi E. destruct (HL i Hi) as [HP|HP].
  - unfold proto_gate in HP. rewrite E in HP. exact HP.
  - rewrite HP in E. discriminate.
Qed.

Definition ptypes : list Z := [0;1;5;6;7;8;9;10]%Z.
Lemma ptypes_nodup : NoDup ptypes.
Proof. unfold ptypes. repeat constructor; cbn [In]; intuition discriminate. Qed.
Lemma layer_types : forall k, k < 2 ^ lg -> In (g_ty (gate_at L k)) ptypes \/ wires (gate_at L k) = [].
Proof.
  intros k Hk. destruct (HL k Hk) as [HP|HP].
  - pose proof (proto_type _ _ HP) as T. gate_cases T; rewrite T; unfold ptypes; cbn [In]; try tauto.
    right. unfold wires. rewrite T. reflexivity.
  - right. rewrite HP. reflexivity.
Qed.
Lemma layer_range : forall k, k < 2 ^ lg -> in_range (2 ^ b) (gate_at L k).
Proof.
  intros k Hk. destruct (HL k Hk) as [HP|HP].
  - apply proto_range; [apply pow2_pos|exact HP].
  - rewrite HP. intros w [].
Qed.
(** The value the verifier compares with the prover's final claim. *)
Lemma combine_ok : forall add_v mult_v not_v minus_v xor_v naab_v sum_v relay_v drv v_u v_v d vu vv,
  rep add_v (PR 0) -> rep mult_v (PR 1) -> rep not_v (PR 6) -> rep minus_v (PR 7) -> rep xor_v (PR 8) ->
  rep naab_v (PR 9) -> rep sum_v (PR 5) -> rep relay_v (PR 10) -> rep drv d -> rep v_u vu -> rep v_v vv ->
  rep (combine_preds add_v mult_v not_v minus_v xor_v naab_v sum_v relay_v drv v_u v_v)
    (lsum ptypes (fun ty => fval (form_of ty) vu vv * PR ty) + d * vu)%F.
Proof.
  intros. unfold combine_preds, ptypes. rewrite !lsum_cons, lsum_nil. unfold fval.
  cbn [form_of c11 c10 c01 c00]. unfold two. lzr.
Qed.
End Preds.

(** Tables built by [beta_init]. *)
Lemma eqtab_tab : forall N c l n t, length l = n -> eqtab N c l t -> tab N t (2 ^ n) (fun k => c * eqg l k)%F.
Proof. intros N c l n t <- H. exact H. Qed.
Lemma beta_init_btabs : forall N lg b alpha beta r0 r1 ru rv o0 o1 ou ov B a be R0 R1 Ru Rv Ov,
  reps r0 R0 -> reps r1 R1 -> reps ru Ru -> reps rv Rv ->
  reps o0 (comp R0) -> reps o1 (comp R1) -> reps ou (comp Ru) -> reps ov Ov ->
  length R0 = lg -> length R1 = lg -> length Ru = b -> length Rv = b -> length Ov = b ->
  length (b_g0 B) = N -> length (b_g1 B) = N -> length (b_u B) = N -> length (b_v B) = N ->
  2 ^ lg <= N -> 2 ^ b <= N -> rep alpha a -> rep beta be ->
  returns (beta_init lg b alpha beta r0 r1 ru rv o0 o1 ou ov B) (fun B' =>
    btabs N lg b B' (gw a be R0 R1) (eqw Ru) (eqg (prs Rv Ov 0 b)) /\
    length (b_g0 B') = N /\ length (b_g1 B') = N /\ length (b_u B') = N /\ length (b_v B') = N).
Proof.
  intros. eapply returns_conseq; [eapply (beta_init_ok N lg b) with (R0 := R0) (R1 := R1) (Ru := Ru) (Rv := Rv);
    try eassumption; rewrite ?comp_length; assumption|].
  cbv beta. intros B' (T0 & T1 & TU & TV).
  pose proof (eqtab_tab _ _ _ _ _ (prs_length _ _ _ _) T0) as K0.
  pose proof (eqtab_tab _ _ _ _ _ (prs_length _ _ _ _) T1) as K1.
  pose proof (eqtab_tab _ _ _ _ _ (prs_length _ _ _ _) TU) as KU.
  pose proof (eqtab_tab _ _ _ _ _ (prs_length _ _ _ _) TV) as KV.
  assert (E : forall R n, length R = n -> prs R (comp R) 0 n = point R) by (intros R n <-; apply prs_point).
  split.
  - constructor.
    + exists (fun k => a * eqw R0 k)%F, (fun k => be * eqw R1 k)%F.
      split; [rewrite (E R0) in K0 by assumption; exact K0|].
      split; [rewrite (E R1) in K1 by assumption; exact K1|]. reflexivity.
    + eapply tab_ext; [exact KU|]. intros k _. cbv beta. rewrite (E Ru) by assumption. unfold eqw. ring.
    + eapply tab_ext; [exact KV|]. intros k _. cbv beta. ring.
  - split; [apply K0|]. split; [apply K1|]. split; [apply KU|apply KV].
Qed.

(** ** Rounds of the honest prover *)
(** [I] follows the protocol while working on layer [i]. *)
Record like_honest (I : prover_if prover) (i : nat) : Prop := {
  lh_init : forall p lg lu lv a b r0 r1 o0 o1,
    if_sumcheck_init I p i lg lu lv a b r0 r1 o0 o1 = Ok (sumcheck_init p i lg lu lv a b r0 r1 o0 o1);
  lh_1i : forall p, p_layer p = i -> if_phase1_init I p = sumcheck_phase1_init p;
  lh_1u : forall p x j, p_layer p = i -> if_phase1_update I p x j = sumcheck_phase1_update p x j;
  lh_2i : forall p x r o, p_layer p = i -> if_phase2_init I p x r o = sumcheck_phase2_init p x r o;
  lh_2u : forall p x j, p_layer p = i -> if_phase2_update I p x j = sumcheck_phase2_update p x j;
  lh_f : forall p x, p_layer p = i -> if_finalize I p x = sumcheck_finalize p x;
  lh_vu : forall p, if_v_u I p = p_v_u p }.
Lemma honest_like : forall i, like_honest honest i.
Proof. intro i. constructor; reflexivity. Qed.
Lemma firstn_S_nth : forall (R : list F) j, j < length R -> firstn (S j) R = firstn j R ++ [nth j R 0%F].
Proof.
  induction R as [|a R IH]; intros [|j] H; simpl in *; try lia; [reflexivity|]. rewrite IH by lia. reflexivity.
Qed.
Lemma tabs_bound_v_u : forall p n lV lA lM, p_v_u (set_arrays p n lV lA lM) = p_v_u p.
Proof. reflexivity. Qed.
Lemma tabs_final : forall N n p V M A R, length R = n -> tabs_bound N n p V M A R ->
  psum 0 (folds R V) (folds R M) (folds R A) = (mle R V * mle R M + mle R A)%F.
Proof. intros. rewrite psum_0, !mle_folds. reflexivity. Qed.

Lemma phase1_rounds_ok : forall I i N n p V M A r_u R sum, like_honest I i -> p_layer p = i ->
  length R = n -> reps r_u R -> tabs_bound N n p V M A [] -> rep sum (psum n V M A) ->
  returns (phase1_rounds I n r_u sum p) (fun st => let '(prev, sum, p') := st in
    rep prev (last R 0%F) /\ rep sum (mle R V * mle R M + mle R A)%F /\ tabs_bound N n p' V M A R /\
    exists k lV lA lM, p' = set_arrays p k lV lA lM).
Proof.
  intros I i N n p V M A r_u R sum LH Pl HR Hr TB Hs. unfold phase1_rounds.
  eapply returns_conseq.
  - apply (returns_for _ n 0 _ (fun j st => let '(prev, sum, p') := st in
      let Rj := firstn j R in
      rep prev (last Rj 0%F) /\ rep sum (psum (n - j) (folds Rj V) (folds Rj M) (folds Rj A)) /\
      tabs_bound N n p' V M A Rj /\ exists k lV lA lM, p' = set_arrays p k lV lA lM)).
    + cbn [firstn folds last]. rewrite Nat.sub_0_r. split; [exact rep_i0|]. split; [exact Hs|]. split; [exact TB|].
      exists (p_total_uv p), (p_Vmult p), (p_addV p), (p_addmult p). destruct p; reflexivity.
    + intros j [[prev sm] p'] Hj (Rp & Rs & TB' & k & lV & lA & lM & E). simpl in Hj.
      assert (Lj : length (firstn j R) = j) by (rewrite firstn_length; lia).
      pose proof (sumcheck_update_ok bind_next1 next1_ok N n p' V M A (firstn j R) prev ltac:(lia) TB' Rp) as SU.
      rewrite Lj in SU. rewrite (lh_1u I i LH) by (rewrite E; exact Pl). unfold sumcheck_phase1_update.
      eapply returns_bind; [exact SU|]. intros [poly p2] (TB2 & (lV2 & lA2 & lM2 & E2) & c & Qc & Hc).
      eapply rb_reps; [exact Hr|lia|]. intros r Rr.
      pose proof (quadratic_eval_ok _ _ _ _ Qc rep_i0) as Q0. pose proof (quadratic_eval_ok _ _ _ _ Qc rep_i1) as Q1.
      rewrite Hc in Q0, Q1.
      apply rb_reject.
      { eapply rep_fne_false; [apply rep_add; [exact Q0|exact Q1]|exact Rs|]. rewrite round_01. f_equal. lia. }
      apply returns_ok. cbv zeta. rewrite (firstn_S_nth R j) by lia. rewrite last_last, !folds_snoc.
      split; [exact Rr|]. split; [|split; [apply TB2|]].
      * pose proof (quadratic_eval_ok _ _ _ _ Qc Rr) as Q. rewrite Hc in Q. exact Q.
      * exists (2 ^ (n - S j)), lV2, lA2, lM2. rewrite E2, E. reflexivity.
  - intros [[prev sm] p'] H. simpl (0 + n) in H. rewrite Nat.sub_diag in H.
    rewrite (firstn_all2 R) in H by lia. cbv zeta in H. destruct H as (H1 & H2 & H3 & H4).
    rewrite (tabs_final _ _ _ _ _ _ _ HR H3) in H2. split; [exact H1|]. split; [exact H2|]. split; [exact H3|exact H4].
Qed.

Lemma reps_upd : forall l a k x c, reps l a -> k < length a -> rep x c ->
  reps (upd l k x) (firstn k a ++ c :: skipn (S k) a).
Proof.
  intros l a k x c H. revert k. induction H as [|y b l a R H IH]; intros [|k] Hk Rx; simpl in *; try lia.
  - constructor; assumption.
  - constructor; [assumption|]. apply IH; [lia|exact Rx].
Qed.
(** The point used in phase 2: zero at the copy layer. *)
Definition rv_point (zero : bool) (Rv : list F) : list F := if zero then map (fun _ => 0%F) Rv else Rv.
Lemma rv_length : forall z Rv, length (rv_point z Rv) = length Rv.
Proof. intros [] Rv; simpl; [apply map_length|reflexivity]. Qed.
Lemma skipn_S_nth : forall (R : list F) j, j < length R -> skipn j R = nth j R 0%F :: skipn (S j) R.
Proof. induction R as [|a R IH]; intros [|j] H; simpl in *; try lia; [reflexivity|]. apply IH. lia. Qed.

Lemma phase2_rounds_ok : forall I i N n p V M A r_v Rv zero relay d vu sum, like_honest I i -> p_layer p = i ->
  length Rv = n -> reps r_v Rv -> tabs_bound N n p V M A [] -> rep relay d -> rep (p_v_u p) vu ->
  rep sum (psum n V M A + d * vu)%F ->
  returns (phase2_rounds I n zero relay r_v sum p) (fun st => let '(prev, sum, r_v', p') := st in
    let R := rv_point zero Rv in
    rep prev (last R 0%F) /\ rep sum (mle R V * mle R M + mle R A + d * vu)%F /\ reps r_v' R /\
    tabs_bound N n p' V M A R /\ exists k lV lA lM, p' = set_arrays p k lV lA lM).
Proof.
  intros I i N n p V M A r_v Rv zero relay d vu sum LH Pl HR Hr TB Hd Hvu Hs. unfold phase2_rounds.
  set (R := rv_point zero Rv). assert (LR : length R = n) by (unfold R; rewrite rv_length; exact HR).
  eapply returns_conseq.
  - apply (returns_for _ n 0 _ (fun j st => let '(prev, sum, r_v', p') := st in
      let Rj := firstn j R in
      rep prev (last Rj 0%F) /\ rep sum (psum (n - j) (folds Rj V) (folds Rj M) (folds Rj A) + d * vu)%F /\
      reps r_v' (firstn j R ++ skipn j Rv) /\
      tabs_bound N n p' V M A Rj /\ exists k lV lA lM, p' = set_arrays p k lV lA lM)).
    + cbn [firstn folds last app skipn]. rewrite Nat.sub_0_r. split; [exact rep_i0|]. split; [exact Hs|]. split; [exact Hr|].
      split; [exact TB|]. exists (p_total_uv p), (p_Vmult p), (p_addV p), (p_addmult p). destruct p; reflexivity.
    + intros j [[[prev sm] rv] p'] Hj (Rp & Rs & Rrv & TB' & k & lV & lA & lM & E). simpl in Hj.
      assert (Lj : length (firstn j R) = j) by (rewrite firstn_length; lia).
      assert (HS : firstn (S j) R ++ skipn (S j) Rv = firstn j R ++ nth j R 0%F :: skipn (S j) Rv).
      { rewrite (firstn_S_nth R j) by lia. rewrite <- app_assoc. reflexivity. }
      eapply (returns_bind _ _ _ _ (fun rv' => reps rv' (firstn (S j) R ++ skipn (S j) Rv))).
      { rewrite HS. destruct zero.
        - apply returns_wr.
          + rewrite (reps_length _ _ Rrv), app_length, Lj, skipn_length. lia.
          + pose proof (reps_upd _ _ j _ _ Rrv ltac:(rewrite app_length, Lj, skipn_length; lia) rep_i0) as K.
            assert (E0 : nth j R 0%F = 0%F).
            { unfold R. cbn [rv_point]. apply (map_nth (fun _ : F => 0%F) Rv 0%F j). }
            rewrite E0.
            rewrite firstn_app, Lj, Nat.sub_diag, firstn_O, app_nil_r, firstn_firstn, Nat.min_id in K.
            rewrite skipn_app, Lj, (skipn_all2 (firstn j R)) in K by lia.
            replace (S j - j) with 1 in K by lia. cbn [app] in K.
            rewrite (skipn_S_nth Rv j) in K by lia. cbn [skipn] in K. exact K.
        - apply returns_ok. unfold R in Rrv |- *. cbn [rv_point] in *. rewrite <- (skipn_S_nth Rv j) by lia. exact Rrv. }
      intros rv' Rrv'.
      pose proof (sumcheck_update_ok bind_next2 next2_ok N n p' V M A (firstn j R) prev ltac:(lia) TB' Rp) as SU.
      rewrite Lj in SU. rewrite (lh_2u I i LH) by (rewrite E; exact Pl). unfold sumcheck_phase2_update.
      eapply returns_bind; [exact SU|]. intros [poly p2] (TB2 & (lV2 & lA2 & lM2 & E2) & c & Qc & Hc).
      rewrite (lh_vu I i LH).
      assert (Rr : returns (rd rv' j) (fun r => rep r (nth j R 0%F))).
      { rewrite HS in Rrv'. eapply reps_rd; [exact Rrv'|rewrite app_length, Lj; simpl; lia|]. intros x Rx.
        rewrite app_nth2 in Rx by lia. rewrite Lj, Nat.sub_diag in Rx. exact Rx. }
      eapply returns_bind; [exact Rr|]. clear Rr. intros r Rr. cbv beta in Rr.
      assert (Rvu : rep (p_v_u p2) vu) by (rewrite E2, E; exact Hvu).
      pose proof (quadratic_eval_ok _ _ _ _ Qc rep_i0) as Q0. pose proof (quadratic_eval_ok _ _ _ _ Qc rep_i1) as Q1.
      rewrite Hc in Q0, Q1.
      apply rb_reject.
      { eapply rep_fne_false; [apply rep_add; [apply rep_add; [exact Q0|exact Q1]|apply rep_mul; [exact Hd|exact Rvu]]|exact Rs|].
        rewrite round_01. do 2 f_equal. lia. }
      apply returns_ok. cbv zeta. split; [|split; [|split; [exact Rrv'|split]]].
      * rewrite (firstn_S_nth R j) by lia. rewrite last_last. exact Rr.
      * rewrite (firstn_S_nth R j) by lia. rewrite !folds_snoc.
        pose proof (quadratic_eval_ok _ _ _ _ Qc Rr) as Q. rewrite Hc in Q.
        apply rep_add; [exact Q|apply rep_mul; assumption].
      * rewrite (firstn_S_nth R j) by lia. apply TB2.
      * exists (2 ^ (n - S j)), lV2, lA2, lM2. rewrite E2, E. reflexivity.
  - intros [[[prev sm] rv] p'] H. simpl (0 + n) in H. rewrite Nat.sub_diag in H.
    rewrite (firstn_all2 R) in H by lia. rewrite (skipn_all2 Rv) in H by lia. rewrite app_nil_r in H.
    cbv zeta in H |- *. destruct H as (H1 & H2 & H3 & H4 & H5).
    rewrite (tabs_final _ _ _ _ _ _ _ LR H4) in H2.
    split; [exact H1|]. split; [exact H2|]. split; [exact H3|]. split; [exact H4|exact H5].
Qed.

(** ** One layer *)
(** The verifier's state when it holds a claim about layer [i]. *)
Record claim (C : layered_circuit) (m i : nat) (st : vstate prover) (a be : F) (R0 R1 : list F) : Prop := {
  cl_p : pinv C m (s_p st);
  cl_a : rep (s_alpha st) a; cl_b : rep (s_beta st) be;
  cl_r0 : reps (s_r0 st) R0; cl_r1 : reps (s_r1 st) R1;
  cl_o0 : reps (s_o0 st) (comp R0);
  cl_l0 : length R0 = bit_length (layer_at C i); cl_l1 : length R1 = bit_length (layer_at C i);
  cl_o1 : i <> 0 -> reps (s_o1 st) (comp R1);
  cl_B : length (b_g0 (s_B st)) = 2 ^ m /\ length (b_g1 (s_B st)) = 2 ^ m /\
         length (b_u (s_B st)) = 2 ^ m /\ length (b_v (s_B st)) = 2 ^ m;
  cl_sum : rep (s_sum st) (if i =? 0 then mle R0 (vals C 0)
                           else a * mle R0 (vals C i) + be * mle R1 (vals C i))%F }.

Definition copy_layer (C : layered_circuit) : Prop :=
  bit_length (layer_at C 1) = bit_length (layer_at C 0) /\
  forall g, g < 2 ^ bit_length (layer_at C 1) -> gate_at (layer_at C 1) g = Gate 4 (Z.of_nat g) 0.

Lemma weighted_claim : forall C i a be R0 R1, length R0 = bit_length (layer_at C i) -> length R1 = bit_length (layer_at C i) ->
  (a * mle R0 (vals C i) + be * mle R1 (vals C i))%F =
  sumn (2 ^ bit_length (layer_at C i)) (fun g => gw a be R0 R1 g * vals C i g)%F.
Proof.
  intros C i a be R0 R1 L0 L1. unfold mle. rewrite L0, L1, <- !sumn_scal, <- sumn_add.
  apply sumn_ext. intros g _. unfold gw. ring.
Qed.
Lemma mle_copy : forall n R W, length R = n -> mle R (scat (2 ^ n) (fun g => [(W g, g)])) = mle R W.
Proof.
  intros n R W L. rewrite mle_scat.
  - unfold gath, mle. rewrite L. apply sumn_ext. intros g _. rewrite lsum_cons, lsum_nil. cbn [fst snd]. ring.
  - rewrite L. intros g t Hg [<-|[]]. exact Hg.
Qed.
Lemma scat_copy : forall n W x, x < n -> scat n (fun g => [(W g, g)]) x = W x.
Proof.
  intros n W x Hx. unfold scat. rewrite <- (sumn_ind n x W Hx). apply sumn_ext. intros g _.
  rewrite lsum_cons, lsum_nil. cbn [fst snd]. rewrite (Nat.eqb_sym x g). ring.
Qed.
Lemma scat_nil : forall n x, scat n (fun _ => []) x = 0%F.
Proof. intros. unfold scat. apply sumn_zero'. intros. apply lsum_nil. Qed.

(** Circuits the protocol is complete for. *)
Record complete_circuit (C : layered_circuit) : Prop := {
  cc_depth : total_depth C = length (circuit C);
  cc_pos : 0 < total_depth C;
  cc_small : (Z.of_nat (total_depth C) < 1000000)%Z;
  cc_gates : forall i, i < total_depth C -> 2 ^ bit_length (layer_at C i) <= length (gates (layer_at C i));
  cc_input : forall g, g < 2 ^ bit_length (layer_at C 0) ->
     g_ty (gate_at (layer_at C 0) g) = 3%Z \/
     (g_ty (gate_at (layer_at C 0) g) = 2%Z /\ g_u (gate_at (layer_at C 0) g) = 0%Z);
  cc_copy : 1 < total_depth C -> copy_layer C;
  cc_wires : forall i g, 2 <= i < total_depth C -> g < 2 ^ bit_length (layer_at C i) ->
     proto_gate (2 ^ bit_length (layer_at C (i - 1))) (gate_at (layer_at C i) g) }.
Lemma complete_wf : forall C, complete_circuit C -> wf_circuit C.
Proof.
  intros C [D P S G I K W]. constructor; try assumption.
  - intros g Hg. destruct (I g Hg) as [H|[H _]]; auto.
  - intros i g Hi Hg. destruct (Nat.eq_dec i 1) as [->|N].
    + destruct (K ltac:(lia)) as [Kb Kg]. rewrite (Kg g Hg). unfold reads_in. cbn [g_ty g_u]. simpl (1 - 1).
      rewrite <- Kb. lia.
    + apply proto_reads, W; [lia|exact Hg].
Qed.

Section OneLayer.
Variables (C : layered_circuit) (m i : nat) (rnd : nat -> fe).
Hypothesis CC : complete_circuit C.
Hypothesis Hi : 0 < i < total_depth C.
Hypothesis Hm : forall k, k < total_depth C -> bit_length (layer_at C k) <= m.
Hypothesis Hrnd : forall k, reduced (rnd k).
Let L := layer_at C i.
Let Lm := layer_at C (i - 1).
Let lg := bit_length L.
Let b := bit_length Lm.
Let V := vals C (i - 1).

Lemma this_layer_ok : forall k, k < 2 ^ lg -> layer_ok b (gate_at L k) k.
Proof.
  intros k Hk. destruct CC as [D P S G I K W]. destruct (Nat.eq_dec i 1) as [E|N].
  - right. destruct (K ltac:(lia)) as [_ Kg]. subst L lg. rewrite E in *. apply Kg, Hk.
  - left. apply W; [lia|exact Hk].
Qed.
Lemma vals_this : vals C i = fun g => gate_spec V (gate_at L g).
Proof.
  destruct CC as [D _ _ _ _ _ _]. replace i with (S (i - 1)) at 1 by lia. rewrite vals_S by lia.
  replace (S (i - 1)) with i by lia. reflexivity.
Qed.

(** The phase-1 tables and the two identities they satisfy. *)
Definition relay_at (a be : F) (R0 R1 ru : list F) : F :=
  if i =? 1 then (a * eqpt R0 ru + be * eqpt R1 ru)%F else 0%F.
Lemma phase1_tables : forall a be R0 R1 ru, length R0 = lg -> length R1 = lg -> length ru = b ->
  let W := gw a be R0 R1 in
  exists tA tM,
    (forall w Np prev, tab Np prev (2 ^ b) V -> (forall k, k < 2 ^ lg -> returns (w k) (fun x => rep x (W k))) ->
       forall k, k < 2 ^ lg -> gate_step (2 ^ m) (2 ^ b) (phase1_gate w prev k (gate_at L k)) (tA k) (tM k)) /\
    psum b V (scat (2 ^ lg) tM) (scat (2 ^ lg) tA) = (a * mle R0 (vals C i) + be * mle R1 (vals C i))%F /\
    (mle ru V * mle ru (scat (2 ^ lg) tM) + mle ru (scat (2 ^ lg) tA))%F =
    (psum b V (scat (2 ^ lg) (tM2 (gate_at L) W (mle ru V) (eqw ru))) (scat (2 ^ lg) (tA2 (gate_at L) W (mle ru V) (eqw ru)))
     + relay_at a be R0 R1 ru * mle ru V)%F.
Proof.
  intros a be R0 R1 ru L0 L1 Lu W.
  rewrite (weighted_claim C i a be R0 R1 L0 L1). fold L lg. fold W. rewrite vals_this. unfold relay_at.
  destruct (Nat.eqb_spec i 1) as [E|N].
  - pose proof (cc_copy C CC ltac:(lia)) as [Kb Kg].
    assert (Eb : b = lg) by (subst b lg L Lm; rewrite E; symmetry; exact Kb).
    assert (Eg : forall k, k < 2 ^ lg -> gate_at L k = Gate 4 (Z.of_nat k) 0).
    { intros k Hk. subst L lg. rewrite E in *. apply Kg, Hk. }
    exists (fun _ => []), (fun g => [(W g, g)]). split; [|split].
    + intros w Np prev T Hw k Hk. eapply phase1_copy_ok; [apply pow2_pos|exact Hw|exact Hk|rewrite Eb; exact Hk|apply Eg, Hk].
    + unfold psum. rewrite Eb. apply sumn_ext. intros g Hg. rewrite scat_copy by exact Hg. rewrite scat_nil.
      rewrite (Eg g Hg). unfold gate_spec. cbn [g_ty g_u]. rewrite Nat2Z.id. ring.
    + rewrite (mle_copy lg) by lia. rewrite (mle_ext ru (scat _ _) (fun _ => 0%F)) by (intros; apply scat_nil).
      rewrite mle_zero.
      assert (P0 : psum b V (scat (2 ^ lg) (tM2 (gate_at L) W (mle ru V) (eqw ru)))
                     (scat (2 ^ lg) (tA2 (gate_at L) W (mle ru V) (eqw ru))) = 0%F).
      { unfold psum. apply sumn_zero'. intros x _.
        assert (Z2 : scat (2 ^ lg) (tM2 (gate_at L) W (mle ru V) (eqw ru)) x = 0%F).
        { unfold scat. apply sumn_zero'. intros g Hg. unfold tM2. rewrite (Eg g Hg), copy_wires. reflexivity. }
        assert (Z3 : scat (2 ^ lg) (tA2 (gate_at L) W (mle ru V) (eqw ru)) x = 0%F).
        { unfold scat. apply sumn_zero'. intros g Hg. unfold tA2. rewrite (Eg g Hg), copy_wires. reflexivity. }
        rewrite Z2, Z3. ring. }
      rewrite P0. unfold W. unfold gw. rewrite mle_add, !mle_scal, !eqw_sym_mle by lia. ring.
  - assert (PG : forall k, k < 2 ^ lg -> proto_gate (2 ^ b) (gate_at L k)).
    { intros k Hk. apply (cc_wires C CC); [lia|exact Hk]. }
    exists (tA1 (gate_at L) W V), (tM1 (gate_at L) W V). split; [|split].
    + intros w Np prev T Hw k Hk. eapply phase1_gate_ok; [apply pow2_pos|exact T|exact Hw|exact Hk|apply PG, Hk].
    + rewrite (phase1_start (2 ^ lg) (gate_at L) W V b).
      * apply sumn_ext. intros g Hg. rewrite (proto_value (2 ^ b)) by (apply PG, Hg). reflexivity.
      * intros g Hg. apply proto_range; [apply pow2_pos|apply PG, Hg].
    + rewrite (phase1_end (2 ^ lg) (gate_at L) W V b); [ring| |exact Lu].
      intros g Hg. apply proto_range; [apply pow2_pos|apply PG, Hg].
Qed.

Lemma phase2_step : forall a be R0 R1 ru wu w v_u, let W := gw a be R0 R1 in
  (forall k, k < 2 ^ b -> returns (wu k) (fun x => rep x (eqw ru k))) ->
  (forall k, k < 2 ^ lg -> returns (w k) (fun x => rep x (W k))) -> rep v_u (mle ru V) ->
  forall k, k < 2 ^ lg -> gate_step (2 ^ m) (2 ^ b) (phase2_gate wu w v_u k (gate_at L k))
     (tA2 (gate_at L) W (mle ru V) (eqw ru) k) (tM2 (gate_at L) W (mle ru V) (eqw ru) k).
Proof.
  intros a be R0 R1 ru wu w v_u W Hwu Hw Rv k Hk. destruct (this_layer_ok k Hk) as [HP|HP].
  - eapply phase2_gate_ok; [apply pow2_pos|exact Hw|exact Hwu|exact Rv|exact Hk|exact HP].
  - unfold tA2, tM2. rewrite HP, copy_wires. cbn [map]. rewrite <- HP at 1.
    apply phase2_copy_ok. exact HP.
Qed.

Definition rnd_point (pos n : nat) : list F := map (fun k => ofZ (val512 (rnd (pos + k)))) (seq 0 n).
Lemma rnd_point_length : forall pos n, length (rnd_point pos n) = n.
Proof. intros. unfold rnd_point. rewrite map_length, seq_length. reflexivity. Qed.
Lemma rnd_val : forall k, rep (u512_mod (rnd k)) (ofZ (val512 (rnd k))).
Proof. intro k. pose proof (reduced_rep _ (Hrnd k)). lzr. Qed.

Lemma verify_layer_ok : forall I st a be R0 R1, like_honest I i -> claim C m i st a be R0 R1 ->
  returns (verify_layer I C rnd i st) (fun st' =>
    exists a' be' R0' R1', claim C m (i - 1) st' a' be' R0' R1').
Proof.
  intros I st a be R0 R1 LH [Kp Ka Kb Kr0 Kr1 Ko0 Kl0 Kl1 Ko1 (KB0 & KB1 & KB2 & KB3) Ks].
  fold L lg in Kl0, Kl1. specialize (Ko1 ltac:(lia)).
  destruct (Nat.eqb_spec i 0); [lia|].
  pose proof (cc_depth C CC) as D.
  unfold verify_layer. eapply rb_nth; [apply layer_rd; lia|]. eapply rb_nth; [apply layer_rd; lia|].
  fold L Lm. fold lg b. rewrite (lh_init I i LH). cbn [bind]. set (p0 := sumcheck_init _ _ _ _ _ _ _ _ _ _ _).
  set (ru := rnd_point (s_pos st) b). set (Rv := rnd_point (s_pos st + b) b).
  assert (Lru : length ru = b) by apply rnd_point_length.
  assert (LRv : length Rv = b) by apply rnd_point_length.
  assert (Hb : b <= m) by (apply Hm; lia). assert (Hlg : lg <= m) by (apply Hm; lia).
  assert (HG : 2 ^ lg <= length (gates L)) by (apply (cc_gates C CC); lia).
  assert (PI0 : pinv C m p0) by (destruct Kp; constructor; assumption).
  assert (PP0 : pparams p0 lg a be R0 R1) by (constructor; try assumption; reflexivity).
  destruct (phase1_tables a be R0 R1 ru Kl0 Kl1 Lru) as (tA & tM & HS1 & Start & Link).
  eapply returns_bind.
  { rewrite (lh_1i I i LH) by reflexivity.
    apply (phase1_init_ok C m i Hi D Hlg Hb HG p0 a be R0 R1 tA tM PI0 eq_refl PP0 HS1). }
  intros p1 (PI1 & GT1 & TB1 & lV1 & lA1 & lM1 & g0f & g0s & g1f & g1s & gs & E1).
  fold b lg V L in TB1. fold lg in GT1.
  destruct (generate_randomness rnd (s_pos st) b) as [r_u pos1] eqn:Eu.
  destruct (generate_randomness rnd pos1 b) as [r_v pos2] eqn:Ev.
  pose proof (generate_randomness_ok rnd (s_pos st) b Hrnd) as Hru. rewrite Eu in Hru. cbn [fst] in Hru.
  assert (Epos1 : pos1 = s_pos st + b) by (unfold generate_randomness in Eu; congruence).
  pose proof (generate_randomness_ok rnd pos1 b Hrnd) as Hrv. rewrite Ev in Hrv. cbn [fst] in Hrv.
  rewrite Epos1 in Hrv. fold (rnd_point (s_pos st) b) in Hru. fold (rnd_point (s_pos st + b) b) in Hrv. fold ru in Hru. fold Rv in Hrv.
  clear Eu Ev.
  assert (HD : forall r R, reps r R -> length R = lg ->
    returns (direct_relay i lg r r_u) (fun x => rep x (if i =? 1 then eqpt R ru else 0%F))).
  { intros r R Hr LR. destruct (Nat.eqb_spec i 1) as [E|N].
    - rewrite E. apply direct_relay_ok; try assumption. rewrite Lru.
      destruct (cc_copy C CC ltac:(lia)) as [Kb' _]. subst b lg L Lm. rewrite E in *. symmetry. exact Kb'.
    - rewrite direct_relay_0 by exact N. apply returns_ok. exact rep_i0. }
  eapply returns_bind; [apply (HD _ R0 Kr0 Kl0)|]. intros d0 Rd0.
  eapply returns_bind; [apply (HD _ R1 Kr1 Kl1)|]. intros d1 Rd1. cbv beta in Rd0, Rd1.
  set (drv := fe_add (fe_mul (s_alpha st) d0) (fe_mul (s_beta st) d1)).
  assert (Rdrv : rep drv (relay_at a be R0 R1 ru)).
  { unfold drv, relay_at. destruct (i =? 1); lzr. }
  eapply returns_bind; [apply (one_minus_ok r_u ru b Hru); symmetry; exact Lru|]. intros o_u Hou.
  eapply returns_bind; [apply (one_minus_ok r_v Rv b Hrv); symmetry; exact LRv|]. intros o_v Hov.
  cbv beta in Hou, Hov.
  eapply returns_bind.
  { apply (phase1_rounds_ok I i _ b p1 V _ _ r_u ru (s_sum st) LH ltac:(rewrite E1; reflexivity) Lru Hru TB1). eapply rep_eq; [exact Ks|symmetry; exact Start]. }
  intros [[prev1 sum1] p2] (Rp1 & Rs1 & TB2 & k2 & lV2 & lA2 & lM2 & E2).
  assert (PI2 : pinv C m p2).
  { destruct PI1 as [? ? ? ? ? ? ? ? ? ? ? ? ?]. destruct TB2 as (BV & BM & BA & _).
    assert (BL : forall N n l T R, bound N n l T R -> length l = N).
    { intros N0 n0 l T R B0. destruct R; [destruct B0 as [fa [H _]]|destruct B0 as [H _]]; exact H. }
    rewrite E2 in *. constructor; try assumption; eapply BL; eassumption. }
  assert (PP2 : pparams p2 lg a be R0 R1) by (rewrite E2, E1; constructor; try assumption; reflexivity).
  assert (GT2 : gtabs p2 (2 ^ (m / 2 + 1)) lg a be R0 R1) by (rewrite E2; exact GT1).
  eapply returns_bind.
  { rewrite (lh_2i I i LH) by (rewrite E2, E1; reflexivity).
    apply (phase2_init_ok C m i Hi D Hlg Hb HG p2 prev1 r_u o_u a be R0 R1 ru _ _ 
             (tA2 (gate_at L) (gw a be R0 R1) (mle ru V) (eqw ru)) (tM2 (gate_at L) (gw a be R0 R1) (mle ru V) (eqw ru))
             PI2 ltac:(rewrite E2, E1; reflexivity) PP2 GT2 ltac:(rewrite E2, E1; reflexivity) Lru Hru Hou TB2 Rp1).
    intros wu w v_u Hwu Hw Rv0. apply (phase2_step a be R0 R1 ru wu w v_u Hwu Hw Rv0). }
  intros p3 (PI3 & Rvu & TB3 & lV3 & lA3 & lM3 & uf & us & bu & vuf & E3).
  fold b lg V L in TB3. fold V in Rvu.
  eapply returns_bind.
  { apply (phase2_rounds_ok I i _ b p3 V _ _ r_v Rv (i =? 1) drv (relay_at a be R0 R1 ru) (mle ru V) sum1 LH
             ltac:(rewrite E3, E2, E1; reflexivity) LRv Hrv TB3 Rdrv Rvu).
    eapply rep_eq; [exact Rs1|exact Link]. }
  intros [[[prev2 sum2] r_v'] p4]. cbv zeta. set (rv := rv_point (i =? 1) Rv).
  assert (Lrv : length rv = b) by (unfold rv; rewrite rv_length; exact LRv).
  intros (Rp2 & Rs2 & Hrv' & TB4 & k4 & lV4 & lA4 & lM4 & E4).
  destruct TB4 as (BV4 & BM4 & BA4 & _).
  destruct (bound_final _ _ _ _ _ _ Lrv BV4 Rp2) as (x & Ex & Rx).
  rewrite (lh_f I i LH) by (rewrite E4, E3, E2, E1; reflexivity). unfold sumcheck_finalize.
  eapply (returns_bind _ _ _ _ (fun res => rep (fst (fst res)) (mle ru V) /\ rep (snd (fst res)) (mle rv V) /\ pinv C m (snd res))).
  { eapply rb_nth; [exact Ex|]. apply returns_ok. cbn [fst snd]. split; [rewrite E4; exact Rvu|]. split; [exact Rx|].
    destruct PI3 as [? ? ? ? ? ? ? ? ? ? ? ? ?].
    assert (BL : forall N n l T R, bound N n l T R -> length l = N).
    { intros N0 n0 l T R B0. destruct R; [destruct B0 as [fa [H _]]|destruct B0 as [H _]]; exact H. }
    rewrite E4 in *. constructor; try assumption; eapply BL; eassumption. }
  intros [[v_u v_v] p5]. cbn [fst snd]. intros (Rvu5 & Rvv5 & PI5).
  eapply returns_bind.
  { apply (beta_init_btabs (2 ^ m) lg b) with (R0 := R0) (R1 := R1) (Ru := ru) (Rv := rv) (Ov := comp Rv) (a := a) (be := be);
      try assumption.
    - rewrite comp_length. exact LRv.
    - apply Nat.pow_le_mono_r; [lia|exact Hlg].
    - apply Nat.pow_le_mono_r; [lia|exact Hb]. }
  intros B' (BT & LB0 & LB1 & LB2 & LB3).
  pose proof this_layer_ok as LO.
  eapply returns_bind; [apply (mult_pred_ok (2 ^ m) lg b L B' _ _ _ BT eq_refl HG LO)|]. intros mult_v R_mult.
  eapply returns_bind; [apply (add_pred_ok (2 ^ m) lg b L B' _ _ _ BT eq_refl HG LO)|]. intros add_v R_add.
  eapply returns_bind; [apply (not_pred_ok (2 ^ m) lg b L B' _ _ _ BT eq_refl HG LO)|]. intros not_v R_not.
  eapply returns_bind; [apply (minus_pred_ok (2 ^ m) lg b L B' _ _ _ BT eq_refl HG LO)|]. intros minus_v R_minus.
  eapply returns_bind; [apply (xor_pred_ok (2 ^ m) lg b L B' _ _ _ BT eq_refl HG LO)|]. intros xor_v R_xor.
  eapply returns_bind; [apply (NAAB_pred_ok (2 ^ m) lg b L B' _ _ _ BT eq_refl HG LO)|]. intros naab_v R_naab.
  eapply returns_bind; [apply (sum_pred_ok' (2 ^ m) lg b L B' _ _ _ BT eq_refl HG LO)|]. intros sum_v R_sum.
  eapply returns_bind; [apply (relay_pred_ok (2 ^ m) lg b L B' _ _ _ BT eq_refl HG LO)|]. intros relay_v R_relay.
  cbv beta in *.
  apply rb_reject.
  { eapply rep_fne_false; [exact Rs2|eapply combine_ok; eassumption|].
    pose proof (phase2_end (2 ^ lg) (gate_at L) (gw a be R0 R1) V b (layer_range lg b L LO) (mle ru V) (eqw ru) rv Lrv) as PE.
    eapply eq_trans; [exact (f_equal (fun z => (z + relay_at a be R0 R1 ru * mle ru V)%F) PE)|].
    cbv beta. f_equal.
    assert (PW : forall g, g < 2 ^ lg -> lsum (wires (gate_at L g)) (fun w => w_c w * eqw ru (w_l w) * eqw rv (w_r w))%F =
                   lsum (wires (gate_at L g)) (fun w => w_c w * eqw ru (w_l w) * eqg (prs rv (comp Rv) 0 b) (w_r w))%F).
    { intros g Hg. unfold rv. destruct (Nat.eqb_spec i 1) as [E|N].
      - destruct (cc_copy C CC ltac:(lia)) as [_ Kg].
        assert (Eg : gate_at L g = Gate 4 (Z.of_nat g) 0) by (subst L lg; rewrite E in *; apply Kg, Hg).
        rewrite Eg. reflexivity.
      - cbn [rv_point]. rewrite <- LRv, prs_point. reflexivity. }
    rewrite (sumn_ext _ _ (fun g => (fval (fo (gate_at L) g) (mle ru V) (mle rv V) * (gw a be R0 R1 g *
       lsum (wires (gate_at L g)) (fun w => w_c w * eqw ru (w_l w) * eqg (prs rv (comp Rv) 0 b) (w_r w))))%F)).
    2:{ intros g Hg. rewrite (PW g Hg). reflexivity. }
    apply (pred_split (2 ^ lg) (gate_at L) (gw a be R0 R1) ptypes (mle ru V) (mle rv V) (eqw ru) _ ptypes_nodup).
    apply (layer_types lg b L LO). }
  apply returns_ok. exists (ofZ (val512 (rnd pos2))), (ofZ (val512 (rnd (pos2 + 1)))), ru, rv.
  constructor; cbn [s_p s_alpha s_beta s_r0 s_r1 s_o0 s_o1 s_B s_sum]; try assumption.
  - apply rnd_val.
  - apply rnd_val.
  - intro N. unfold rv. destruct (Nat.eqb_spec i 1); [lia|]. exact Hov.
  - split; [exact LB0|]. split; [exact LB1|]. split; [exact LB2|exact LB3].
  - destruct (Nat.eqb_spec i 1) as [E|N].
    + replace (i - 1 =? 0) with true by (symmetry; apply Nat.eqb_eq; lia). cbn [negb].
      replace (vals C 0) with V by (subst V; rewrite E; reflexivity). exact Rvu5.
    + replace (i - 1 =? 0) with false by (symmetry; apply Nat.eqb_neq; lia). cbn [negb].
      apply rep_add; (apply rep_mul; [apply rnd_val|assumption]).
Qed.
End OneLayer.

(** ** Completeness *)
Lemma bit_length_max : forall C k, k < length (circuit C) -> bit_length (layer_at C k) <= max_bit_length C.
Proof.
  intros C k H. unfold layer_at, max_bit_length. revert k H. generalize (circuit C).
  induction l as [|L l IH]; intros k H; simpl in H; [lia|]. destruct k as [|k]; simpl.
  - apply Nat.le_max_l.
  - etransitivity; [apply IH; lia|apply Nat.le_max_r].
Qed.
Lemma init_pinv_sizes : forall C m cv, rows_ok C (total_depth C) cv -> pinv C m (set_values (init_prover C m) cv).
Proof.
  intros C m cv H. constructor; cbn [set_values init_prover p_C p_circuit_value p_Vmult p_addV p_addmult p_beta_u
    p_beta_g_sum p_g0f p_g0s p_g1f p_g1s p_uf p_us]; rewrite ?repeat_length, ?shr1_div2; try reflexivity. exact H.
Qed.
Lemma input_vector_ok : forall C, complete_circuit C ->
  returns (input_vector (layer_at C 0)) (fun l => tab (2 ^ bit_length (layer_at C 0)) l
    (2 ^ bit_length (layer_at C 0)) (vals C 0)).
Proof.
  intros C CC. unfold input_vector. set (n := 2 ^ bit_length (layer_at C 0)).
  assert (V0 : vals C 0 = input_spec (layer_at C 0)).
  { apply vals_0. intro E. pose proof (cc_depth C CC). pose proof (cc_pos C CC). rewrite E in H. simpl in H. lia. }
  pose proof (cc_gates C CC 0 (cc_pos C CC)) as HG.
  apply (returns_for _ n 0 _ (fun i l => tab n l i (vals C 0))).
  - pose proof (tab_nil (repeat fe_zero n) (vals C 0)) as K. rewrite repeat_length in K. exact K.
  - intros i l Hi T. simpl in Hi. eapply rb_nth; [apply gate_rd; unfold n in *; lia|].
    assert (HL : length l = n) by apply T.
    destruct (cc_input C CC i ltac:(unfold n in *; lia)) as [E|[E E0]]; rewrite E.
    + cbn [Z.eqb Pos.eqb]. apply returns_wr; [lia|]. apply tab_push; [exact T|lia|].
      rewrite V0. apply rep_of_int.
    + cbn [Z.eqb Pos.eqb]. apply returns_wr; [lia|]. apply tab_push; [exact T|lia|].
      rewrite V0. unfold input_spec. rewrite E0. apply rep_of_int.
Qed.

Theorem verify_honest_ok : forall C rnd, complete_circuit C -> (forall k, reduced (rnd k)) ->
  run_fast_track C rnd = Ok true.
Proof.
  intros C rnd CC Hrnd. set (m := max_bit_length C).
  pose proof (cc_depth C CC) as D. pose proof (cc_pos C CC) as Dp.
  assert (Hm : forall k, k < total_depth C -> bit_length (layer_at C k) <= m) by (intros; apply bit_length_max; lia).
  cut (returns (verify_body honest C rnd (init_betas m) (init_prover C m)) (eq true)).
  { intros (x & E & <-). unfold run_fast_track, verify. fold m. rewrite E. reflexivity. }
  unfold verify_body. set (d := total_depth C) in *.
  eapply returns_bind; [cbn [if_evaluate honest]; apply evaluate_ok, complete_wf, CC|].
  intros [result p0]. cbn [fst snd]. intros (cv & E0 & Rows & Er). cbn [init_prover p_C] in Rows, Er. fold d in Rows, Er.
  eapply rb_nth; [apply layer_rd; fold d; lia|]. set (lo := bit_length (layer_at C (d - 1))).
  destruct (generate_randomness rnd 0 lo) as [r_0 pos0] eqn:Eu.
  destruct (generate_randomness rnd pos0 lo) as [r_1 pos1] eqn:Ev.
  pose proof (generate_randomness_ok rnd 0 lo Hrnd) as Hr0. rewrite Eu in Hr0. cbn [fst] in Hr0.
  pose proof (generate_randomness_ok rnd pos0 lo Hrnd) as Hr1. rewrite Ev in Hr1. cbn [fst] in Hr1.
  set (R0 := map _ _) in Hr0. set (R1 := map _ _) in Hr1.
  assert (L0 : length R0 = lo) by (unfold R0; rewrite map_length, seq_length; reflexivity).
  assert (L1 : length R1 = lo) by (unfold R1; rewrite map_length, seq_length; reflexivity).
  clearbody R0 R1. clear Eu Ev.
  eapply returns_bind; [apply (one_minus_ok r_0 R0 lo Hr0); symmetry; exact L0|]. intros o_0 Ho0.
  eapply returns_bind; [apply (one_minus_ok r_1 R1 lo Hr1); symmetry; exact L1|]. intros o_1 Ho1. cbv beta in Ho0, Ho1.
  destruct Rows as [Lcv Rows]. destruct (Rows (d - 1) ltac:(lia)) as (row & Erow & Trow).
  assert (result = row) as -> by congruence. fold lo in Trow.
  cbn [if_V_res honest].
  eapply (returns_bind _ _ _ _ (fun x => rep (fst x) (mle R0 (vals C (d - 1))) /\ snd x = p0)).
  { eapply returns_bind; [rewrite <- L0 in *; eapply V_res_ok; [exact Hr0|exact Ho0|exact Trow]|].
    intros x Rx. apply returns_ok. split; [exact Rx|reflexivity]. }
  intros [a_0 p1]. cbn [fst snd]. intros [Ra0 ->].
  assert (PI : pinv C m p0).
  { rewrite E0. apply init_pinv_sizes. split; assumption. }
  eapply returns_bind.
  { apply (returns_for _ (d - 1) 0 _ (fun k st => exists a be R0 R1, claim C m (d - 1 - k) st a be R0 R1)).
    - exists 1%F, 0%F, R0, R1. rewrite Nat.sub_0_r. constructor;
        cbn [s_p s_alpha s_beta s_r0 s_r1 s_o0 s_o1 s_B s_sum]; try assumption.
      + exact rep_i1.
      + exact rep_i0.
      + intros _. assumption.
      + unfold init_betas. cbn [b_g0 b_g1 b_u b_v]. rewrite repeat_length. auto.
      + destruct (Nat.eqb_spec (d - 1) 0) as [E|E].
        * rewrite E in Ra0. lzr.
        * lzr.
    - intros k st Hk (a & be & R0' & R1' & CL). simpl in Hk.
      eapply returns_conseq; [apply (verify_layer_ok C m (d - 1 - k) rnd CC ltac:(fold d; lia) Hm Hrnd honest st a be R0' R1' (honest_like _) CL)|].
      intros st' H. cbv beta in H. replace (d - 1 - S k) with (d - 1 - k - 1) by lia. exact H. }
  simpl (0 + (d - 1)). rewrite Nat.sub_diag. intros st (a & be & R0' & R1' & CL).
  eapply rb_nth; [apply layer_rd; fold d; lia|].
  eapply returns_bind; [apply input_vector_ok, CC|]. intros input Ti. cbv beta in Ti.
  destruct CL as [_ _ _ Kr0 _ Ko0 Kl0 _ _ _ Ks]. cbn [Nat.eqb] in Ks.
  eapply returns_bind.
  { rewrite <- Kl0 in *. eapply V_in_ok; [exact Kr0|exact Ko0|exact Ti]. }
  intros x Rx. cbv beta in Rx.
  apply rb_reject; [eapply rep_fne_false; [exact Ks|exact Rx|reflexivity]|].
  apply returns_ok. reflexivity.
Qed.
