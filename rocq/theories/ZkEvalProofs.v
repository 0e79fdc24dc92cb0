(** * Evaluation in the zk prover (C16, C17, C18) *)
From Coq Require Import ZArith List Bool Arith Lia Ring.
From Verif Require Import Limbs LimbsProofs Field FieldProofs Fp Base MleSpec Circuit FastProver Lazy TablesProofs FastProverProofs
  Loader SpecLoader LoaderProofs ZkEval.
Import ListNotations.
Open Scope nat_scope.

Definition zreads_in (n : nat) (g : gate) : Prop :=
  match g_ty g with
  | 12%Z => (0 <= g_u g < Z.of_nat n /\ 0 <= g_v g < Z.of_nat n /\ g_u g < 2 ^ 31 /\ g_v g - g_u g + 1 <= 63)%Z
  | 13%Z => (0 <= g_u g < Z.of_nat n /\ g_u g = g_v g)%Z
  | _ => reads_in n g
  end.

Lemma Fpow_two : forall k, (k < 64) -> rep (fe_of_ull (2 ^ Z.of_nat k)) (Fpow (1 + 1) k).
Proof.
  intros k H. replace (Fpow (1 + 1) k) with (ofZ (2 ^ Z.of_nat k)).
  - apply rep_of_ull_small. split; [apply Z.pow_nonneg; lia|]. rewrite W64_val. change 18446744073709551616%Z with (2 ^ 64)%Z. apply Z.pow_lt_mono_r; lia.
  - clear H. induction k; [reflexivity|]. rewrite Nat2Z.inj_succ, Z.pow_succ_r by lia.
    cbn [Fpow]. rewrite <- IHk, ofZ_mul. f_equal.
Qed.

Lemma zgate_value_ok : forall N prev n V g, tab N prev n V -> zreads_in n g ->
  returns (zgate_value prev (g_ty g) (g_u g) (g_v g)) (fun x => rep x (gate_spec V g)).
Proof.
  intros N prev n V [ty u v] T R.
  destruct (Z.eq_dec ty 12) as [->|N12]; [|destruct (Z.eq_dec ty 13) as [->|N13]].
  - unfold zreads_in in R. cbn [g_ty g_u g_v] in *. destruct R as (R1 & R2 & R3 & R4). unfold zgate_value, gate_spec. cbn [g_ty g_u g_v].
    unfold int_op, in_int.
    assert (B1 : ((- 2 ^ 31 <=? v - u) && (v - u <? 2 ^ 31))%Z = true) by (apply andb_true_iff; split; [apply Z.leb_le|apply Z.ltb_lt]; lia).
    assert (B2 : ((- 2 ^ 31 <=? v - u + 1) && (v - u + 1 <? 2 ^ 31))%Z = true) by (apply andb_true_iff; split; [apply Z.leb_le|apply Z.ltb_lt]; lia).
    rewrite B1, bind_ok, B2, bind_ok.
    apply rb_assert; [apply Z.leb_le; lia|].
    destruct (Z_le_gt_dec u (v + 1)) as [L|L].
    + eapply returns_conseq.
      * apply (returns_forz _ u (v + 1) _ (fun k x => rep x (sumn (Z.to_nat k - Z.to_nat u) (fun k => Fpow (1 + 1) k * V (Z.to_nat u + k)%nat)%F))); [lia| |].
        -- rewrite Nat.sub_diag. exact rep_i0.
        -- intros k x Hk Rx. apply rb_idx; [lia|]. eapply rb_tab; [exact T|lia|]. intros y Ry. apply returns_ok.
           replace (Z.to_nat (k + 1) - Z.to_nat u) with (S (Z.to_nat k - Z.to_nat u)) by lia. cbn [sumn].
           replace (Z.to_nat u + (Z.to_nat k - Z.to_nat u)) with (Z.to_nat k) by lia.
           apply rep_add; [exact Rx|].
           replace (Fpow (1 + 1) (Z.to_nat k - Z.to_nat u) * V (Z.to_nat k))%F
             with (V (Z.to_nat k) * Fpow (1 + 1) (Z.to_nat k - Z.to_nat u))%F by ring.
           apply rep_mul; [exact Ry|].
           replace (k - u)%Z with (Z.of_nat (Z.to_nat k - Z.to_nat u)) by lia. apply Fpow_two. lia.
      * cbv beta. intros x Rx. replace (Z.to_nat v + 1 - Z.to_nat u) with (Z.to_nat (v + 1) - Z.to_nat u) by lia. exact Rx.
    + unfold forz. replace (Z.to_nat (v + 1 - u)) with 0 by lia.
      replace (Z.to_nat v + 1 - Z.to_nat u) with 0 by lia. apply returns_ok. exact rep_i0.
  - unfold zreads_in in R. cbn [g_ty g_u g_v] in *. destruct R as (R1 & ->). unfold zgate_value, gate_spec. cbn [g_ty g_u g_v].
    apply rb_assert; [apply Z.eqb_refl|].
    apply rb_idx; [lia|]. eapply rb_tab; [exact T|lia|]. intros x Rx.
    apply rb_idx; [lia|]. eapply rb_tab; [exact T|lia|]. intros y Ry. apply returns_ok.
    apply rep_mul; [exact Rx|]. apply rep_sub; [exact rep_i1|exact Ry].
  - assert (E : zgate_value prev ty u v = gate_value prev ty u v).
    { unfold zgate_value. destruct ty as [|[p|p|]|]; try reflexivity;
      repeat (destruct p as [p|p|]; try reflexivity); exfalso; congruence. }
    cbn [g_ty g_u g_v]. rewrite E. apply (gate_value_ok N prev n V (Gate ty u v) T).
    unfold zreads_in in R. cbn [g_ty] in R.
    destruct ty as [|[p|p|]|]; try exact R;
      repeat (destruct p as [p|p|]; try exact R); exfalso; congruence.
Qed.

Lemma zlayer_values_ok : forall L N prev n V, 2 ^ bit_length L <= length (gates L) -> tab N prev n V ->
  (forall g, g < 2 ^ bit_length L -> zreads_in n (gate_at L g)) ->
  returns (zlayer_values L prev) (fun row => tab (2 ^ bit_length L) row (2 ^ bit_length L)
     (fun g => gate_spec V (gate_at L g))).
Proof.
  intros L N prev n V HG TP HR. unfold zlayer_values. set (m := 2 ^ bit_length L) in *.
  eapply returns_conseq; [apply (returns_for _ m 0 _ (fun i row => tab m row i (fun g => gate_spec V (gate_at L g))))|].
  - pose proof (tab_nil (repeat fe_zero m) (fun g => gate_spec V (gate_at L g))) as K.
    rewrite repeat_length in K. exact K.
  - intros i row Hi T. simpl in Hi.
    eapply rb_nth; [apply gate_rd; lia|].
    eapply returns_bind; [eapply zgate_value_ok; [exact TP|apply HR; lia]|]. intros x Rx.
    apply returns_wr; [destruct T as [-> _]; lia|]. apply tab_push; [exact T|lia|exact Rx].
  - intros a H. exact H.
Qed.

(** Circuits the zk prover evaluates without failing. *)
Record zwf_circuit (C : layered_circuit) : Prop := {
  zwf_depth : total_depth C = length (circuit C);
  zwf_pos : 0 < total_depth C;
  zwf_small : (Z.of_nat (total_depth C) < 1000000)%Z;
  zwf_gates : forall i, i < total_depth C -> 2 ^ bit_length (layer_at C i) <= length (gates (layer_at C i));
  zwf_input : forall g, g < 2 ^ bit_length (layer_at C 0) ->
     g_ty (gate_at (layer_at C 0) g) = 3%Z \/ g_ty (gate_at (layer_at C 0) g) = 2%Z;
  zwf_wires : forall i g, 0 < i < total_depth C -> g < 2 ^ bit_length (layer_at C i) ->
     zreads_in (2 ^ bit_length (layer_at C (i - 1))) (gate_at (layer_at C i) g) }.
Lemma zevaluate_ok : forall C, zwf_circuit C ->
  returns (zevaluate C) (fun x => rows_ok C (total_depth C) (snd x) /\
     nth_error (snd x) (total_depth C - 1) = Some (fst x)).
Proof.
  intros C WF. destruct WF as [D0 Dp Ds Hg Hi Hw]. unfold zevaluate.
  eapply rb_nth; [apply layer_rd; lia|].
  eapply returns_bind; [apply input_values_ok; [apply Hg; lia|exact Hi]|]. intros row0 T0. cbv beta in T0.
  apply rb_assert; [apply Z.ltb_lt; exact Ds|].
  eapply returns_bind.
  - apply (returns_for _ (total_depth C - 1) 1 _ (fun i cv => rows_ok C i cv)).
    + split; [reflexivity|]. intros i Hi'. assert (i = 0) as -> by lia. exists row0. split; [reflexivity|].
      rewrite vals_0; [exact T0|]. intro E. rewrite E in D0. simpl in D0. lia.
    + intros i cv Hi' [L R]. eapply rb_nth; [apply layer_rd; lia|].
      destruct (R (i - 1) ltac:(lia)) as (prev & En & Tp).
      eapply rb_nth; [exact En|].
      eapply returns_bind; [eapply zlayer_values_ok; [apply Hg; lia|exact Tp|intros; apply Hw; lia]|].
      intros row Tr. cbv beta in Tr. apply returns_ok. split; [rewrite app_length; simpl; lia|].
      intros k Hk. destruct (Nat.eq_dec k i) as [->|Nk].
      * exists row. rewrite nth_error_app2 by lia. rewrite L, Nat.sub_diag. split; [reflexivity|].
        replace i with (S (i - 1)) at 3 by lia. rewrite vals_S by lia.
        replace (S (i - 1)) with i by lia. exact Tr.
      * rewrite nth_error_app1 by lia. apply R. lia.
  - replace (1 + (total_depth C - 1)) with (total_depth C) by lia. intros cv HR. pose proof HR as [L R].
    destruct (R (total_depth C - 1) ltac:(lia)) as (row & En & Tr).
    eapply rb_nth; [exact En|]. apply returns_ok. cbn [fst snd]. split; [exact HR|exact En].
Qed.

(** ** Safety: no undefined behaviour *)
(** Either a value satisfying [Q] or a failed assertion. *)
Definition okfail {A} (m : outcome A) (Q : A -> Prop) : Prop := (exists a, m = Ok a /\ Q a) \/ m = AssertFail.
Lemma okfail_ok : forall A (a : A) (Q : A -> Prop), Q a -> okfail (Ok a) Q.
Proof. intros. left. exists a. split; [reflexivity|assumption]. Qed.
Lemma okfail_bind : forall A B (m : outcome A) (k : A -> outcome B) P Q,
  okfail m P -> (forall a, P a -> okfail (k a) Q) -> okfail (bind m k) Q.
Proof.
  intros A B m k P Q [(a & -> & Pa)| ->] H; [|right; reflexivity].
  rewrite bind_ok. apply H, Pa.
Qed.
Lemma okfail_rd : forall A B (l : list A) i (k : A -> outcome B) Q, i < length l ->
  (forall x, nth_error l i = Some x -> okfail (k x) Q) -> okfail (bind (rd l i) k) Q.
Proof.
  intros A B l i k Q H K. unfold rd. destruct (nth_error l i) eqn:E.
  - rewrite bind_ok. apply K. reflexivity.
  - apply nth_error_None in E. lia.
Qed.
Lemma okfail_idx : forall B z (k : nat -> outcome B) Q, (0 <= z)%Z -> okfail (k (Z.to_nat z)) Q -> okfail (bind (idx z) k) Q.
Proof. intros B z k Q H K. unfold idx. destruct (Z.ltb_spec z 0); [lia|]. rewrite bind_ok. exact K. Qed.
Lemma okfail_wr : forall A (l : list A) i x (Q : list A -> Prop), i < length l -> Q (upd l i x) -> okfail (wr l i x) Q.
Proof.
  intros A l i x Q H K. unfold wr. destruct (Nat.ltb_spec i (length l)); [|lia]. apply okfail_ok, K.
Qed.
Lemma okfail_assert : forall B b (k : outcome B) Q, (b = true -> okfail k Q) -> okfail (assert_ b ;;; k) Q.
Proof. intros B [|] k Q H; [exact (H eq_refl)|right; reflexivity]. Qed.
Lemma okfail_for : forall S n start (body : nat -> S -> outcome S) (Inv : nat -> S -> Prop) s,
  Inv start s -> (forall i s, start <= i < start + n -> Inv i s -> okfail (body i s) (Inv (i + 1))) ->
  okfail (for_ n start body s) (Inv (start + n)).
Proof.
  intros S0 n. induction n; intros start body Inv s H B.
  - rewrite Nat.add_0_r. apply okfail_ok, H.
  - rewrite for_S. eapply okfail_bind; [apply B; [lia|exact H]|]. intros a Ha. cbv beta in Ha.
    replace (start + S n) with (S start + n) by lia. apply IHn.
    + rewrite Nat.add_1_r in Ha. exact Ha.
    + intros i s' Hi. apply B. lia.
Qed.
Lemma okfail_conseq : forall A (m : outcome A) (P Q : A -> Prop), okfail m P -> (forall a, P a -> Q a) -> okfail m Q.
Proof. intros A m P Q [(a & E & Pa)|E] H; [left; exists a; auto|right; exact E]. Qed.

(** What the loader's range check gives. *)
Definition zsafe_in (n : nat) (g : gate) : Prop :=
  g_ty g = 2%Z \/ g_ty g = 3%Z \/
  (0 <= g_u g < Z.of_nat n /\ g_u g < 2 ^ 31)%Z /\
  (g_ty g <> 5 -> 0 <= g_v g < Z.of_nat n /\ g_v g < 2 ^ 31 - 1)%Z /\ (g_ty g = 5 -> g_v g <= Z.of_nat n)%Z.
Lemma okfail_forz : forall S u v (body : Z -> S -> outcome S) s (Q : S -> Prop),
  Q s -> (forall k s, (u <= k < v)%Z -> Q s -> okfail (body k s) Q) -> okfail (forz u v body s) Q.
Proof.
  intros S0 u v body s Q H B. unfold forz.
  eapply okfail_conseq; [apply (okfail_for _ _ _ _ (fun _ => Q)); [exact H|]|intros a Ha; exact Ha].
  intros i s' Hi Qs. apply B; [|exact Qs]. lia.
Qed.
Lemma zgate_value_safe : forall prev n g, length prev = n -> zsafe_in n g ->
  okfail (zgate_value prev (g_ty g) (g_u g) (g_v g)) (fun _ => True).
Proof.
  intros prev n [ty u v] <- R. unfold zsafe_in in R. cbn [g_ty g_u g_v] in *.
  assert (T : forall z (k : fe -> outcome fe), (0 <= z < Z.of_nat (length prev))%Z -> (forall x, okfail (k x) (fun _ => True)) ->
     okfail (iu <- idx z ;; x <- rd prev iu ;; k x) (fun _ => True)).
  { intros z k Hz K. apply okfail_idx; [lia|]. apply okfail_rd; [lia|]. intros x _. apply K. }
  assert (T1 : forall z, (0 <= z < Z.of_nat (length prev))%Z -> okfail (iu <- idx z ;; rd prev iu) (fun _ => True)).
  { intros z Hz. apply okfail_idx; [lia|]. unfold rd. destruct (nth_error prev (Z.to_nat z)) eqn:E; [apply okfail_ok; exact I|].
    apply nth_error_None in E. lia. }
  assert (O : forall x : fe, okfail (Ok x) (fun _ => True)) by (intro; apply okfail_ok; exact I).
  destruct (Z.eq_dec ty 12) as [->|N12]; [|destruct (Z.eq_dec ty 13) as [->|N13]].
  - destruct R as [R|[R|(R1 & R2 & R3)]]; try discriminate R. specialize (R2 ltac:(lia)).
    unfold zgate_value, int_op, in_int.
    assert (B1 : ((- 2 ^ 31 <=? v - u) && (v - u <? 2 ^ 31))%Z = true) by (apply andb_true_iff; split; [apply Z.leb_le|apply Z.ltb_lt]; lia).
    assert (B2 : ((- 2 ^ 31 <=? v - u + 1) && (v - u + 1 <? 2 ^ 31))%Z = true) by (apply andb_true_iff; split; [apply Z.leb_le|apply Z.ltb_lt]; lia).
    rewrite B1, bind_ok, B2, bind_ok. apply okfail_assert. intros _.
    apply okfail_forz; [exact I|]. intros k x Hk _. apply T; [lia|]. intro y. apply O.
  - destruct R as [R|[R|(R1 & R2 & R3)]]; try discriminate R. specialize (R2 ltac:(lia)).
    unfold zgate_value. apply okfail_assert. intros _. apply T; [lia|]. intro x. apply T; [lia|]. intro y. apply O.
  - assert (E : zgate_value prev ty u v = gate_value prev ty u v).
    { unfold zgate_value. destruct ty as [|[p|p|]|]; try reflexivity;
      repeat (destruct p as [p|p|]; try reflexivity); exfalso; congruence. }
    rewrite E. destruct (Z.eq_dec ty 5) as [->|N5].
    + destruct R as [R|[R|(R1 & R2 & R3)]]; try discriminate R. specialize (R3 eq_refl).
      unfold gate_value. apply okfail_forz; [exact I|]. intros k x Hk _. apply T; [lia|]. intro y. apply O.
    + destruct (Z.eq_dec ty 2) as [->|N2]; [apply O|]. destruct (Z.eq_dec ty 3) as [->|N3]; [apply O|].
      destruct R as [R|[R|(R1 & R2 & R3)]]; try congruence. destruct R1 as [R1 _]. destruct (R2 N5) as [R4 _].
      clear R2 R3 E N12 N13.
      unfold gate_value. destruct ty as [|p|p]; [|do 4 (try destruct p as [p|p|])|]; try congruence; try (right; reflexivity);
        first [apply T; [lia|]; intro x; first [apply O|apply T; [lia|]; intro y; apply O]|apply T1; lia].
Qed.
Lemma zlayer_values_safe : forall L prev n, length prev = n -> 2 ^ bit_length L <= length (gates L) ->
  (forall g, g < 2 ^ bit_length L -> zsafe_in n (gate_at L g)) ->
  okfail (zlayer_values L prev) (fun row => length row = 2 ^ bit_length L).
Proof.
  intros L prev n Hn HG HR. unfold zlayer_values.
  eapply okfail_conseq; [apply (okfail_for _ _ _ _ (fun _ row => length row = 2 ^ bit_length L))|intros a Ha; exact Ha].
  - apply repeat_length.
  - intros i row Hi Lr. apply okfail_rd; [lia|]. intros g Eg. rewrite gate_rd in Eg by lia. injection Eg as <-.
    eapply okfail_bind; [eapply zgate_value_safe; [exact Hn|apply HR; lia]|]. intros x _.
    apply okfail_wr; [lia|]. rewrite upd_length. exact Lr.
Qed.
Record zsafe_circuit (C : layered_circuit) : Prop := {
  zs_depth : total_depth C = length (circuit C);
  zs_pos : 0 < total_depth C;
  zs_gates : forall i, i < total_depth C -> 2 ^ bit_length (layer_at C i) <= length (gates (layer_at C i));
  zs_wires : forall i g, 0 < i < total_depth C -> g < 2 ^ bit_length (layer_at C i) ->
     zsafe_in (2 ^ bit_length (layer_at C (i - 1))) (gate_at (layer_at C i) g) }.
Lemma input_values_safe : forall L, 2 ^ bit_length L <= length (gates L) ->
  okfail (input_values L) (fun row => length row = 2 ^ bit_length L).
Proof.
  intros L HG. unfold input_values.
  eapply okfail_conseq; [apply (okfail_for _ _ _ _ (fun _ row => length row = 2 ^ bit_length L))|intros a Ha; exact Ha].
  - apply repeat_length.
  - intros i row Hi Lr. apply okfail_rd; [lia|]. intros g _. apply okfail_assert. intros _.
    apply okfail_wr; [lia|]. rewrite upd_length. exact Lr.
Qed.
Lemma zevaluate_safe : forall C, zsafe_circuit C -> okfail (zevaluate C) (fun _ => True).
Proof.
  intros C [D0 Dp Hg Hw]. unfold zevaluate.
  apply okfail_rd; [lia|]. intros L0 E0. rewrite layer_rd in E0 by lia. injection E0 as <-.
  eapply okfail_bind; [apply input_values_safe, Hg; lia|]. intros row0 T0. cbv beta in T0.
  apply okfail_assert. intros _.
  eapply okfail_bind.
  - apply (okfail_for _ _ _ _ (fun i cv => length cv = i /\ forall k row, nth_error cv k = Some row -> length row = 2 ^ bit_length (layer_at C k))).
    + split; [reflexivity|]. intros [|k] row E; [injection E as <-; exact T0|]. destruct k; discriminate E.
    + intros i cv Hi [Lc R]. apply okfail_rd; [lia|]. intros L E. rewrite layer_rd in E by lia. injection E as <-.
      apply okfail_rd; [lia|]. intros prev Ep. apply R in Ep.
      eapply okfail_bind; [apply (zlayer_values_safe _ _ _ Ep); [apply Hg; lia|intros g Hg'; apply Hw; lia]|].
      intros row Lr. cbv beta in Lr. apply okfail_ok. split; [rewrite app_length; cbn [length]; lia|].
      intros k row' E. destruct (Nat.lt_ge_cases k (length cv)) as [Hk|Hk].
      * rewrite nth_error_app1 in E by exact Hk. apply R, E.
      * rewrite nth_error_app2 in E by exact Hk. destruct (k - length cv) as [|m] eqn:Ek.
        -- injection E as <-. replace k with i by lia. exact Lr.
        -- destruct m; discriminate E.
  - intros cv [Lc _]. apply okfail_rd; [lia|]. intros ret _. apply okfail_ok. exact I.
Qed.
(** An input layer with fewer gates than [2^bit_length]. *)
Lemma input_values_ub : forall L, length (gates L) < 2 ^ bit_length L ->
  (forall g, g < length (gates L) -> g_ty (gate_at L g) = 3%Z \/ g_ty (gate_at L g) = 2%Z) -> input_values L = UB.
Proof.
  intros L H HT. unfold input_values. set (n := 2 ^ bit_length L) in *.
  assert (G : forall m start row, length row = n -> start <= length (gates L) -> start + m = n ->
    for_ m start (fun g row => gt <- rd (gates L) g ;; assert_ ((g_ty gt =? 3)%Z || (g_ty gt =? 2)%Z) ;;;
      wr row g (fe_of_int (g_u gt))) row = UB).
  { induction m; intros start row Lr Hs E; [lia|]. rewrite for_S.
    destruct (Nat.eq_dec start (length (gates L))) as [->|Ne].
    - unfold rd at 1. rewrite (proj2 (nth_error_None _ _)) by lia. reflexivity.
    - unfold rd at 1. rewrite gate_rd by lia. rewrite bind_ok.
      replace ((g_ty (gate_at L start) =? 3)%Z || (g_ty (gate_at L start) =? 2)%Z) with true
        by (destruct (HT start ltac:(lia)) as [-> | ->]; reflexivity).
      cbn [assert_]. rewrite bind_ok. unfold wr at 1. destruct (Nat.ltb_spec start (length row)); [|lia].
      rewrite bind_ok. apply IHm; [rewrite upd_length; exact Lr|lia|lia]. }
  apply G; [apply repeat_length|lia|lia].
Qed.
