(** * Initialisation of the two sumcheck phases (C24) *)
From Coq Require Import ZArith List Bool Arith Lia Ring.
From Verif Require Import Limbs Field FieldProofs Fp Base MleSpec GkrMath Poly PolyProofs Circuit
  FastProver Lazy TablesProofs FastProverProofs.
Import ListNotations.
Open Scope nat_scope.

(** Gates the protocol handles above the copy layer: types 0, 1, 2, 5-10 with
    wires inside the previous layer ([n] gates); the one-input types 6 and 10
    have second wire 0. *)
Definition proto_gate (n : nat) (g : gate) : Prop :=
  match g_ty g with
  | 0%Z | 1%Z | 7%Z | 8%Z | 9%Z => (0 <= g_u g < Z.of_nat n /\ 0 <= g_v g < Z.of_nat n)%Z
  | 6%Z | 10%Z => (0 <= g_u g < Z.of_nat n /\ g_v g = 0)%Z
  | 5%Z => (0 <= g_u g <= g_v g /\ g_v g <= Z.of_nat n)%Z
  | 2%Z => True
  | _ => False
  end.
Lemma proto_type : forall n g, proto_gate n g -> In (g_ty g) [0;1;2;5;6;7;8;9;10]%Z.
Proof.
  intros n [ty u v] R. unfold proto_gate in R. cbn [g_ty] in *.
  destruct ty as [|p|p]; cbn [In]; try tauto.
  repeat (destruct p as [p|p|]; cbn [In]; try (exfalso; exact R); try tauto).
Qed.
Ltac gate_cases H :=
  cbn [In] in H; destruct H as [H|[H|[H|[H|[H|[H|[H|[H|[H|[]]]]]]]]]]; symmetry in H.
Lemma proto_reads : forall n g, proto_gate n g -> reads_in n g.
Proof.
  intros n g H. pose proof (proto_type n g H) as T. unfold proto_gate, reads_in in *.
  gate_cases T; rewrite T in *; try exact H; try exact I; apply H.
Qed.
Lemma proto_range : forall n g, 0 < n -> proto_gate n g -> in_range n g.
Proof.
  intros n g Hn H. pose proof (proto_type n g H) as T. unfold proto_gate, in_range, wires in *.
  gate_cases T; rewrite T in *; intros w Hw; cbn [In] in Hw;
    try (destruct Hw as [<-|[]]; unfold w_l, w_r; cbn [fst snd]; lia); try contradiction.
  apply in_map_iff in Hw. destruct Hw as (k & <- & Hk). apply in_seq in Hk. unfold w_l, w_r. cbn [fst snd]. lia.
Qed.
Lemma lsum_seq : forall u n (f : nat -> F), lsum (seq u n) f = sumn n (fun k => f (u + k)).
Proof.
  intros u n f. induction n; [reflexivity|]. rewrite seq_S, lsum_app, IHn, lsum_cons, lsum_nil. cbn [sumn]. ring.
Qed.
(** The bilinear form of a gate computes its value. *)
Lemma proto_value : forall n V g, proto_gate n g -> gval V g = gate_spec V g.
Proof.
  intros n V g H. pose proof (proto_type n g H) as T. unfold gval, gate_spec, wires.
  gate_cases T; rewrite T in *; rewrite ?lsum_cons, ?lsum_nil; unfold fval, w_l, w_r, w_c; cbn [form_of c11 c10 c01 c00 fst snd];
    try (unfold two; ring).
  rewrite lsum_map, lsum_seq. apply sumn_ext. intros k _. cbn [fst snd]. ring.
Qed.

(** ** Resetting the tables *)
Lemma linear_of_a : forall x, rep (l_a (linear_of x)) 0%F.
Proof. intro x. exact rep_i0. Qed.
Lemma linear_of_b : forall x a, rep x a -> rep (l_b (linear_of x)) a.
Proof. intros x a H. exact H. Qed.
Lemma reset_arrays_ok : forall N Np prev n V lV lA lM,
  tab Np prev n V -> length lV = N -> length lA = N -> length lM = N -> n <= N ->
  returns (reset_arrays prev n lV lA lM) (fun st =>
    ltab N (fst (fst st)) n (fun _ => 0%F) V /\ ltab N (snd (fst st)) n (fun _ => 0%F) (fun _ => 0%F) /\
    ltab N (snd st) n (fun _ => 0%F) (fun _ => 0%F)).
Proof.
  intros N Np prev n V lV lA lM TP HV HA HM Hn. unfold reset_arrays.
  apply (returns_for _ n 0 _ (fun i st => ltab N (fst (fst st)) i (fun _ => 0%F) V /\
     ltab N (snd (fst st)) i (fun _ => 0%F) (fun _ => 0%F) /\ ltab N (snd st) i (fun _ => 0%F) (fun _ => 0%F))).
  - cbn [fst snd]. split; [rewrite <- HV; apply ltab_nil|]. split; [rewrite <- HA|rewrite <- HM]; apply ltab_nil.
  - intros i [[lV' lA'] lM'] Hi (TV & TA & TM). cbn [fst snd] in *. simpl in Hi.
    eapply rb_tab; [exact TP|lia|]. intros x Rx.
    apply rb_wr; [destruct TV as [-> _]; lia|]. apply rb_wr; [destruct TA as [-> _]; lia|].
    apply rb_wr; [destruct TM as [-> _]; lia|]. apply returns_ok. cbn [fst snd].
    split; [apply ltab_push; [exact TV|lia|apply linear_of_a|apply linear_of_b, Rx]|].
    split; (apply ltab_push; [assumption|lia|exact rep_i0|exact rep_i0]).
Qed.

(** ** Scattering the gates *)
Notation zt := (fun _ : nat => 0%F) (only parsing).
Definition adds (l : list (F * nat)) (f : nat -> F) : nat -> F :=
  fun x => (f x + lsum l (fun t => ind (x =? snd t)%nat * fst t))%F.
(** One gate adds the terms [tA], [tM] to the two tables. *)
Definition gate_step (N n : nat) (step : list linear_poly * list linear_poly ->
    outcome (list linear_poly * list linear_poly)) (tA tM : list (F * nat)) : Prop :=
  forall A M fA fM, ltab N A n zt fA -> ltab N M n zt fM ->
    returns (step (A, M)) (fun st => ltab N (fst st) n zt (adds tA fA) /\ ltab N (snd st) n zt (adds tM fM)).

Lemma gate_loop_ok : forall N n G step tA tM A M,
  (forall i, i < G -> gate_step N n (step i) (tA i) (tM i)) ->
  ltab N A n zt zt -> ltab N M n zt zt ->
  returns (for_ G 0 step (A, M)) (fun st => ltab N (fst st) n zt (scat G tA) /\ ltab N (snd st) n zt (scat G tM)).
Proof.
  intros N n G step tA tM A M HS TA TM.
  apply (returns_for _ G 0 _ (fun i st => ltab N (fst st) n zt (scat i tA) /\ ltab N (snd st) n zt (scat i tM))).
  - split; assumption.
  - intros i [A' M'] Hi [TA' TM']. cbn [fst snd] in *. simpl in Hi.
    eapply returns_conseq; [apply (HS i ltac:(lia) A' M' _ _ TA' TM')|]. intros [A2 M2] [H1 H2]. cbn [fst snd] in *.
    split; (eapply ltab_ext; [eassumption|reflexivity|intros k Hk; rewrite scat_S; reflexivity]).
Qed.

(** Adding one term. *)
Lemma rb_upd_b : forall B (R : B -> Prop) N l n fb k d f (c : list linear_poly -> outcome B),
  ltab N l n zt fb -> k < n -> (forall b, rep b (fb k) -> rep (f b) (fb k + d)%F) ->
  (forall l', ltab N l' n zt (fun i => fb i + ind (i =? k) * d)%F -> returns (c l') R) ->
  returns (bind (upd_b l k f) c) R.
Proof.
  intros B R N l n fb k d f c T Hk Hf K. eapply returns_bind; [|exact K].
  apply (ltab_upd_b N l n zt fb k d f _ T Hk Hf). intros l' H. exact H.
Qed.
Lemma adds_nil : forall f x, adds [] f x = f x.
Proof. intros. unfold adds. rewrite lsum_nil. ring. Qed.
Lemma adds_zero : forall l f x, (forall t, In t l -> fst t = 0%F) -> adds l f x = f x.
Proof.
  intros l f x H. unfold adds. rewrite (lsum_ext _ l _ (fun _ => 0 * 1)%F).
  - rewrite (lsum_scal _ l 0 (fun _ => 1)%F). ring.
  - intros t Ht. rewrite (H t Ht). ring.
Qed.
Lemma adds_snoc : forall l t f x, adds (l ++ [t]) f x = (adds l f x + ind (x =? snd t) * fst t)%F.
Proof. intros. unfold adds. rewrite lsum_app, lsum_cons, lsum_nil. ring. Qed.

Section Gates.
Variables (N n : nat) (Hn : 0 < n).
Variable G : nat.
Variable gt : nat -> gate.
Variable W : nat -> F.
Variable V : nat -> F.
Variable Np : nat.
Variable prev : list fe.
Hypothesis TP : tab Np prev n V.
Variable w : nat -> outcome fe.
Hypothesis Hw : forall k, k < G -> returns (w k) (fun x => rep x (W k)).
Lemma rb_w : forall B (R : B -> Prop) k (c : fe -> outcome B), k < G ->
  (forall x, rep x (W k) -> returns (c x) R) -> returns (bind (w k) c) R.
Proof. intros B R k c Hk K. eapply returns_bind; [apply Hw, Hk|exact K]. Qed.

(** The sum gate: the same amount is added at a range of positions. *)
Lemma range_add_ok : forall f d u v M fM, (0 <= u <= v)%Z -> (v <= Z.of_nat n)%Z ->
  (forall b a, rep b a -> rep (f b) (a + d)%F) -> ltab N M n zt fM ->
  returns (forz u v (fun j M => ij <- idx j ;; upd_b M ij f) M)
    (fun M' => ltab N M' n zt (adds (map (fun k => (d, k)) (seq (Z.to_nat u) (Z.to_nat v - Z.to_nat u))) fM)).
Proof.
  intros f d u v M fM H1 H2 Hf T.
  apply (returns_forz _ u v _ (fun j M' => ltab N M' n zt
     (adds (map (fun k => (d, k)) (seq (Z.to_nat u) (Z.to_nat j - Z.to_nat u))) fM))); [lia| |].
  - rewrite Nat.sub_diag. eapply ltab_ext; [exact T|reflexivity|]. intros. symmetry. apply adds_nil.
  - intros j M' Hj T'. apply rb_idx; [lia|].
    eapply ltab_upd_b; [exact T'|lia| |].
    + intros b Rb. apply Hf, Rb.
    + intros l H. eapply ltab_ext; [exact H|reflexivity|]. intros k Hk. cbv beta.
      replace (Z.to_nat (j + 1) - Z.to_nat u) with (S (Z.to_nat j - Z.to_nat u)) by lia.
      rewrite seq_S, map_app. cbn [map]. rewrite adds_snoc. cbn [fst snd].
      replace (Z.to_nat u + (Z.to_nat j - Z.to_nat u)) with (Z.to_nat j) by lia. reflexivity.
Qed.

Ltac sub_all := repeat match goal with x := _ |- _ => subst x end.
Ltac ub T d := eapply (rb_upd_b _ _ _ _ _ _ _ d); [exact T|lia|intros; eapply rep_eq; [lz|sub_all; ring]|].
Ltac fin T := eapply ltab_ext; [exact T|reflexivity|];
  intros k Hk; cbv beta; unfold adds, tA1, tM1, tA2, tM2, fo, wires; 
  repeat match goal with H : g_ty _ = _ |- _ => rewrite H end;
  cbn [map]; rewrite ?lsum_cons, ?lsum_nil; cbn [form_of c11 c10 c01 c00]; unfold w_c, w_l, w_r; cbn [fst snd];
  unfold two; sub_all; try ring.

Lemma phase1_gate_ok : forall i, i < G -> proto_gate n (gt i) ->
  gate_step N n (phase1_gate w prev i (gt i)) (tA1 gt W V i) (tM1 gt W V i).
Proof.
  intros i Hi HP A M fA fM TA TM. pose proof (proto_type n _ HP) as T.
  unfold proto_gate in HP. unfold phase1_gate.
  set (u := Z.to_nat (g_u (gt i))). set (v := Z.to_nat (g_v (gt i))).
  gate_cases T; rewrite T in HP |- *.
  - (* addition *)
    apply rb_w; [exact Hi|]. intros tmp Rt. apply rb_idx; [lia|]. apply rb_idx; [lia|].
    eapply rb_tab; [exact TP|lia|]. intros y Ry.
    ub TA (V v * W i)%F. intros A' TA'. ub TM (W i). intros M' TM'.
    apply returns_ok. split; [fin TA'|fin TM'].
  - (* multiplication *)
    apply rb_w; [exact Hi|]. intros tmp Rt. apply rb_idx; [lia|]. apply rb_idx; [lia|].
    eapply rb_tab; [exact TP|lia|]. intros y Ry.
    ub TM (V v * W i)%F. intros M' TM'.
    apply returns_ok. split; [fin TA|fin TM'].
  - (* dummy *)
    apply returns_ok. split; [fin TA|fin TM].
  - (* sum *)
    apply rb_w; [exact Hi|]. intros tmp Rt.
    eapply returns_bind.
    { eapply (range_add_ok _ (W i)); [lia|lia| |exact TM]. intros b a Rb. apply rep_cond_sub; assumption. }
    intros M' TM'. cbv beta in TM'. apply returns_ok. cbn [fst snd]. split.
    + eapply ltab_ext; [exact TA|reflexivity|]. intros k Hk. symmetry. apply adds_zero.
      intros t Ht. unfold tA1, fo in Ht. rewrite T in Ht. apply in_map_iff in Ht. destruct Ht as (x & <- & _).
      cbn [fst form_of c01 c00]. ring.
    + eapply ltab_ext; [exact TM'|reflexivity|]. intros k Hk. unfold adds, tM1, fo, wires. rewrite T.
      rewrite !lsum_map. f_equal. apply lsum_ext. intros x _. cbn [fst snd form_of c11 c10]. unfold w_c, w_l.
      cbn [fst snd]. ring.
  - (* not *)
    apply rb_w; [exact Hi|]. intros tmp Rt. apply rb_idx; [lia|].
    ub TM (- W i)%F. intros M' TM'. ub TA (W i). intros A' TA'.
    apply returns_ok. split; [fin TA'|fin TM'].
  - (* minus *)
    apply rb_w; [exact Hi|]. intros tmp Rt. apply rb_idx; [lia|]. apply rb_idx; [lia|].
    eapply rb_tab; [exact TP|lia|]. intros y Ry.
    ub TA (- (V v * W i))%F. intros A' TA'. ub TM (W i). intros M' TM'.
    apply returns_ok. split; [fin TA'|fin TM'].
  - (* xor *)
    apply rb_w; [exact Hi|]. intros tmp Rt. apply rb_idx; [lia|]. apply rb_idx; [lia|].
    eapply rb_tab; [exact TP|lia|]. intros y Ry.
    ub TA (V v * W i)%F. intros A' TA'. ub TM (W i - (1 + 1) * V v * W i)%F. intros M' TM'.
    apply returns_ok. split; [fin TA'|fin TM'].
  - (* not a and b *)
    apply rb_w; [exact Hi|]. intros tmp Rt. apply rb_idx; [lia|]. apply rb_idx; [lia|].
    eapply rb_tab; [exact TP|lia|]. intros y Ry.
    ub TA (V v * W i)%F. intros A' TA'. ub TM (- (V v * W i))%F. intros M' TM'.
    apply returns_ok. split; [fin TA'|fin TM'].
  - (* relay *)
    apply rb_w; [exact Hi|]. intros tmp Rt. apply rb_idx; [lia|].
    ub TM (W i). intros M' TM'.
    apply returns_ok. split; [fin TA|fin TM'].
Qed.

(** Copy gates of layer 1: gate [i] is [(4, i, 0)]. *)
Lemma phase1_copy_ok : forall i, i < G -> i < n -> gt i = Gate 4 (Z.of_nat i) 0 ->
  gate_step N n (phase1_gate w prev i (gt i)) [] [(W i, i)].
Proof.
  intros i Hi Hin E A M fA fM TA TM. rewrite E. cbn [phase1_gate g_ty g_u g_v].
  apply rb_idx; [lia|]. rewrite Nat2Z.id. apply rb_w; [exact Hi|]. intros tmp Rt.
  ub TM (W i). intros M' TM'. apply returns_ok. cbn [fst snd]. split.
  - eapply ltab_ext; [exact TA|reflexivity|]. intros. symmetry. apply adds_nil.
  - eapply ltab_ext; [exact TM'|reflexivity|]. intros k Hk. unfold adds. rewrite lsum_cons, lsum_nil.
    cbn [fst snd]. ring.
Qed.

(** Phase 2. *)
Variable U : nat -> F.
Variable wu : nat -> outcome fe.
Hypothesis Hwu : forall k, k < n -> returns (wu k) (fun x => rep x (U k)).
Variables (v_u : fe) (vu : F).
Hypothesis Rvu : rep v_u vu.
Lemma rb_wu : forall B (R : B -> Prop) k (c : fe -> outcome B), k < n ->
  (forall x, rep x (U k) -> returns (c x) R) -> returns (bind (wu k) c) R.
Proof. intros B R k c Hk K. eapply returns_bind; [apply Hwu, Hk|exact K]. Qed.

Lemma phase2_gate_ok : forall i, i < G -> proto_gate n (gt i) ->
  gate_step N n (phase2_gate wu w v_u i (gt i)) (tA2 gt W vu U i) (tM2 gt W vu U i).
Proof.
  intros i Hi HP A M fA fM TA TM. pose proof (proto_type n _ HP) as T.
  unfold proto_gate in HP. unfold phase2_gate.
  set (u := Z.to_nat (g_u (gt i))). set (v := Z.to_nat (g_v (gt i))).
  gate_cases T; rewrite T in HP |- *.
  - (* addition *)
    apply rb_idx; [lia|]. apply rb_wu; [lia|]. intros tu Ru. apply rb_w; [exact Hi|]. intros tg Rg.
    apply rb_idx; [lia|].
    ub TM (W i * U u)%F. intros M' TM'. ub TA (W i * U u * vu)%F. intros A' TA'.
    apply returns_ok. split; [fin TA'|fin TM'].
  - (* multiplication *)
    apply rb_idx; [lia|]. apply rb_wu; [lia|]. intros tu Ru. apply rb_w; [exact Hi|]. intros tg Rg.
    apply rb_idx; [lia|].
    ub TM (W i * U u * vu)%F. intros M' TM'.
    apply returns_ok. split; [fin TA|fin TM'].
  - (* dummy *)
    apply returns_ok. split; [fin TA|fin TM].
  - (* sum *)
    apply rb_w; [exact Hi|]. intros tg Rg. 
    assert (Rgv : rep (u512_mod (u512_mul tg v_u)) (W i * vu)%F) by lzr.
    eapply returns_bind.
    { apply (returns_forz _ _ _ _ (fun j A' => ltab N A' n zt
        (fun x => (fA x + ind (x =? 0) * sumn (Z.to_nat j - u) (fun k => W i * vu * U (u + k)%nat))%F))); [lia| |].
      - eapply ltab_ext; [exact TA|reflexivity|]. intros k Hk. subst u. rewrite Nat.sub_diag. cbn [sumn]. ring.
      - intros j A' Hj T'. apply rb_idx; [lia|]. apply rb_wu; [lia|]. intros tu Ru.
        eapply (ltab_upd_b _ _ _ _ _ _ (W i * vu * U (Z.to_nat j))%F); [exact T'|lia|intros; lzr|].
        intros l H. eapply ltab_ext; [exact H|reflexivity|]. intros k Hk. cbv beta.
        replace (Z.to_nat (j + 1) - u) with (S (Z.to_nat j - u)) by lia. cbn [sumn].
        replace (u + (Z.to_nat j - u)) with (Z.to_nat j) by lia. ring. }
    intros A' TA'. cbv beta in TA'. apply returns_ok. cbn [fst snd]. split.
    + eapply ltab_ext; [exact TA'|reflexivity|]. intros k Hk. cbv beta. fold v. unfold adds, tA2, fo, wires. rewrite T.
      rewrite !lsum_map. fold u v. rewrite lsum_seq, <- sumn_scal. f_equal. apply sumn_ext. intros x _.
      cbn [form_of c10 c00]. unfold w_c, w_l, w_r. cbn [fst snd]. ring.
    + eapply ltab_ext; [exact TM|reflexivity|]. intros k Hk. symmetry. apply adds_zero.
      intros t Ht. unfold tM2, fo in Ht. rewrite T in Ht. apply in_map_iff in Ht. destruct Ht as (x & <- & _).
      cbn [fst form_of c01 c11]. ring.
  - (* not *)
    apply rb_idx; [lia|]. apply rb_wu; [lia|]. intros tu Ru. apply rb_w; [exact Hi|]. intros tg Rg.
    apply rb_idx; [lia|].
    ub TA (W i * U u - W i * U u * vu)%F. intros A' TA'.
    apply returns_ok. split; [fin TA'|fin TM].
  - (* minus *)
    apply rb_idx; [lia|]. apply rb_wu; [lia|]. intros tu Ru. apply rb_w; [exact Hi|]. intros tg Rg.
    apply rb_idx; [lia|].
    ub TM (- (W i * U u))%F. intros M' TM'. ub TA (W i * U u * vu)%F. intros A' TA'.
    apply returns_ok. split; [fin TA'|fin TM'].
  - (* xor *)
    apply rb_idx; [lia|]. apply rb_wu; [lia|]. intros tu Ru. apply rb_w; [exact Hi|]. intros tg Rg.
    apply rb_idx; [lia|]. cbv zeta.
    ub TM (W i * U u - (1 + 1) * vu * (W i * U u))%F. intros M' TM'. ub TA (W i * U u * vu)%F. intros A' TA'.
    apply returns_ok. split; [fin TA'|fin TM'].
  - (* not a and b *)
    apply rb_idx; [lia|]. apply rb_wu; [lia|]. intros tu Ru. apply rb_w; [exact Hi|]. intros tg Rg.
    apply rb_idx; [lia|]. cbv zeta.
    ub TM (W i * U u - vu * (W i * U u))%F. intros M' TM'.
    apply returns_ok. split; [fin TA|fin TM'].
  - (* relay *)
    apply rb_idx; [lia|]. apply rb_wu; [lia|]. intros tu Ru. apply rb_w; [exact Hi|]. intros tg Rg.
    apply rb_idx; [lia|]. cbv zeta.
    ub TA (W i * U u * vu)%F. intros A' TA'. apply rb_assert; [apply Z.eqb_eq, HP|].
    apply returns_ok. split; [fin TA'|fin TM].
Qed.
Lemma phase2_copy_ok : forall i, gt i = Gate 4 (Z.of_nat i) 0 ->
  gate_step N n (phase2_gate wu w v_u i (gt i)) [] [].
Proof.
  intros i E A M fA fM TA TM. rewrite E. cbn [phase2_gate g_ty g_u g_v]. apply returns_ok. cbn [fst snd].
  split; (eapply ltab_ext; [eassumption|reflexivity|]; intros; symmetry; apply adds_nil).
Qed.
End Gates.

(** ** The two initialisations *)
(** Sizes and contents of the prover's memory that every layer relies on. *)
Record pinv (C : layered_circuit) (m : nat) (p : prover) : Prop := {
  pi_C : p_C p = C;
  pi_rows : rows_ok C (total_depth C) (p_circuit_value p);
  pi_V : length (p_Vmult p) = 2 ^ m; pi_A : length (p_addV p) = 2 ^ m; pi_M : length (p_addmult p) = 2 ^ m;
  pi_bu : length (p_beta_u p) = 2 ^ m; pi_bg : length (p_beta_g_sum p) = 2 ^ m;
  pi_g0f : length (p_g0f p) = 2 ^ (m / 2 + 1); pi_g0s : length (p_g0s p) = 2 ^ (m / 2 + 1);
  pi_g1f : length (p_g1f p) = 2 ^ (m / 2 + 1); pi_g1s : length (p_g1s p) = 2 ^ (m / 2 + 1);
  pi_uf : length (p_uf p) = 2 ^ (m / 2 + 1); pi_us : length (p_us p) = 2 ^ (m / 2 + 1) }.

(** Weight of gate [g] under the two output points. *)
Definition gw (a b : F) (R0 R1 : list F) (g : nat) : F := (a * eqw R0 g + b * eqw R1 g)%F.

(** The output point and combination coefficients stored by [sumcheck_init]. *)
Record pparams (p : prover) (lg : nat) (a b : F) (R0 R1 : list F) : Prop := {
  pp_lg : p_length_g p = lg;
  pp_a : rep (p_alpha p) a; pp_b : rep (p_beta p) b;
  pp_r0 : reps (p_r_0 p) R0; pp_r1 : reps (p_r_1 p) R1;
  pp_o0 : reps (p_o_r_0 p) (comp R0); pp_o1 : reps (p_o_r_1 p) (comp R1);
  pp_l0 : length R0 = lg; pp_l1 : length R1 = lg }.
(** The half tables for the output point. *)
Definition gtabs (p : prover) (H lg : nat) (a b : F) (R0 R1 : list F) : Prop :=
  let h := lg / 2 in
  eqtab H a (prs R0 (comp R0) 0 h) (p_g0f p) /\ eqtab H 1%F (prs R0 (comp R0) h (lg - h)) (p_g0s p) /\
  eqtab H b (prs R1 (comp R1) 0 h) (p_g1f p) /\ eqtab H 1%F (prs R1 (comp R1) h (lg - h)) (p_g1s p).

Lemma half_le : forall n, n / 2 <= n.
Proof. intro n. apply Nat.div_le_upper_bound; lia. Qed.
Lemma half_bound : forall n m, n <= m -> n - n / 2 <= m / 2 + 1.
Proof.
  intros n m H. pose proof (Nat.div_mod n 2 ltac:(lia)). pose proof (Nat.mod_upper_bound n 2 ltac:(lia)).
  pose proof (Nat.div_le_mono n m 2 ltac:(lia) H). lia.
Qed.
Lemma shr1_div2 : forall n, Nat.shiftr n 1 = n / 2.
Proof. intro n. rewrite shr_div. reflexivity. Qed.

Lemma gtabs_weight : forall p H lg a b R0 R1 i, length R0 = lg -> length R1 = lg ->
  gtabs p H lg a b R0 R1 -> i < 2 ^ lg ->
  returns (g_weight (p_g0f p) (p_g0s p) (p_g1f p) (p_g1s p) (Nat.shiftr lg 1) i)
    (fun x => rep x (gw a b R0 R1 i)).
Proof.
  intros p H lg a b R0 R1 i L0 L1 (T1 & T2 & T3 & T4) Hi. rewrite shr1_div2.
  pose proof (half_le lg) as HL.
  assert (E : forall R, length R = lg -> prs R (comp R) 0 (lg / 2) ++ prs R (comp R) (lg / 2) (lg - lg / 2) = point R).
  { intros R L. rewrite <- prs_app. replace (lg / 2 + (lg - lg / 2)) with (length R) by lia. apply prs_point. }
  eapply returns_conseq.
  - eapply (g_weight_ok H _ _ _ _ (lg / 2) _ _ _ _ a b i); [apply prs_length|apply prs_length| |exact T1|exact T2|exact T3|exact T4|].
    + rewrite !prs_length. reflexivity.
    + rewrite prs_length. replace (lg / 2 + (lg - lg / 2)) with lg by lia. exact Hi.
  - cbv beta. intros x Rx. rewrite (E R0 L0), (E R1 L1) in Rx. exact Rx.
Qed.

Lemma half_tables2_gen : forall H t0 t1 r0 o0 r1 o1 R0 R1 off n c0 c1 lg,
  reps r0 R0 -> reps o0 (comp R0) -> reps r1 R1 -> reps o1 (comp R1) -> length R0 = lg -> length R1 = lg ->
  off + n <= lg -> 2 ^ n <= H -> eqtab H c0 [] t0 -> eqtab H c1 [] t1 ->
  returns (half_tables2 r0 o0 r1 o1 off n t0 t1) (fun st =>
    eqtab H c0 (prs R0 (comp R0) off n) (fst st) /\ eqtab H c1 (prs R1 (comp R1) off n) (snd st)).
Proof.
  intros. apply half_tables2_ok; try assumption; rewrite ?comp_length; lia.
Qed.

Section Init.
Variables (C : layered_circuit) (m i : nat).
Hypothesis Hi : 0 < i < total_depth C.
Hypothesis WF : total_depth C = length (circuit C).
Let L := layer_at C i.
Let Lm := layer_at C (i - 1).
Let lg := bit_length L.
Let b := bit_length Lm.
Hypothesis Hlg : lg <= m.
Hypothesis Hb : b <= m.
Hypothesis HG : 2 ^ lg <= length (gates L).
Let V := vals C (i - 1).
Let N := 2 ^ m.
Let Hh := 2 ^ (m / 2 + 1).

Lemma pow_le : forall x y, x <= y -> 2 ^ x <= 2 ^ y.
Proof. intros. apply Nat.pow_le_mono_r; lia. Qed.

Lemma phase1_init_ok : forall p al be R0 R1 tA tM,
  pinv C m p -> p_layer p = i -> pparams p lg al be R0 R1 ->
  (forall w Np prev, tab Np prev (2 ^ b) V -> (forall k, k < 2 ^ lg -> returns (w k) (fun x => rep x (gw al be R0 R1 k))) ->
     forall k, k < 2 ^ lg -> gate_step N (2 ^ b) (phase1_gate w prev k (gate_at L k)) (tA k) (tM k)) ->
  returns (sumcheck_phase1_init p) (fun p' =>
    pinv C m p' /\ gtabs p' Hh lg al be R0 R1 /\
    tabs_bound N b p' V (scat (2 ^ lg) tM) (scat (2 ^ lg) tA) [] /\
    (exists lV lA lM g0f g0s g1f g1s gs, p' = set_g_tables (set_arrays p (2 ^ b) lV lA lM) g0f g0s g1f g1s gs)).
Proof.
  intros p al be R0 R1 tA tM PI Pl PP HS.
  destruct PI as [EC Rows lnV lnA lnM lnbu lnbg ln0f ln0s ln1f ln1s lnuf lnus].
  destruct PP as [Plg Pa Pb Pr0 Pr1 Po0 Po1 Pl0 Pl1].
  unfold sumcheck_phase1_init. rewrite EC, Pl, Plg.
  eapply rb_nth; [apply layer_rd; lia|]. eapply rb_nth; [apply layer_rd; lia|].
  destruct Rows as [RL RR]. destruct (RR (i - 1) ltac:(lia)) as (prev & Ep & TP).
  eapply rb_nth; [exact Ep|]. fold L Lm. fold b. fold V in TP. fold Lm in TP. fold b in TP.
  pose proof (pow_le _ _ Hb) as HbN. pose proof (pow_le _ _ Hlg) as HlN.
  eapply returns_bind; [eapply (reset_arrays_ok N); [exact TP|exact lnV|exact lnA|exact lnM|exact HbN]|].
  intros [[lV lA] lM] (TV & TA & TM). cbn [fst snd] in TV, TA, TM.
  assert (Hpos : 0 < Hh) by apply pow2_pos.
  assert (H1 : 2 ^ (lg / 2) <= Hh).
  { apply pow_le. pose proof (Nat.div_le_mono lg m 2 ltac:(lia) Hlg). lia. }
  assert (H2 : 2 ^ (lg - lg / 2) <= Hh) by (apply pow_le, half_bound, Hlg).
  apply rb_wr; [fold Hh in ln0f; lia|]. apply rb_wr; [fold Hh in ln1f; lia|].
  apply rb_wr; [fold Hh in ln0s; lia|]. apply rb_wr; [fold Hh in ln1s; lia|].
  fold lg. rewrite shr1_div2. pose proof (half_le lg) as HL.
  eapply returns_bind.
  { eapply (half_tables2_gen Hh _ _ _ _ _ _ R0 R1 0 (lg / 2) al be lg Pr0 Po0 Pr1 Po1 Pl0 Pl1 ltac:(lia) H1).
    - apply eqtab_init; [exact ln0f|exact Hpos|exact Pa].
    - apply eqtab_init; [exact ln1f|exact Hpos|exact Pb]. }
  intros [g0f g1f] [T0f T1f]. cbn [fst snd] in T0f, T1f.
  eapply returns_bind.
  { eapply (half_tables2_gen Hh _ _ _ _ _ _ R0 R1 (lg / 2) (lg - lg / 2) 1%F 1%F lg Pr0 Po0 Pr1 Po1 Pl0 Pl1 ltac:(lia) H2).
    - apply eqtab_init; [exact ln0s|exact Hpos|exact rep_i1].
    - apply eqtab_init; [exact ln1s|exact Hpos|exact rep_i1]. }
  intros [g0s g1s] [T0s T1s]. cbn [fst snd] in T0s, T1s.
  assert (GT : forall gs lV lA lM, gtabs (set_g_tables (set_arrays p (2 ^ b) lV lA lM) g0f g0s g1f g1s gs) Hh lg al be R0 R1).
  { intros. exact (conj T0f (conj T0s (conj T1f T1s))). }
  pose proof (fun k => gtabs_weight _ Hh lg al be R0 R1 k Pl0 Pl1 (GT [] [] [] [])) as HW.
  cbn [set_g_tables p_g0f p_g0s p_g1f p_g1s] in HW. rewrite shr1_div2 in HW.
  set (w := g_weight g0f g0s g1f g1s (lg / 2)) in *.
  eapply returns_bind.
  { apply (returns_for _ (2 ^ lg) 0 _ (fun _ gs => length gs = N)); [exact lnbg|].
    intros k gs Hk Lg. simpl in Hk. eapply returns_bind; [apply HW; lia|]. intros x Rx.
    apply returns_wr; [fold N in HlN; lia|]. rewrite upd_length. exact Lg. }
  intros gs Lgs. cbv beta in Lgs.
  eapply returns_bind.
  { apply (gate_loop_ok N (2 ^ b) (2 ^ lg) _ tA tM); [|exact TA|exact TM].
    intros k Hk A M fA fM TA' TM'. eapply rb_nth; [apply gate_rd; lia|].
    exact (HS w _ prev TP HW k Hk A M fA fM TA' TM'). }
  intros [A M] [TA' TM']. cbn [fst snd] in TA', TM'. apply returns_ok.
  split; [|split; [apply GT|split]].
  - destruct TV as [KV _]. destruct TA' as [KA _]. destruct TM' as [KM _].
    assert (E0f := T0f). destruct T0f as [K0f _]. destruct T0s as [K0s _]. destruct T1f as [K1f _]. destruct T1s as [K1s _].
    constructor; cbn [set_g_tables set_arrays p_C p_circuit_value p_Vmult p_addV p_addmult p_beta_u p_beta_g_sum p_g0f p_g0s p_g1f p_g1s p_uf p_us]; try assumption.
    split; assumption.
  - unfold tabs_bound, bound. cbn [set_g_tables set_arrays p_Vmult p_addV p_addmult p_total_uv length].
    rewrite Nat.sub_0_r. split; [eexists; exact TV|]. split; [eexists; exact TM'|]. split; [eexists; exact TA'|reflexivity].
  - repeat eexists.
Qed.

Lemma u_table_weight : forall uf us ru k, length ru = b ->
  eqtab Hh 1%F (prs ru (comp ru) 0 (b / 2)) uf -> eqtab Hh 1%F (prs ru (comp ru) (b / 2) (b - b / 2)) us ->
  k < 2 ^ b -> returns (u_weight uf us (b / 2) k) (fun x => rep x (eqw ru k)).
Proof.
  intros uf us ru k L1 T1 T2 Hk. pose proof (half_le b) as HL. eapply returns_conseq.
  - eapply u_weight_ok; [apply prs_length|exact T1|exact T2|]. rewrite prs_length.
    replace (b / 2 + (b - b / 2)) with b by lia. exact Hk.
  - cbv beta. intros x Rx. eapply rep_eq; [exact Rx|]. rewrite <- prs_app.
    replace (b / 2 + (b - b / 2)) with (length ru) by lia. rewrite prs_point. unfold eqw. ring.
Qed.

Lemma phase2_init_ok : forall p prev r_u o_u al be R0 R1 ru M1 A1 tA tM,
  pinv C m p -> p_layer p = i -> pparams p lg al be R0 R1 -> gtabs p Hh lg al be R0 R1 ->
  p_length_u p = b -> length ru = b -> reps r_u ru -> reps o_u (comp ru) ->
  tabs_bound N b p V M1 A1 ru -> rep prev (last ru 0%F) ->
  (forall wu w v_u, (forall k, k < 2 ^ b -> returns (wu k) (fun x => rep x (eqw ru k))) ->
     (forall k, k < 2 ^ lg -> returns (w k) (fun x => rep x (gw al be R0 R1 k))) ->
     rep v_u (mle ru V) ->
     forall k, k < 2 ^ lg -> gate_step N (2 ^ b) (phase2_gate wu w v_u k (gate_at L k)) (tA k) (tM k)) ->
  returns (sumcheck_phase2_init p prev r_u o_u) (fun p' =>
    pinv C m p' /\ rep (p_v_u p') (mle ru V) /\
    tabs_bound N b p' V (scat (2 ^ lg) tM) (scat (2 ^ lg) tA) [] /\
    (exists lV lA lM uf us bu vu, p' = set_v (set_u_tables (set_arrays p (2 ^ b) lV lA lM) uf us bu) vu (p_v_v p))).
Proof.
  intros p prev r_u o_u al be R0 R1 ru M1 A1 tA tM PI Pl PP GT PU Lru Hru Hou TB Hprev HS.
  destruct PI as [EC Rows lnV lnA lnM lnbu lnbg ln0f ln0s ln1f ln1s lnuf lnus].
  destruct PP as [Plg Pa Pb Pr0 Pr1 Po0 Po1 Pl0 Pl1].
  destruct TB as (BV & _ & _ & _). destruct (bound_final _ _ _ _ _ _ Lru BV Hprev) as (x & Ex & Rx).
  unfold sumcheck_phase2_init. rewrite EC, Pl, Plg, PU.
  eapply rb_nth; [exact Ex|].
  assert (Hpos : 0 < Hh) by apply pow2_pos.
  assert (H1 : 2 ^ (b / 2) <= Hh).
  { apply pow_le. pose proof (Nat.div_le_mono b m 2 ltac:(lia) Hb). lia. }
  assert (H2 : 2 ^ (b - b / 2) <= Hh) by (apply pow_le, half_bound, Hb).
  pose proof (half_le b) as HL. rewrite shr1_div2.
  apply rb_wr; [fold Hh in lnuf; lia|]. apply rb_wr; [fold Hh in lnus; lia|].
  eapply returns_bind.
  { eapply (half_table_ok Hh _ _ _ ru (comp ru) 0 (b / 2) 1%F Hru Hou); [lia|rewrite comp_length; lia|exact H1|].
    apply eqtab_init; [exact lnuf|exact Hpos|exact rep_i1]. }
  intros uf Tuf. cbv beta in Tuf.
  eapply returns_bind.
  { eapply (half_table_ok Hh _ _ _ ru (comp ru) (b / 2) (b - b / 2) 1%F Hru Hou); [lia|rewrite comp_length; lia|exact H2|].
    apply eqtab_init; [exact lnus|exact Hpos|exact rep_i1]. }
  intros us Tus. cbv beta in Tus.
  pose proof (fun k => u_table_weight uf us ru k Lru Tuf Tus) as HWU.
  set (wu := u_weight uf us (b / 2)) in *.
  pose proof (pow_le _ _ Hb) as HbN. pose proof (pow_le _ _ Hlg) as HlN. fold N in HbN, HlN.
  eapply returns_bind.
  { apply (returns_for _ (2 ^ b) 0 _ (fun _ bu => length bu = N)); [exact lnbu|].
    intros k bu Hk Lb. simpl in Hk. eapply returns_bind; [apply HWU; lia|]. intros y Ry.
    apply returns_wr; [lia|]. rewrite upd_length. exact Lb. }
  intros bu Lbu. cbv beta in Lbu.
  eapply rb_nth; [apply layer_rd; lia|]. eapply rb_nth; [apply layer_rd; lia|].
  pose proof Rows as [RL RR]. destruct (RR (i - 1) ltac:(lia)) as (pv & Ep & TP).
  eapply rb_nth; [exact Ep|]. fold L Lm. fold b lg. fold V in TP. fold Lm in TP. fold b in TP.
  eapply returns_bind; [eapply (reset_arrays_ok N); [exact TP|exact lnV|exact lnA|exact lnM|exact HbN]|].
  intros [[lV lA] lM] (TV & TA & TM). cbn [fst snd] in TV, TA, TM.
  pose proof (fun k => gtabs_weight _ Hh lg al be R0 R1 k Pl0 Pl1 GT) as HW.
  set (w := g_weight _ _ _ _ _) in *. 
  eapply returns_bind.
  { apply (gate_loop_ok N (2 ^ b) (2 ^ lg) _ tA tM); [|exact TA|exact TM].
    intros k Hk A M fA fM TA' TM'. eapply rb_nth; [apply gate_rd; lia|].
    exact (HS wu w _ HWU HW Rx k Hk A M fA fM TA' TM'). }
  intros [A M] [TA' TM']. cbn [fst snd] in TA', TM'. apply returns_ok.
  split; [|split; [|split]].
  - destruct TV as [KV _]. destruct TA' as [KA _]. destruct TM' as [KM _]. destruct Tuf as [Kuf _]. destruct Tus as [Kus _].
    constructor; cbn [set_v set_u_tables set_arrays p_C p_circuit_value p_Vmult p_addV p_addmult p_beta_u p_beta_g_sum p_g0f p_g0s p_g1f p_g1s p_uf p_us]; assumption.
  - exact Rx.
  - unfold tabs_bound, bound. cbn [set_v set_u_tables set_arrays p_Vmult p_addV p_addmult p_total_uv length].
    rewrite Nat.sub_0_r. split; [eexists; exact TV|]. split; [eexists; exact TM'|]. split; [eexists; exact TA'|reflexivity].
  - repeat eexists.
Qed.
End Init.
