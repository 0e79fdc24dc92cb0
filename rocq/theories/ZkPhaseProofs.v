(** * The zk prover: gates and initialisation of the two phases *)
From Coq Require Import ZArith List Bool Arith Lia Ring.
From Verif Require Import Limbs LimbsProofs Field FieldProofs Fp Base MleSpec GkrMath Poly PolyProofs Circuit
  FastProver Lazy TablesProofs FastProverProofs PhaseProofs ZkEval ZkEvalProofs VpdGroup VpdR VpdMask VpdInput ZkProver.
Import ListNotations.
Open Scope nat_scope.

(** ** Conditional reductions *)
Section Cred.
Local Open Scope Z_scope.
Lemma add_minus_mod : forall x, wf512 x -> P <= val512 x ->
  wf512 (u512_add x minus_mod_512) /\ val512 (u512_add x minus_mod_512) = val512 x - P.
Proof.
  intros x W H. destruct (u512_add_exact x _ W wf_minus_mod_512) as [W2 V2]. split; [exact W2|].
  rewrite V2, val_minus_mod_512. pose proof (val512_range x W) as R. pose proof P_pos.
  replace (val512 x + (W512 - P)) with (val512 x - P + 1 * W512) by ring.
  rewrite Z.mod_add by (assert (0 < W512) by (vm_compute; reflexivity); lia). apply Z.mod_small. lia.
Qed.
Lemma sub_modv : forall x, wf512 x -> P <= val512 x ->
  wf512 (u512_sub x modv) /\ val512 (u512_sub x modv) = val512 x - P.
Proof.
  intros x W H. rewrite modv_512. rewrite <- val_mod_512 in *. apply u512_sub_small; [exact W|apply wf_mod_512|exact H].
Qed.
(** Both ways of subtracting the modulus once. *)
Lemma ge_step : forall x, wf512 x -> (u512_ge x mod_512 = true /\ P <= val512 x) \/ (u512_ge x mod_512 = false /\ val512 x < P).
Proof.
  intros x W. pose proof (u512_cmp x mod_512 W wf_mod_512) as (G & _). rewrite val_mod_512 in G.
  destruct (u512_ge x mod_512).
  - left. split; [reflexivity|]. destruct G as [G _]. specialize (G eq_refl). lia.
  - right. split; [reflexivity|]. destruct (Z_lt_ge_dec (val512 x) P); [assumption|].
    destruct G as [_ G]. specialize (G g). discriminate.
Qed.
Lemma small_rep : forall x a, wf512 x -> val512 x < P -> ofZ (val512 x) = a -> rep x a.
Proof.
  intros x a W H E. split; [exact W|]. rewrite <- E. symmetry. apply fz_ofZ_small.
  pose proof (val512_range x W). lia.
Qed.
Lemma ofZ_subP : forall z, ofZ (z - P) = ofZ z.
Proof. intro z. rewrite ofZ_sub, ofZ_P. ring. Qed.
Lemma while_ge_ok : forall step a,
  (forall x, wf512 x -> P <= val512 x -> wf512 (step x) /\ val512 (step x) = val512 x - P) ->
  forall fuel x, wf512 x -> ofZ (val512 x) = a -> val512 x < Z.of_nat (S fuel) * P ->
  returns (while_ge mod_512 step fuel x) (fun y => rep y a).
Proof.
  intros step a HS. induction fuel as [|f IH]; intros x W E B.
  - cbn [while_ge]. destruct (ge_step x W) as [[G H]|[G H]]; rewrite G; [lia|].
    apply returns_ok. apply small_rep; assumption.
  - cbn [while_ge]. destruct (ge_step x W) as [[G H]|[G H]]; rewrite G.
    + destruct (HS x W H) as [W2 V2]. apply IH; [exact W2|rewrite V2, ofZ_subP; exact E|rewrite V2].
      rewrite Nat2Z.inj_succ in B. lia.
    + apply returns_ok. apply small_rep; assumption.
Qed.
Lemma lzy_lt9 : forall x a n, lzy x a 0 n -> (n <=? 8) = true -> val512 x < Z.of_nat 9 * P.
Proof.
  intros x a n (W & B & _) K. apply Z.leb_le in K. pose proof P_pos. nia.
Qed.
Lemma wred_ok : forall x a n, lzy x a 0 n -> (n <=? 8) = true -> returns (wred x) (fun y => rep y a).
Proof.
  intros x a n H K. apply while_ge_ok.
  - intros y. apply add_minus_mod.
  - apply H.
  - apply H.
  - eapply lzy_lt9; eassumption.
Qed.
Lemma wred_sub_ok : forall x a n, lzy x a 0 n -> (n <=? 8) = true -> returns (wred_sub x) (fun y => rep y a).
Proof.
  intros x a n H K. unfold wred_sub. rewrite modv_512. apply while_ge_ok.
  - intros y. rewrite <- modv_512. apply sub_modv.
  - apply H.
  - apply H.
  - eapply lzy_lt9; eassumption.
Qed.
Lemma wred_ok2 : forall x a m n, lzy x a m n -> ((m =? 0) && (n <=? 8)) = true -> returns (wred x) (fun y => rep y a).
Proof. intros x a m n H K. apply andb_prop in K. destruct K as [K1 K2]. apply Z.eqb_eq in K1. subst m. eapply wred_ok; eassumption. Qed.
Lemma wred_sub_ok2 : forall x a m n, lzy x a m n -> ((m =? 0) && (n <=? 8)) = true -> returns (wred_sub x) (fun y => rep y a).
Proof. intros x a m n H K. apply andb_prop in K. destruct K as [K1 K2]. apply Z.eqb_eq in K1. subst m. eapply wred_sub_ok; eassumption. Qed.
Lemma cred_ok : forall x y a b, rep x a -> rep y b -> rep (cred (u512_add x y)) (a + b)%F.
Proof.
  intros x y a b Rx Ry. pose proof (lzy_add _ _ _ _ _ _ _ _ (lzy_rep _ _ Rx) (lzy_rep _ _ Ry) eq_refl) as L.
  assert (B : val512 (u512_add x y) < 2 * P).
  { destruct Rx as [W V], Ry as [W' V']. pose proof (fz_range a). pose proof (fz_range b).
    pose proof P_lt_W256. assert (W256 + W256 < W512) by (vm_compute; reflexivity).
    destruct (u512_add_small x y W W') as [_ V2]; lia. }
  destruct L as (W & _ & E). unfold cred. destruct (ge_step _ W) as [[G H]|[G H]]; rewrite G.
  - destruct (add_minus_mod _ W H) as [W2 V2]. apply small_rep; [exact W2|lia|]. rewrite V2, ofZ_subP. exact E.
  - apply small_rep; assumption.
Qed.
Lemma cred_sub_ok : forall x y a b, rep x a -> rep y b -> rep (cred_sub (u512_add x y)) (a + b)%F.
Proof. intros x y a b Rx Ry. exact (rep_cond_sub x y a b Rx Ry). Qed.
(** An already reduced value. *)
Lemma cred_sub_rep : forall x a, rep x a -> rep (cred_sub x) a.
Proof.
  intros x a R. pose proof R as [W V]. pose proof (fz_range a). unfold cred_sub. rewrite modv_512.
  destruct (ge_step _ W) as [[G H']|[G H']]; rewrite G; [lia|exact R].
Qed.
(** [x + mod + mod - y - y] *)
Lemma lzy_sub_twice : forall x y a b n, lzy x a 0 n -> rep y b -> (n <=? 6) = true ->
  lzy (u512_sub (u512_sub (u512_add (u512_add x modv) modv) y) y) (a - b - b)%F 0 (n + 2).
Proof.
  intros x y a b n (W & B & E) [W' V'] K. apply Z.leb_le in K.
  pose proof (fz_range b) as Rb. pose proof P_pos. pose proof (val512_range x W) as Rx.
  pose proof lz_bound_W512 as L. assert (PP : 0 < P * P) by nia.
  assert (NP : n * P <= 6 * P) by (apply Z.mul_le_mono_nonneg_r; lia).
  rewrite modv_512.
  destruct (u512_add_small x mod_512 W wf_mod_512) as [W2 V2]; [rewrite val_mod_512; lia|]. rewrite val_mod_512 in V2.
  destruct (u512_add_small _ mod_512 W2 wf_mod_512) as [W3 V3]; [rewrite val_mod_512; lia|]. rewrite val_mod_512 in V3.
  destruct (u512_sub_small _ y W3 W') as [W4 V4]; [lia|].
  destruct (u512_sub_small _ y W4 W') as [W5 V5]; [lia|].
  split; [exact W5|]. rewrite V5, V4, V3, V2, V'. split; [lia|].
  rewrite !ofZ_sub, !ofZ_add, ofZ_P, E, ofZ_fz. ring.
Qed.
End Cred.
#[global] Opaque cred cred_sub wred wred_sub.

Lemma rb_upd_bo : forall B (R : B -> Prop) N l n fb k d f (c : list linear_poly -> outcome B),
  ltab N l n zt fb -> k < n -> (forall b, rep b (fb k) -> returns (f b) (fun y => rep y (fb k + d)%F)) ->
  (forall l', ltab N l' n zt (fun i => fb i + ind (i =? k) * d)%F -> returns (c l') R) ->
  returns (bind (upd_bo l k f) c) R.
Proof.
  intros B R N l n fb k d f c T Hk Hf K. unfold upd_bo.
  assert (Hn : n <= N) by apply T. assert (HL : length l = N) by apply T.
  eapply returns_bind; [|exact K].
  eapply returns_bind; [eapply (ltab_rd _ _ _ _ _ _ (fun x => rep (l_a x) 0%F /\ rep (l_b x) (fb k)) T Hk); auto|].
  intros x [Ra Rb]. eapply returns_bind; [apply Hf, Rb|]. intros y Ry. apply returns_wr; [lia|].
  eapply ltab_ext; [apply (ltab_upd N l n _ fb k _ 0%F (fb k + d)%F T); [lia|exact Ra|exact Ry]| |].
  - intros i Hi. cbv beta. destruct (Nat.eqb_spec i k); reflexivity.
  - intros i Hi. cbv beta. destruct (Nat.eqb_spec i k) as [->|]; cbn [ind]; ring.
Qed.

(** ** Gates the zk protocol handles *)
(** Types 0, 1, 2, 5-10, 12, 13 with wires inside the previous layer ([n]
    gates); the relay gate has second wire 0, the bit test reads one wire
    twice, the weighted sum has at most 63 terms. *)
Definition zproto_gate (n : nat) (g : gate) : Prop :=
  match g_ty g with
  | 0%Z | 1%Z | 6%Z | 7%Z | 8%Z | 9%Z => (0 <= g_u g < Z.of_nat n /\ 0 <= g_v g < Z.of_nat n)%Z
  | 10%Z => (0 <= g_u g < Z.of_nat n /\ g_v g = 0)%Z
  | 5%Z => (0 <= g_u g <= g_v g /\ g_u g < Z.of_nat n /\ g_v g <= Z.of_nat n)%Z
  | 12%Z => (0 <= g_u g < Z.of_nat n /\ 0 <= g_v g < Z.of_nat n /\ g_u g < 2 ^ 31 /\ g_v g - g_u g + 1 <= 63)%Z
  | 13%Z => (0 <= g_u g < Z.of_nat n /\ g_u g = g_v g)%Z
  | 2%Z => True
  | _ => False
  end.
Lemma zproto_type : forall n g, zproto_gate n g -> In (g_ty g) [0;1;2;5;6;7;8;9;10;12;13]%Z.
Proof.
  intros n [ty u v] R. unfold zproto_gate in R. cbn [g_ty] in *.
  destruct ty as [|p|p]; cbn [In]; try tauto.
  repeat (destruct p as [p|p|]; cbn [In]; try (exfalso; exact R); try tauto).
Qed.
Ltac zgate_cases H :=
  cbn [In] in H; destruct H as [H|[H|[H|[H|[H|[H|[H|[H|[H|[H|[H|[]]]]]]]]]]]]; symmetry in H.
Lemma zproto_reads : forall n g, zproto_gate n g -> zreads_in n g.
Proof.
  intros n g H. pose proof (zproto_type n g H) as T. unfold zproto_gate, zreads_in, reads_in in *.
  zgate_cases T; rewrite T in *; try exact H; try exact I; try apply H. split; [apply H|]. lia.
Qed.
Lemma zproto_range : forall n g, 0 < n -> zproto_gate n g -> in_range n g.
Proof.
  intros n g Hn H. pose proof (zproto_type n g H) as T. unfold zproto_gate, in_range, wires in *.
  zgate_cases T; rewrite T in *; intros w Hw; cbn [In] in Hw;
    try (destruct Hw as [<-|[]]; unfold w_l, w_r; cbn [fst snd]; lia); try contradiction.
  - apply in_map_iff in Hw. destruct Hw as (k & <- & Hk). apply in_seq in Hk. unfold w_l, w_r. cbn [fst snd]. lia.
  - apply in_map_iff in Hw. destruct Hw as (k & <- & Hk). apply in_seq in Hk. unfold w_l, w_r. cbn [fst snd]. lia.
Qed.
Lemma zproto_value : forall n V g, zproto_gate n g -> gval V g = gate_spec V g.
Proof.
  intros n V g H. pose proof (zproto_type n g H) as T. unfold gval, gate_spec, wires.
  zgate_cases T; rewrite T in *; rewrite ?lsum_cons, ?lsum_nil; unfold fval, w_l, w_r, w_c; cbn [form_of c11 c10 c01 c00 fst snd];
    try (unfold two; ring).
  - rewrite lsum_map, lsum_seq. apply sumn_ext. intros k _. cbn [fst snd]. ring.
  - rewrite lsum_map, lsum_seq. apply sumn_ext. intros k _. cbn [fst snd]. unfold two. simpl (0 + k). ring.
Qed.

Section Gates.
Variables (N n : nat) (Hn : 0 < n).
Variable G : nat.
Variable gt : nat -> gate.
Variable W : nat -> F.
Variable V : nat -> F.
Variable Np : nat.
Variable prev : list fe.
Hypothesis TP : tab Np prev n V.
Variables w wraw : nat -> outcome fe.
Hypothesis Hw : forall k, k < G -> returns (w k) (fun x => rep x (W k)).
Hypothesis Hwr : forall k, k < G -> returns (wraw k) (fun x => lzy x (W k) 2 0).
Let rb_w := rb_w G W w Hw.

Ltac sub_all := repeat match goal with x := _ |- _ => subst x end.
Ltac lzc := cbv beta; lazymatch goal with
  | |- rep (cred _) _ => eapply cred_ok; lz
  | |- rep (cred_sub _) _ => eapply cred_sub_ok; lz
  | |- _ => lz
  end.
Ltac ub T d := eapply (rb_upd_b _ _ _ _ _ _ _ d); [exact T|lia|intros; eapply rep_eq; [lzc|sub_all; ring]|].
Ltac ubo T d := eapply (rb_upd_bo _ _ _ _ _ _ _ d); [exact T|lia|intros ? ?; cbv beta;
  eapply returns_conseq; [lazymatch goal with
    | |- returns (wred _) _ => eapply wred_ok2; [lz|reflexivity]
    | |- returns (wred_sub _) _ => eapply wred_sub_ok2; [lz|reflexivity] end |];
  let R := fresh in intros ? R; cbv beta in R; eapply rep_eq; [exact R|sub_all; ring] |].
Ltac fin T := eapply ltab_ext; [exact T|reflexivity|];
  intros k Hk; cbv beta; unfold adds, tA1, tM1, tA2, tM2, fo, wires; 
  repeat match goal with H : g_ty _ = _ |- _ => rewrite H end;
  cbn [map]; rewrite ?lsum_cons, ?lsum_nil; cbn [form_of c11 c10 c01 c00]; unfold w_c, w_l, w_r; cbn [fst snd];
  unfold two; sub_all; try ring.

(** The weighted sum: the amount doubles from one position to the next. *)
Lemma double_add_ok : forall i u v tmp d M fM, g_ty (gt i) = 12%Z -> g_u (gt i) = u -> g_v (gt i) = v ->
  (0 <= u < Z.of_nat n)%Z -> (0 <= v < Z.of_nat n)%Z -> rep tmp d -> ltab N M n zt fM ->
  returns (forz u (v + 1) (fun j st =>
        let '(M, tmp) := st in
        ij <- idx j ;;
        M <- upd_b M ij (fun b => cred (u512_add b tmp)) ;;
        Ok (M, cred (u512_add tmp tmp))) (M, tmp))
    (fun st => ltab N (fst st) n zt (adds (map (fun k => (d * Fpow two k, (Z.to_nat u + k)%nat)%F)
        (seq 0 (Z.to_nat v + 1 - Z.to_nat u))) fM)).
Proof.
  intros i u v tmp d M fM _ _ _ H1 H2 Rt T.
  destruct (Z_le_gt_dec u (v + 1)) as [L|L].
  - eapply returns_conseq.
    + apply (returns_forz _ u (v + 1) _ (fun j st => ltab N (fst st) n zt
       (adds (map (fun k => (d * Fpow two k, (Z.to_nat u + k)%nat)%F) (seq 0 (Z.to_nat j - Z.to_nat u))) fM) /\
       rep (snd st) (d * Fpow two (Z.to_nat j - Z.to_nat u))%F)); [exact L| |].
      * cbn [fst snd]. rewrite Nat.sub_diag. cbn [Fpow]. split; [|eapply rep_eq; [exact Rt|ring]].
        eapply ltab_ext; [exact T|reflexivity|]. intros. symmetry. apply adds_nil.
      * intros j [M' t'] Hj [T' Rt']. cbn [fst snd] in *. apply rb_idx; [lia|].
        eapply (rb_upd_b _ _ _ _ _ _ _ (d * Fpow two (Z.to_nat j - Z.to_nat u))%F); [exact T'|lia| |].
        { intros b Rb. eapply cred_ok; eassumption. }
        intros M2 T2. apply returns_ok. cbn [fst snd].
        replace (Z.to_nat (j + 1) - Z.to_nat u) with (S (Z.to_nat j - Z.to_nat u)) by lia. split.
        -- eapply ltab_ext; [exact T2|reflexivity|]. intros k Hk. cbv beta.
           rewrite seq_S, map_app. cbn [map]. rewrite adds_snoc. cbn [fst snd Nat.add].
           replace (Z.to_nat u + (Z.to_nat j - Z.to_nat u)) with (Z.to_nat j) by lia. reflexivity.
        -- eapply rep_eq; [eapply cred_ok; eassumption|]. cbn [Fpow]. unfold two. ring.
    + intros st [H _]. replace (Z.to_nat v + 1 - Z.to_nat u) with (Z.to_nat (v + 1) - Z.to_nat u) by lia. exact H.
  - unfold forz. replace (Z.to_nat (v + 1 - u)) with 0 by lia. replace (Z.to_nat v + 1 - Z.to_nat u) with 0 by lia.
    apply returns_ok. cbn [fst seq map]. eapply ltab_ext; [exact T|reflexivity|]. intros. symmetry. apply adds_nil.
Qed.

Lemma zphase1_gate_ok : forall i, i < G -> zproto_gate n (gt i) ->
  gate_step N n (zphase1_gate w wraw prev i (gt i)) (tA1 gt W V i) (tM1 gt W V i).
Proof.
  intros i Hi HP A M fA fM TA TM. pose proof (zproto_type n _ HP) as T.
  unfold zproto_gate in HP. unfold zphase1_gate.
  set (u := Z.to_nat (g_u (gt i))). set (v := Z.to_nat (g_v (gt i))).
  zgate_cases T; rewrite T in HP |- *.
  - (* addition *)
    apply rb_w; [exact Hi|]. intros tmp Rt. apply rb_idx; [lia|]. apply rb_idx; [lia|].
    eapply rb_tab; [exact TP|lia|]. intros y Ry.
    ub TA (V v * W i)%F. intros A' TA'. ub TM (W i). intros M' TM'.
    apply returns_ok. split; [fin TA'|fin TM'].
  - (* multiplication *)
    apply rb_w; [exact Hi|]. intros tmp Rt. apply rb_idx; [lia|]. apply rb_idx; [lia|].
    eapply rb_tab; [exact TP|lia|]. intros y Ry.
    ub TM (V v * W i)%F. intros M' TM'.
    apply returns_ok. split; [fin TA|fin TM'].
  - (* dummy *)
    apply returns_ok. split; [fin TA|fin TM].
  - (* sum *)
    apply rb_w; [exact Hi|]. intros tmp Rt.
    eapply returns_bind.
    { eapply (range_add_ok N n Hn _ (W i)); [lia|lia| |exact TM]. intros b a Rb. apply cred_ok; assumption. }
    intros M' TM'. cbv beta in TM'. apply returns_ok. cbn [fst snd]. split.
    + eapply ltab_ext; [exact TA|reflexivity|]. intros k Hk. symmetry. apply adds_zero.
      intros t Ht. unfold tA1, fo in Ht. rewrite T in Ht. apply in_map_iff in Ht. destruct Ht as (x & <- & _).
      cbn [fst form_of c01 c00]. ring.
    + eapply ltab_ext; [exact TM'|reflexivity|]. intros k Hk. unfold adds, tM1, fo, wires. rewrite T.
      rewrite !lsum_map. f_equal. apply lsum_ext. intros x _. cbn [fst snd form_of c11 c10]. unfold w_c, w_l.
      cbn [fst snd]. ring.
  - (* not *)
    apply rb_w; [exact Hi|]. intros tmp Rt. apply rb_idx; [lia|].
    ubo TM (- W i)%F. intros M' TM'. ub TA (W i). intros A' TA'.
    apply returns_ok. split; [fin TA'|fin TM'].
  - (* minus *)
    apply rb_w; [exact Hi|]. intros tmp Rt. apply rb_idx; [lia|]. apply rb_idx; [lia|].
    eapply rb_tab; [exact TP|lia|]. intros y Ry.
    ub TA (- (V v * W i))%F. intros A' TA'. ub TM (W i). intros M' TM'.
    apply returns_ok. split; [fin TA'|fin TM'].
  - (* xor *)
    apply rb_w; [exact Hi|]. intros tmp Rt. apply rb_idx; [lia|]. apply rb_idx; [lia|].
    eapply rb_tab; [exact TP|lia|]. intros y Ry. cbv zeta.
    assert (RV : rep (u512_mod (u512_mul tmp y)) (W i * V v)%F) by (subst v; lzr).
    set (tv := u512_mod (u512_mul tmp y)) in *.
    assert (RV2 : rep (cred (u512_add tv tv)) (W i * V v + W i * V v)%F) by (apply cred_ok; assumption).
    set (tv2 := cred (u512_add tv tv)) in *. clearbody tv tv2.
    ub TA (V v * W i)%F. intros A' TA'. ubo TM (W i - (1 + 1) * V v * W i)%F. intros M' TM'.
    apply returns_ok. split; [fin TA'|fin TM'].
  - (* not a and b *)
    apply rb_w; [exact Hi|]. intros tmp Rt. apply rb_idx; [lia|]. apply rb_idx; [lia|].
    eapply rb_tab; [exact TP|lia|]. intros y Ry. cbv zeta.
    ub TA (V v * W i)%F. intros A' TA'. ubo TM (- (V v * W i))%F. intros M' TM'.
    eapply (rb_upd_bo _ _ _ _ _ _ _ 0%F); [exact TA'|lia| |].
    { intros bb Rb. eapply returns_conseq; [eapply wred_ok; [apply lzy_rep, Rb|reflexivity]|].
      intros y' Ry'. eapply rep_eq; [exact Ry'|ring]. }
    intros A2 TA2.
    apply returns_ok. split; [fin TA2|fin TM'].
  - (* relay *)
    apply rb_w; [exact Hi|]. intros tmp Rt. apply rb_idx; [lia|].
    ub TM (W i). intros M' TM'.
    apply returns_ok. split; [fin TA|fin TM'].
  - (* weighted sum *)
    apply rb_w; [exact Hi|]. intros tmp Rt.
    eapply returns_bind.
    { apply (double_add_ok i _ _ tmp (W i) M fM T eq_refl eq_refl ltac:(lia) ltac:(lia) Rt TM). }
    intros [M' t'] TM'. cbn [fst] in TM'. apply returns_ok. cbn [fst snd]. split.
    + eapply ltab_ext; [exact TA|reflexivity|]. intros k Hk. symmetry. apply adds_zero.
      intros t Ht. unfold tA1, fo in Ht. rewrite T in Ht. apply in_map_iff in Ht. destruct Ht as (x & <- & _).
      cbn [fst form_of c01 c00]. ring.
    + eapply ltab_ext; [exact TM'|reflexivity|]. intros k Hk. unfold adds, tM1, fo, wires. rewrite T.
      rewrite !lsum_map. f_equal. apply lsum_ext. intros x _. cbn [fst snd form_of c11 c10]. unfold w_c, w_l.
      cbn [fst snd]. ring.
  - (* bit test *)
    apply rb_w; [exact Hi|]. intros tmp Rt. apply rb_idx; [lia|]. apply rb_idx; [lia|].
    eapply rb_tab; [exact TP|lia|]. intros y Ry. cbv zeta.
    ubo TM (W i - V v * W i)%F. intros M' TM'.
    apply returns_ok. split; [fin TA|fin TM'].
Qed.

Lemma zphase1_copy_ok : forall i, i < G -> i < n -> gt i = Gate 4 (Z.of_nat i) 0 ->
  gate_step N n (zphase1_gate w wraw prev i (gt i)) [] [(W i, i)].
Proof.
  intros i Hi Hin E A M fA fM TA TM. rewrite E. cbn [zphase1_gate g_ty g_u g_v].
  apply rb_idx; [lia|]. rewrite Nat2Z.id. eapply returns_bind; [apply Hwr, Hi|]. intros tmp Rt. cbv beta in Rt.
  ub TM (W i). intros M' TM'. apply returns_ok. cbn [fst snd]. split.
  - eapply ltab_ext; [exact TA|reflexivity|]. intros. symmetry. apply adds_nil.
  - eapply ltab_ext; [exact TM'|reflexivity|]. intros k Hk. unfold adds. rewrite lsum_cons, lsum_nil.
    cbn [fst snd]. ring.
Qed.

Variable U : nat -> F.
Variable wu : nat -> outcome fe.
Hypothesis Hwu : forall k, k < n -> returns (wu k) (fun x => rep x (U k)).
Variables (v_u : fe) (vu : F).
Hypothesis Rvu : rep v_u vu.
Let rb_wu := rb_wu n U wu Hwu.

Lemma zphase2_gate_ok : forall i, i < G -> zproto_gate n (gt i) ->
  gate_step N n (zphase2_gate wu w v_u i (gt i)) (tA2 gt W vu U i) (tM2 gt W vu U i).
Proof.
  intros i Hi HP A M fA fM TA TM. pose proof (zproto_type n _ HP) as T.
  unfold zproto_gate in HP. unfold zphase2_gate.
  set (u := Z.to_nat (g_u (gt i))). set (v := Z.to_nat (g_v (gt i))).
  zgate_cases T; rewrite T in HP |- *.
  - (* addition *)
    apply rb_idx; [lia|]. apply rb_wu; [lia|]. intros tu Ru. apply rb_w; [exact Hi|]. intros tg Rg.
    apply rb_idx; [lia|]. cbv zeta.
    ub TM (W i * U u)%F. intros M' TM'. ub TA (W i * U u * vu)%F. intros A' TA'.
    apply returns_ok. split; [fin TA'|fin TM'].
  - (* multiplication *)
    apply rb_idx; [lia|]. apply rb_wu; [lia|]. intros tu Ru. apply rb_w; [exact Hi|]. intros tg Rg.
    apply rb_idx; [lia|].
    ub TM (W i * U u * vu)%F. intros M' TM'.
    apply returns_ok. split; [fin TA|fin TM'].
  - (* dummy *)
    apply returns_ok. split; [fin TA|fin TM].
  - (* sum *)
    apply rb_idx; [lia|]. apply rb_wu; [lia|]. intros tu0 Ru0.
    apply rb_w; [exact Hi|]. intros tg Rg. 
    assert (Rgv : rep (u512_mod (u512_mul tg v_u)) (W i * vu)%F) by lzr.
    eapply returns_bind.
    { apply (returns_forz _ _ _ _ (fun j A' => ltab N A' n zt
        (fun x => (fA x + ind (x =? 0) * sumn (Z.to_nat j - u) (fun k => W i * vu * U (u + k)%nat))%F))); [lia| |].
      - eapply ltab_ext; [exact TA|reflexivity|]. intros k Hk. subst u. rewrite Nat.sub_diag. cbn [sumn]. ring.
      - intros j A' Hj T'. apply rb_idx; [lia|]. apply rb_wu; [lia|]. intros tu Ru.
        eapply (ltab_upd_b _ _ _ _ _ _ (W i * vu * U (Z.to_nat j))%F); [exact T'|lia|intros; lzr|].
        intros l H. eapply ltab_ext; [exact H|reflexivity|]. intros k Hk. cbv beta.
        replace (Z.to_nat (j + 1) - u) with (S (Z.to_nat j - u)) by lia. cbn [sumn].
        replace (u + (Z.to_nat j - u)) with (Z.to_nat j) by lia. ring. }
    intros A' TA'. cbv beta in TA'. apply returns_ok. cbn [fst snd]. split.
    + eapply ltab_ext; [exact TA'|reflexivity|]. intros k Hk. cbv beta. fold v. unfold adds, tA2, fo, wires. rewrite T.
      rewrite !lsum_map. fold u v. rewrite lsum_seq, <- sumn_scal. f_equal. apply sumn_ext. intros x _.
      cbn [form_of c10 c00]. unfold w_c, w_l, w_r. cbn [fst snd]. ring.
    + eapply ltab_ext; [exact TM|reflexivity|]. intros k Hk. symmetry. apply adds_zero.
      intros t Ht. unfold tM2, fo in Ht. rewrite T in Ht. apply in_map_iff in Ht. destruct Ht as (x & <- & _).
      cbn [fst form_of c01 c11]. ring.
  - (* not *)
    apply rb_idx; [lia|]. apply rb_wu; [lia|]. intros tu Ru. apply rb_w; [exact Hi|]. intros tg Rg.
    apply rb_idx; [lia|]. cbv zeta.
    ub TA (W i * U u - W i * U u * vu)%F. intros A' TA'.
    apply returns_ok. split; [fin TA'|fin TM].
  - (* minus *)
    apply rb_idx; [lia|]. apply rb_wu; [lia|]. intros tu Ru. apply rb_w; [exact Hi|]. intros tg Rg.
    apply rb_idx; [lia|]. cbv zeta.
    ubo TM (- (W i * U u))%F. intros M' TM'. ub TA (W i * U u * vu)%F. intros A' TA'.
    apply returns_ok. split; [fin TA'|fin TM'].
  - (* xor *)
    apply rb_idx; [lia|]. apply rb_wu; [lia|]. intros tu Ru. apply rb_w; [exact Hi|]. intros tg Rg.
    apply rb_idx; [lia|]. cbv zeta.
    assert (Rt : rep (u512_mod (u512_mul tg tu)) (W i * U u)%F) by (subst u; lzr).
    set (t := u512_mod (u512_mul tg tu)) in *. clearbody t.
    assert (Rtv : rep (u512_mod (u512_mul t v_u)) (W i * U u * vu)%F) by lzr.
    set (tv := u512_mod (u512_mul t v_u)) in *. clearbody tv.
    eapply (rb_upd_bo _ _ _ _ _ _ _ (W i * U u - (1 + 1) * vu * (W i * U u))%F); [exact TM|lia| |].
    { intros bb Rb. eapply returns_conseq.
      - eapply wred_ok; [eapply lzy_sub_twice; [exact (lzy_add _ _ _ _ _ _ _ _ (lzy_rep _ _ Rb) (lzy_rep _ _ Rt) eq_refl)|exact Rtv|reflexivity]|reflexivity].
      - intros y Ry. eapply rep_eq; [exact Ry|]. subst u v. ring. }
    intros M' TM'. ub TA (W i * U u * vu)%F. intros A' TA'.
    apply returns_ok. split; [fin TA'|fin TM'].
  - (* not a and b *)
    apply rb_idx; [lia|]. apply rb_wu; [lia|]. intros tu Ru. apply rb_w; [exact Hi|]. intros tg Rg.
    apply rb_idx; [lia|]. cbv zeta.
    ubo TM (W i * U u - vu * (W i * U u))%F. intros M' TM'.
    apply returns_ok. split; [fin TA|fin TM'].
  - (* relay *)
    apply rb_idx; [lia|]. apply rb_wu; [lia|]. intros tu Ru. apply rb_w; [exact Hi|]. intros tg Rg.
    apply rb_idx; [lia|]. cbv zeta.
    ub TA (W i * U u * vu)%F. intros A' TA'.
    apply returns_ok. split; [fin TA'|fin TM].
  - (* weighted sum *)
    apply rb_w; [exact Hi|]. intros tg Rg.
    assert (Rgv : rep (u512_mod (u512_mul tg v_u)) (W i * vu)%F) by lzr.
    set (t0 := u512_mod (u512_mul tg v_u)) in *. clearbody t0.
    eapply (returns_bind _ _ _ _ (fun st => ltab N (fst st) n zt
        (fun x => (fA x + ind (x =? 0) * sumn (v + 1 - u) (fun k => W i * vu * Fpow two k * U (u + k)%nat))%F))).
    { destruct (Z_le_gt_dec (g_u (gt i)) (g_v (gt i) + 1)) as [L|L].
      - eapply returns_conseq.
        + apply (returns_forz _ _ _ _ (fun j st => ltab N (fst st) n zt
          (fun x => (fA x + ind (x =? 0) * sumn (Z.to_nat j - u) (fun k => W i * vu * Fpow two k * U (u + k)%nat))%F) /\
          rep (snd st) (W i * vu * Fpow two (Z.to_nat j - u))%F)); [exact L| |].
          * cbn [fst snd]. subst u. rewrite Nat.sub_diag. cbn [sumn Fpow]. split; [|lzr].
            eapply ltab_ext; [exact TA|reflexivity|]. intros k Hk. ring.
          * intros j [A' t'] Hj [T' Rt']. cbn [fst snd] in *. apply rb_idx; [lia|]. apply rb_wu; [lia|]. intros tu Ru.
            eapply (rb_upd_b _ _ _ _ _ _ _ (W i * vu * Fpow two (Z.to_nat j - u) * U (Z.to_nat j))%F); [exact T'|lia|intros; lzr|].
            intros l H. apply returns_ok. cbn [fst snd].
            replace (Z.to_nat (j + 1) - u) with (S (Z.to_nat j - u)) by lia. split.
            -- eapply ltab_ext; [exact H|reflexivity|]. intros k Hk. cbv beta. cbn [sumn].
               replace (u + (Z.to_nat j - u)) with (Z.to_nat j) by lia. ring.
            -- eapply rep_eq; [eapply cred_ok; eassumption|]. cbn [Fpow]. unfold two. ring.
        + intros st [H _]. replace (v + 1 - u) with (Z.to_nat (g_v (gt i) + 1) - u) by (subst u v; lia). exact H.
      - unfold forz. replace (Z.to_nat (g_v (gt i) + 1 - g_u (gt i))) with 0 by lia. 
        replace (v + 1 - u) with 0 by (subst u v; lia).
        apply returns_ok. cbn [fst sumn]. eapply ltab_ext; [exact TA|reflexivity|]. intros k Hk. ring. }
    intros [A' t'] TA'. cbn [fst] in TA'. apply returns_ok. cbn [fst snd]. split.
    + eapply ltab_ext; [exact TA'|reflexivity|]. intros k Hk. cbv beta. unfold adds, tA2, fo, wires. rewrite T.
      rewrite !lsum_map. fold u v. rewrite lsum_seq, <- sumn_scal. f_equal. apply sumn_ext. intros x _.
      cbn [form_of c10 c00]. unfold w_c, w_l, w_r. cbn [fst snd]. simpl (0 + x). ring.
    + eapply ltab_ext; [exact TM|reflexivity|]. intros k Hk. symmetry. apply adds_zero.
      intros t Ht. unfold tM2, fo in Ht. rewrite T in Ht. apply in_map_iff in Ht. destruct Ht as (x & <- & _).
      cbn [fst form_of c01 c11]. ring.
  - (* bit test *)
    apply rb_idx; [lia|]. apply rb_wu; [lia|]. intros tu Ru. apply rb_w; [exact Hi|]. intros tg Rg.
    apply rb_idx; [lia|]. cbv zeta.
    ubo TM (- (W i * U u * vu))%F. intros M' TM'. ub TA (W i * U u * vu)%F. intros A' TA'.
    apply returns_ok. split; [fin TA'|fin TM'].
Qed.
Lemma zphase2_copy_ok : forall i, gt i = Gate 4 (Z.of_nat i) 0 ->
  gate_step N n (zphase2_gate wu w v_u i (gt i)) [] [].
Proof.
  intros i E A M fA fM TA TM. rewrite E. cbn [zphase2_gate g_ty g_u g_v]. apply returns_ok. cbn [fst snd].
  split; (eapply ltab_ext; [eassumption|reflexivity|]; intros; symmetry; apply adds_nil).
Qed.
End Gates.

Lemma g_weight_raw_ok : forall N f0 s0 f1 s1 h p1 p2 q1 q2 c0 c1 i, length p1 = h -> length q1 = h ->
  length q2 = length p2 ->
  eqtab N c0 p1 f0 -> eqtab N 1%F p2 s0 -> eqtab N c1 q1 f1 -> eqtab N 1%F q2 s1 -> i < 2 ^ (h + length p2) ->
  returns (g_weight_raw f0 s0 f1 s1 h i) (fun x => lzy x (c0 * eqg (p1 ++ p2) i + c1 * eqg (q1 ++ q2) i)%F 2 0).
Proof.
  intros N f0 s0 f1 s1 h p1 p2 q1 q2 c0 c1 i Hh Hh' E T1 T2 T3 T4 Hi. unfold g_weight_raw.
  rewrite land_mask, shr_div. unfold eqtab in *. rewrite Hh in T1. rewrite Hh' in T3. rewrite E in T4.
  pose proof (pow2_pos h) as Hp.
  assert (Hm : i mod 2 ^ h < 2 ^ h) by (apply Nat.mod_upper_bound; lia).
  assert (Hd : i / 2 ^ h < 2 ^ length p2)
    by (apply Nat.div_lt_upper_bound; [lia|]; rewrite <- Nat.pow_add_r; exact Hi).
  eapply rb_tab; [exact T1|exact Hm|]. intros a Ra.
  eapply rb_tab; [exact T2|exact Hd|]. intros b Rb.
  eapply rb_tab; [exact T3|exact Hm|]. intros c Rc.
  eapply rb_tab; [exact T4|exact Hd|]. intros d Rd.
  apply returns_ok. rewrite !eqg_app, Hh, Hh'.
  pose proof (lzy_add _ _ _ _ _ _ _ _ (lzy_mul _ _ _ _ Ra Rb) (lzy_mul _ _ _ _ Rc Rd) eq_refl) as K.
  destruct K as (K1 & K2 & K3). split; [exact K1|]. split; [exact K2|]. rewrite K3. ring.
Qed.
Lemma gtabs_weight_raw : forall p H lg a b R0 R1 i, length R0 = lg -> length R1 = lg ->
  gtabs p H lg a b R0 R1 -> i < 2 ^ lg ->
  returns (g_weight_raw (p_g0f p) (p_g0s p) (p_g1f p) (p_g1s p) (Nat.shiftr lg 1) i)
    (fun x => lzy x (gw a b R0 R1 i) 2 0).
Proof.
  intros p H lg a b R0 R1 i L0 L1 (T1 & T2 & T3 & T4) Hi. rewrite shr1_div2.
  pose proof (half_le lg) as HL.
  assert (E : forall R, length R = lg -> prs R (comp R) 0 (lg / 2) ++ prs R (comp R) (lg / 2) (lg - lg / 2) = point R).
  { intros R L. rewrite <- prs_app. replace (lg / 2 + (lg - lg / 2)) with (length R) by lia. apply prs_point. }
  eapply returns_conseq.
  - eapply (g_weight_raw_ok H _ _ _ _ (lg / 2) _ _ _ _ a b i); [apply prs_length|apply prs_length| |exact T1|exact T2|exact T3|exact T4|].
    + rewrite !prs_length. reflexivity.
    + rewrite prs_length. replace (lg / 2 + (lg - lg / 2)) with lg by lia. exact Hi.
  - cbv beta. intros x Rx. rewrite (E R0 L0), (E R1 L1) in Rx. exact Rx.
Qed.

(** ** The tables of the two phases *)
Lemma zpow_le : forall x y, x <= y -> 2 ^ x <= 2 ^ y.
Proof. intros. apply Nat.pow_le_mono_r; lia. Qed.

Section Init.
Variables (C : layered_circuit) (m i : nat).
Hypothesis Hi : 0 < i < total_depth C.
Hypothesis WF : total_depth C = length (circuit C).
Let L := layer_at C i.
Let Lm := layer_at C (i - 1).
Let lg := bit_length L.
Let b := bit_length Lm.
Hypothesis Hlg : lg <= m.
Hypothesis Hb : b <= m.
Hypothesis HG : 2 ^ lg <= length (gates L).
Let V := vals C (i - 1).
Let N := 2 ^ m.
Let Hh := 2 ^ (m / 2 + 1).

Lemma zphase1_init_ok : forall p al be R0 R1 tA tM,
  pinv C m p -> p_layer p = i -> pparams p lg al be R0 R1 ->
  (forall w wraw Np prev, tab Np prev (2 ^ b) V -> (forall k, k < 2 ^ lg -> returns (w k) (fun x => rep x (gw al be R0 R1 k))) ->
     (forall k, k < 2 ^ lg -> returns (wraw k) (fun x => lzy x (gw al be R0 R1 k) 2 0)) ->
     forall k, k < 2 ^ lg -> gate_step N (2 ^ b) (zphase1_gate w wraw prev k (gate_at L k)) (tA k) (tM k)) ->
  returns (zphase1_init p) (fun p' =>
    pinv C m p' /\ gtabs p' Hh lg al be R0 R1 /\
    tabs_bound N b p' V (scat (2 ^ lg) tM) (scat (2 ^ lg) tA) [] /\
    (exists lV lA lM g0f g0s g1f g1s gs, p' = set_g_tables (set_arrays p (2 ^ b) lV lA lM) g0f g0s g1f g1s gs)).
Proof.
  intros p al be R0 R1 tA tM PI Pl PP HS.
  destruct PI as [EC Rows lnV lnA lnM lnbu lnbg ln0f ln0s ln1f ln1s lnuf lnus].
  destruct PP as [Plg Pa Pb Pr0 Pr1 Po0 Po1 Pl0 Pl1].
  unfold zphase1_init. rewrite EC, Pl, Plg.
  eapply rb_nth; [apply layer_rd; lia|]. eapply rb_nth; [apply layer_rd; lia|].
  destruct Rows as [RL RR]. destruct (RR (i - 1) ltac:(lia)) as (prev & Ep & TP).
  eapply rb_nth; [exact Ep|]. fold L Lm. fold b. fold V in TP. fold Lm in TP. fold b in TP.
  pose proof (zpow_le _ _ Hb) as HbN. pose proof (zpow_le _ _ Hlg) as HlN.
  eapply returns_bind; [eapply (reset_arrays_ok N); [exact TP|exact lnV|exact lnA|exact lnM|exact HbN]|].
  intros [[lV lA] lM] (TV & TA & TM). cbn [fst snd] in TV, TA, TM.
  assert (Hpos : 0 < Hh) by apply pow2_pos.
  assert (H1 : 2 ^ (lg / 2) <= Hh).
  { apply zpow_le. pose proof (Nat.div_le_mono lg m 2 ltac:(lia) Hlg). lia. }
  assert (H2 : 2 ^ (lg - lg / 2) <= Hh) by (apply zpow_le, half_bound, Hlg).
  apply rb_wr; [fold Hh in ln0f; lia|]. apply rb_wr; [fold Hh in ln1f; lia|].
  apply rb_wr; [fold Hh in ln0s; lia|]. apply rb_wr; [fold Hh in ln1s; lia|].
  fold lg. rewrite shr1_div2. pose proof (half_le lg) as HL.
  eapply returns_bind.
  { eapply (half_tables2_gen Hh _ _ _ _ _ _ R0 R1 0 (lg / 2) al be lg Pr0 Po0 Pr1 Po1 Pl0 Pl1 ltac:(lia) H1).
    - apply eqtab_init; [exact ln0f|exact Hpos|exact Pa].
    - apply eqtab_init; [exact ln1f|exact Hpos|exact Pb]. }
  intros [g0f g1f] [T0f T1f]. cbn [fst snd] in T0f, T1f.
  eapply returns_bind.
  { eapply (half_tables2_gen Hh _ _ _ _ _ _ R0 R1 (lg / 2) (lg - lg / 2) 1%F 1%F lg Pr0 Po0 Pr1 Po1 Pl0 Pl1 ltac:(lia) H2).
    - apply eqtab_init; [exact ln0s|exact Hpos|exact rep_i1].
    - apply eqtab_init; [exact ln1s|exact Hpos|exact rep_i1]. }
  intros [g0s g1s] [T0s T1s]. cbn [fst snd] in T0s, T1s.
  assert (GT : forall gs lV lA lM, gtabs (set_g_tables (set_arrays p (2 ^ b) lV lA lM) g0f g0s g1f g1s gs) Hh lg al be R0 R1).
  { intros. exact (conj T0f (conj T0s (conj T1f T1s))). }
  pose proof (fun k => gtabs_weight _ Hh lg al be R0 R1 k Pl0 Pl1 (GT [] [] [] [])) as HW.
  cbn [set_g_tables p_g0f p_g0s p_g1f p_g1s] in HW. rewrite shr1_div2 in HW.
  pose proof (fun k => gtabs_weight_raw _ Hh lg al be R0 R1 k Pl0 Pl1 (GT [] [] [] [])) as HWR.
  cbn [set_g_tables p_g0f p_g0s p_g1f p_g1s] in HWR. rewrite shr1_div2 in HWR.
  set (w := g_weight g0f g0s g1f g1s (lg / 2)) in *.
  set (wraw := g_weight_raw g0f g0s g1f g1s (lg / 2)) in *.
  eapply returns_bind.
  { apply (gate_loop_ok N (2 ^ b) (2 ^ lg) _ tA tM); [|exact TA|exact TM].
    intros k Hk A M fA fM TA' TM'. eapply rb_nth; [apply gate_rd; lia|].
    exact (HS w wraw _ prev TP HW HWR k Hk A M fA fM TA' TM'). }
  intros [A M] [TA' TM']. cbn [fst snd] in TA', TM'. apply returns_ok.
  split; [|split; [apply GT|split]].
  - destruct TV as [KV _]. destruct TA' as [KA _]. destruct TM' as [KM _].
    assert (E0f := T0f). destruct T0f as [K0f _]. destruct T0s as [K0s _]. destruct T1f as [K1f _]. destruct T1s as [K1s _].
    constructor; cbn [set_g_tables set_arrays p_C p_circuit_value p_Vmult p_addV p_addmult p_beta_u p_beta_g_sum p_g0f p_g0s p_g1f p_g1s p_uf p_us]; try assumption.
    split; assumption.
  - unfold tabs_bound, bound. cbn [set_g_tables set_arrays p_Vmult p_addV p_addmult p_total_uv length].
    rewrite Nat.sub_0_r. split; [eexists; exact TV|]. split; [eexists; exact TM'|]. split; [eexists; exact TA'|reflexivity].
  - repeat eexists.
Qed.

Lemma zphase2_tables_ok : forall p v_u vu r_u o_u al be R0 R1 ru tA tM,
  pinv C m p -> p_layer p = i -> pparams p lg al be R0 R1 -> gtabs p Hh lg al be R0 R1 ->
  p_length_u p = b -> length ru = b -> reps r_u ru -> reps o_u (comp ru) -> rep v_u vu ->
  (forall wu w, (forall k, k < 2 ^ b -> returns (wu k) (fun x => rep x (eqw ru k))) ->
     (forall k, k < 2 ^ lg -> returns (w k) (fun x => rep x (gw al be R0 R1 k))) ->
     forall k, k < 2 ^ lg -> gate_step N (2 ^ b) (zphase2_gate wu w v_u k (gate_at L k)) (tA k) (tM k)) ->
  returns (zphase2_tables p v_u r_u o_u) (fun p' =>
    pinv C m p' /\
    tabs_bound N b p' V (scat (2 ^ lg) tM) (scat (2 ^ lg) tA) [] /\
    (exists lV lA lM uf us bu, p' = set_v (set_u_tables (set_arrays p (2 ^ b) lV lA lM) uf us bu) v_u (p_v_v p))).
Proof.
  intros p v_u vu r_u o_u al be R0 R1 ru tA tM PI Pl PP GT PU Lru Hru Hou Rx HS.
  destruct PI as [EC Rows lnV lnA lnM lnbu lnbg ln0f ln0s ln1f ln1s lnuf lnus].
  destruct PP as [Plg Pa Pb Pr0 Pr1 Po0 Po1 Pl0 Pl1].
  unfold zphase2_tables. rewrite EC, Pl, Plg, PU.
  assert (Hpos : 0 < Hh) by apply pow2_pos.
  assert (H1 : 2 ^ (b / 2) <= Hh).
  { apply zpow_le. pose proof (Nat.div_le_mono b m 2 ltac:(lia) Hb). lia. }
  assert (H2 : 2 ^ (b - b / 2) <= Hh) by (apply zpow_le, half_bound, Hb).
  pose proof (half_le b) as HL. rewrite shr1_div2.
  apply rb_wr; [fold Hh in lnuf; lia|]. apply rb_wr; [fold Hh in lnus; lia|].
  eapply returns_bind.
  { eapply (half_table_ok Hh _ _ _ ru (comp ru) 0 (b / 2) 1%F Hru Hou); [lia|rewrite comp_length; lia|exact H1|].
    apply eqtab_init; [exact lnuf|exact Hpos|exact rep_i1]. }
  intros uf Tuf. cbv beta in Tuf.
  eapply returns_bind.
  { eapply (half_table_ok Hh _ _ _ ru (comp ru) (b / 2) (b - b / 2) 1%F Hru Hou); [lia|rewrite comp_length; lia|exact H2|].
    apply eqtab_init; [exact lnus|exact Hpos|exact rep_i1]. }
  intros us Tus. cbv beta in Tus.
  pose proof (fun k => u_table_weight C m i Hi WF Hlg Hb HG uf us ru k Lru Tuf Tus) as HWU.
  set (wu := u_weight uf us (b / 2)) in *.
  pose proof (zpow_le _ _ Hb) as HbN. pose proof (zpow_le _ _ Hlg) as HlN. fold N in HbN, HlN.
  eapply rb_nth; [apply layer_rd; lia|]. eapply rb_nth; [apply layer_rd; lia|].
  pose proof Rows as [RL RR]. destruct (RR (i - 1) ltac:(lia)) as (pv & Ep & TP).
  eapply rb_nth; [exact Ep|]. fold L Lm. fold b lg. fold V in TP. fold Lm in TP. fold b in TP.
  eapply returns_bind; [eapply (reset_arrays_ok N); [exact TP|exact lnV|exact lnA|exact lnM|exact HbN]|].
  intros [[lV lA] lM] (TV & TA & TM). cbn [fst snd] in TV, TA, TM.
  pose proof (fun k => gtabs_weight _ Hh lg al be R0 R1 k Pl0 Pl1 GT) as HW.
  set (w := g_weight _ _ _ _ _) in *. 
  eapply returns_bind.
  { apply (gate_loop_ok N (2 ^ b) (2 ^ lg) _ tA tM); [|exact TA|exact TM].
    intros k Hk A M fA fM TA' TM'. eapply rb_nth; [apply gate_rd; lia|].
    exact (HS wu w HWU HW k Hk A M fA fM TA' TM'). }
  intros [A M] [TA' TM']. cbn [fst snd] in TA', TM'. apply returns_ok.
  split; [|split].
  - destruct TV as [KV _]. destruct TA' as [KA _]. destruct TM' as [KM _]. destruct Tuf as [Kuf _]. destruct Tus as [Kus _].
    constructor; cbn [set_v set_u_tables set_arrays p_C p_circuit_value p_Vmult p_addV p_addmult p_beta_u p_beta_g_sum p_g0f p_g0s p_g1f p_g1s p_uf p_us]; assumption.
  - unfold tabs_bound, bound. cbn [set_v set_u_tables set_arrays p_Vmult p_addV p_addmult p_total_uv length].
    rewrite Nat.sub_0_r. split; [eexists; exact TV|]. split; [eexists; exact TM'|]. split; [eexists; exact TA'|reflexivity].
  - repeat eexists.
Qed.
End Init.
