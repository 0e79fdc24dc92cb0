(** * The shape of the layers that the compiler makes of a program *)
From Coq Require Import ZArith List Bool Arith Lia Sorted.
From Verif Require Import Base Fp Loader SpecLoader LoaderProofs ZkEval Program SpecCompiler Compiler CompilerMaps CompilerRead CompilerLevels CompilerLayers.
Import ListNotations.
Open Scope Z_scope.

(** Gate [g] on level [l] of node [k]; [K] are the nodes, [lv] and [ps] their level and
    position and [var] the variable whose value they carry. *)
Inductive node (p : list stmt) (K : list key) (lv ps : key -> nat) (var : key -> Z) : key -> nat -> sgate -> Prop :=
| NIn : forall t i g, In (SIn t i) p -> sg_ty g = 3 -> sg_v g = 0 -> node p K lv ps var (kV t) 0 g
| NOp : forall o t a b l g ka kb, In (Op o t a b) p -> sg_ty g = op_ty o ->
    In ka K -> lv ka = l -> var ka = a -> sg_u g = Z.of_nat (ps ka) ->
    (o = ONot -> sg_v g = 0) -> (o <> ONot -> In kb K /\ lv kb = l /\ var kb = b /\ sg_v g = Z.of_nat (ps kb)) ->
    (o = OBit -> a = b /\ sg_u g = sg_v g) ->
    node p K lv ps var (kV t) (S l) g
| NSum : forall t a b l g, In (Sum t a b) p -> sg_ty g = 12 -> a <= b <= a + 62 ->
    (forall i, a <= i <= b -> In (kV i) K /\ lv (kV i) = l /\ Z.of_nat (ps (kV i)) = Z.of_nat (ps (kV a)) + (i - a)) ->
    sg_u g = Z.of_nat (ps (kV a)) -> sg_v g = Z.of_nat (ps (kV b)) -> node p K lv ps var (kV t) (S l) g
| NRelay : forall k ka l g, (forall t, k <> kV t) -> sg_ty g = 10 -> sg_v g = 0 -> In ka K -> lv ka = l -> var ka = var k -> sg_u g = Z.of_nat (ps ka) ->
    node p K lv ps var k (S l) g.
Record shape (p : list stmt) (K : list key) (lv ps : key -> nat) (var : key -> Z) (L : list slayer) : Prop := {
  sh_layer : forall l, (l < length L)%nat -> exists S b, nth_error L l = Some S /\ sl_bits S = Z.of_nat b /\ (1 <= b < 31)%nat /\
     length (sl_gates S) = (2 ^ b)%nat /\ (forall j g, nth_error (sl_gates S) j = Some g -> sg_g g = Z.of_nat j) /\
     (l = 0%nat -> sl_pad S = 2 ^ Z.of_nat b - Z.of_nat (length (inputs p)) /\ 0 <= sl_pad S /\ 2 ^ Z.of_nat b <= 2 * Z.of_nat (length (inputs p)));
  sh_gate : forall l S j g, nth_error L l = Some S -> nth_error (sl_gates S) j = Some g ->
     (sg_ty g = 2 /\ sg_u g = 0 /\ sg_v g = 0) \/ exists k, In k K /\ lv k = l /\ ps k = j;
  sh_node : forall k, In k K -> exists S g, nth_error L (lv k) = Some S /\ nth_error (sl_gates S) (ps k) = Some g /\ node p K lv ps var k (lv k) g;
  sh_var : forall t, var (kV t) = t;
  sh_targets : forall t, In t (targets p) -> In (kV t) K;
  sh_inputs : forall t i, In (SIn t i) p -> lv (kV t) = 0%nat /\ ps (kV t) = rank p t }.

(** ** Positions *)
Lemma at_level_place : forall lvl m k, sorted m -> In k (keys m) ->
  nth_error (at_level lvl (lvl k) m) (place lvl m k) = Some (k, dget m k).
Proof.
  intros lvl m k S Hk. pose proof (in_mget _ dg_zero m k Hk) as Hin. fold (dget m k) in Hin. apply in_split in Hin. destruct Hin as (m1 & m2 & Q).
  pose proof S as S'. rewrite Q in S'. pose proof (place_split lvl m1 (k, dget m k) m2 S') as PS. rewrite <- Q in PS. cbn [fst] in PS. rewrite PS.
  rewrite Q at 1. unfold at_level. rewrite filter_app. rewrite nth_error_app2 by lia. rewrite Nat.sub_diag. cbn [filter fst]. rewrite Z.eqb_refl. reflexivity.
Qed.
Lemma at_level_In : forall lvl l m e, In e (at_level lvl l m) <-> In e m /\ lvl (fst e) = l.
Proof. intros. unfold at_level. rewrite filter_In, Z.eqb_eq. reflexivity. Qed.
Lemma place_lt : forall lvl m k, sorted m -> In k (keys m) -> (place lvl m k < length (at_level lvl (lvl k) m))%nat.
Proof. intros lvl m k S Hk. apply nth_error_Some. rewrite at_level_place by assumption. discriminate. Qed.
(** The [j]-th entry of a level is at position [j]. *)
Lemma place_nth : forall lvl m l j k g, sorted m -> nth_error (at_level lvl l m) j = Some (k, g) -> In (k, g) m /\ lvl k = l /\ place lvl m k = j.
Proof.
  intros lvl m l j k g S H. pose proof (nth_error_In _ _ H) as Hin. apply at_level_In in Hin. cbn [fst] in Hin. destruct Hin as [Hin <-].
  split; [exact Hin|]. split; [reflexivity|].
  assert (Hk : In k (keys m)) by (apply in_map_iff; exists (k, g); split; [reflexivity|exact Hin]).
  assert (ND : NoDup (at_level lvl (lvl k) m)).
  { unfold at_level. apply NoDup_filter. apply sorted_nodup in S. unfold keys in S. eapply NoDup_map_inv. exact S. }
  rewrite NoDup_nth_error in ND. apply ND; [apply nth_error_Some; rewrite at_level_place by assumption; discriminate|].
  rewrite H. rewrite at_level_place by assumption. f_equal. f_equal. unfold dget. apply mget_in; [apply sorted_nodup, S|exact Hin].
Qed.
Lemma filter_or : forall A (P Q : A -> bool) l, (forall x, In x l -> P x = true -> Q x = true -> False) ->
  length (filter (fun x => P x || Q x) l) = (length (filter P l) + length (filter Q l))%nat.
Proof.
  induction l as [|x l IH]; intro H; [reflexivity|]. cbn [filter]. specialize (IH (fun y Hy => H y (or_intror Hy))). pose proof (H x (or_introl eq_refl)) as Hx.
  destruct (P x), (Q x); cbn [orb length] in *; try lia.
Qed.
Lemma place_next : forall lvl m x, sorted m -> In (kV x) (keys m) -> lvl (kV (x + 1)) = lvl (kV x) -> place lvl m (kV (x + 1)) = S (place lvl m (kV x)).
Proof.
  intros lvl m x S Hx Hl. unfold place. rewrite Hl.
  rewrite (filter_ext_in _ (fun e => ((lvl (fst e) =? lvl (kV x)) && key_ltb (fst e) (kV x)) || key_eqb (fst e) (kV x))).
  - rewrite filter_or.
    + rewrite Nat.add_comm. change (Datatypes.S ?n) with (1 + n)%nat. f_equal.
      pose proof (sorted_nodup _ m S) as ND. clear - ND Hx. induction m as [|[k g] m IH]; [destruct Hx|]. cbn [keys map fst] in *. inversion ND as [|? ? N ND']; subst. cbn [filter fst].
      destruct (key_eqb_spec k (kV x)) as [->|Nk].
      * cbn [length]. f_equal. enough (filter (fun e : key * dgate => key_eqb (fst e) (kV x)) m = []) as -> by reflexivity.
        clear - N. induction m as [|[k g'] m IH]; [reflexivity|]. cbn [filter fst keys map In] in *. destruct (key_eqb_spec k (kV x)) as [->|]; [exfalso; apply N; left; reflexivity|]. apply IH. tauto.
      * apply IH; [|exact ND']. destruct Hx as [Hx|Hx]; [congruence|exact Hx].
    + intros [k g] _ H1 H2. cbn [fst] in *. apply andb_true_iff in H1. destruct H1 as [_ H1]. destruct (key_eqb_spec k (kV x)) as [->|]; [|discriminate].
      destruct (key_ltb_spec (kV x) (kV x)) as [Q|]; [exact (key_lt_irrefl _ Q)|discriminate].
  - intros [[k1 k2] g] _. cbn [fst]. destruct (key_eqb_spec (k1, k2) (kV x)) as [Q|N].
    + injection Q as -> ->. rewrite orb_true_r. fold (kV x). rewrite Z.eqb_refl. cbn [andb]. destruct (key_ltb_spec (kV x) (kV (x + 1))) as [|Q]; [reflexivity|].
      exfalso. apply Q. unfold key_lt, kV. cbn. lia.
    + rewrite orb_false_r. f_equal. destruct (key_ltb_spec (k1, k2) (kV (x + 1))) as [A|A], (key_ltb_spec (k1, k2) (kV x)) as [B|B]; try reflexivity; exfalso.
      * apply B. unfold key_lt, kV in *. cbn [fst snd] in *. assert (~ (k1 = 86 /\ k2 = x)) by (intros [-> ->]; apply N; reflexivity). lia.
      * apply A. unfold key_lt, kV in *. cbn [fst snd] in *. lia.
Qed.
Lemma place_run : forall lvl m a b l, sorted m -> (forall i, a <= i <= b -> In (kV i) (keys m) /\ lvl (kV i) = l) ->
  forall i, a <= i <= b -> Z.of_nat (place lvl m (kV i)) = Z.of_nat (place lvl m (kV a)) + (i - a).
Proof.
  intros lvl m a b l S H.
  assert (G : forall n, a + Z.of_nat n <= b -> place lvl m (kV (a + Z.of_nat n)) = (place lvl m (kV a) + n)%nat).
  { induction n as [|n IH]; intro Hn; [rewrite Z.add_0_r; lia|]. replace (a + Z.of_nat (Datatypes.S n)) with (a + Z.of_nat n + 1) by lia.
    rewrite place_next; [rewrite IH by lia; lia|exact S|apply H; lia|]. transitivity l; [|symmetry]; apply H; lia. }
  intros i Hi. specialize (G (Z.to_nat (i - a)) ltac:(lia)). rewrite Z2Nat.id in G by lia. replace (a + (i - a)) with i in G by lia. rewrite G. lia.
Qed.

(** ** The layers of a program *)
Lemma same_length : forall A (l1 l2 : list A), NoDup l1 -> NoDup l2 -> (forall x, In x l1 <-> In x l2) -> length l1 = length l2.
Proof. intros A l1 l2 N1 N2 H. apply Nat.le_antisymm; apply NoDup_incl_length; try assumption; intros x Hx; apply H, Hx. Qed.
Lemma pad_gates_nth : forall c pad j g, nth_error (pad_gates c pad) j = Some g -> g = SG 2 (c + Z.of_nat j) 0 0.
Proof.
  intros c pad j g H. unfold pad_gates in H. rewrite nth_error_map in H. destruct (nth_error (seq 0 (Z.to_nat pad)) j) as [x|] eqn:E; [|discriminate]. injection H as <-.
  assert (Q : (j < Z.to_nat pad)%nat) by (rewrite <- (seq_length (Z.to_nat pad) 0); apply nth_error_Some; rewrite E; discriminate).
  rewrite (nth_error_nth' _ 0%nat) in E by (rewrite seq_length; exact Q). rewrite seq_nth in E by exact Q. injection E as <-. reflexivity.
Qed.
Lemma pad_gates_length : forall c pad, length (pad_gates c pad) = Z.to_nat pad.
Proof. intros. unfold pad_gates. rewrite map_length, seq_length. reflexivity. Qed.

Lemma compiled_shape : forall p m ic L, prog_ok p -> read_prog p = Ok (m, ic) -> dag_to_layered m = Ok L -> L <> [] ->
  ic = Z.of_nat (length (inputs p)) /\ exists K lv ps var, shape p K lv ps var L.
Proof.
  intros p m ic L [ND OKs] E1 E2 NE. destruct (read_inv_prog p m ic ND OKs E1) as [RI ->]. split; [reflexivity|].
  unfold dag_to_layered in E2. apply bind_inv in E2. destruct E2 as (s & EL & E2). apply bind_inv in E2. destruct E2 as (r & ER & E2).
  pose proof (levels_inv p m s RI EL) as [B1 B2 B3].
  assert (CS : exists x, check_sources m (in_degrees m) = Ok x).
  { unfold levels in EL. cbv zeta in EL. apply bind_inv in EL. destruct EL as (x & EL & _). exists x. exact EL. }
  destruct CS as (x & CS). destruct (all_assigned p m x ND RI CS) as [AS SE].
  destruct (insert_relays_inv p m (ls_lvl s) r RI AS ER) as (f & RL & RF). pose proof RL as [R1 R2 R3 R4 R5 R6].
  destruct (layers_of_inv _ _ _ _ R1 E2) as (pos & [Y1 Y2 Y3 Y4 Y5]). set (n := Z.to_nat (ls_max s + 1)) in *.
  set (M := rs_m r) in *. set (lvl := rs_lvl r) in *. pose proof RI as [_ KV DD _ _ RD].
  set (lv := fun k => Z.to_nat (lvl k)). set (ps := place lvl M). set (var := fun k => snd (src f k)).
  assert (RG : forall k, In k (keys M) -> 0 <= lvl k < Z.of_nat n) by (intros k Hk; apply (Y4 (k, dget M k)); apply in_mget, Hk).
  assert (FC : forall k, In k (keys M) -> emit_facts lvl (k, dget M k)) by (intros k Hk; apply Y5, in_mget, Hk).
  assert (LVZ : forall k, In k (keys M) -> Z.of_nat (lv k) = lvl k) by (intros k Hk; unfold lv; apply Z2Nat.id; apply RG, Hk).
  (* what the entries are *)
  assert (EV : forall t, In (kV t) (keys m) -> exists st, In st p /\ target st = [t] /\
     (dg_ty (dget M (kV t)), src f (dg_in0 (dget M (kV t))), src f (dg_in1 (dget M (kV t)))) = stmt_gate st /\
     (dg_in0 (dget M (kV t)) = snd (fst (stmt_gate st)) \/ (In (dg_in0 (dget M (kV t))) (keys M) /\ moved0 (ls_lvl s) t (dget m (kV t)))) /\
     (dg_in1 (dget M (kV t)) = snd (stmt_gate st) \/ (In (dg_in1 (dget M (kV t))) (keys M) /\ moved1 (dget m (kV t)))) /\
     relay_facts (ls_lvl s) t (dget m (kV t)) /\ dg_ty (dget m (kV t)) = fst (fst (stmt_gate st)) /\
     dg_in0 (dget m (kV t)) = snd (fst (stmt_gate st)) /\ dg_in1 (dget m (kV t)) = snd (stmt_gate st)).
  { intros t Ht. destruct (AS _ Ht) as (t' & st & Q & Hs & Htg). apply kV_inj in Q. subst t'. exists st. split; [exact Hs|]. split; [exact Htg|].
    destruct (DD st t Hs Htg) as [_ D2]. injection D2 as _ D2. destruct (R6 t Ht) as (V1 & V2 & V3 & V4 & V5).
    rewrite <- D2. cbn [fst snd]. rewrite V1, V2, V4. split; [reflexivity|]. split; [exact V3|]. split; [exact V5|]. split; [apply RF, Ht|]. split; [reflexivity|]. split; reflexivity. }
  assert (KM : forall t, In (kV t) (keys M) <-> In (kV t) (keys m)).
  { intro t. rewrite R3. split; [intros [H|(c & Q & _)]; [exact H|discriminate Q]|tauto]. }
  assert (OPK : forall k a (Q : Prop), (k = kV a \/ (In k (keys M) /\ Q)) -> In (kV a) (keys m) -> In k (keys M)).
  { intros k a Q [->|H] Ha; [apply KM, Ha|apply H]. }
  assert (PSZ : forall k, In k (keys M) -> pos k = Z.of_nat (ps k)) by exact Y3.
  (* nodes *)
  assert (NODE : forall k, In k (keys M) -> node p (keys M) lv ps var k (lv k) (emitted pos (k, dget M k))).
  { intros k Hk. pose proof Hk as Hk'. apply R3 in Hk'. destruct (FC k Hk) as [F0 F1]. cbn [fst snd] in F0, F1.
    assert (LS : forall k0, In k0 (keys M) -> lvl k0 + 1 = lvl k -> lv k = S (lv k0)) by (intros k0 H0 H1; unfold lv; rewrite <- H1; pose proof (RG k0 H0); lia).
    destruct Hk' as [Hm|(c & -> & Hc)].
    - destruct (KV k Hm) as (t & ->). destruct (EV t Hm) as (st & Hs & Htg & EG & O0 & O1 & (RF1 & RF2 & RF3) & ET & EI0 & EI1).
      destruct st as [o t' a b|t' a b|t' i|o a|]; try discriminate Htg; injection Htg as ->; cbn [stmt_gate fst snd] in EG, O0, O1, ET, EI0, EI1; injection EG as G0 G1 G2.
      + destruct (reads_op o t a b) as [Ra Rb]. pose proof (OPK _ a _ O0 (RD _ _ Hs Ra)) as K0. pose proof (OPK _ b _ O1 (RD _ _ Hs Rb)) as K1.
        assert (NT : dg_ty (dget M (kV t)) <> 3) by (rewrite G0; destruct o; discriminate). specialize (F0 NT). rewrite (LS _ K0 F0).
        apply (NOp p (keys M) lv ps var o t a b _ _ (dg_in0 (dget M (kV t))) (dg_in1 (dget M (kV t)))); try assumption; try reflexivity.
        * unfold var. rewrite G1. reflexivity.
        * cbn [sg_u emitted snd]. apply PSZ, K0.
        * intros ->. cbn [sg_v emitted snd]. unfold gate_v. rewrite G0. reflexivity.
        * intros No. assert (F1' : lvl (dg_in1 (dget M (kV t))) + 1 = lvl (kV t)) by (apply F1; rewrite G0; destruct o; try discriminate; contradiction).
          split; [exact K1|]. split; [unfold lv; f_equal; lia|]. split; [unfold var; rewrite G2; reflexivity|].
          cbn [sg_v emitted snd]. unfold gate_v. rewrite G0. replace ((op_ty o =? 3) || (op_ty o =? 10) || (op_ty o =? 6)) with false by (destruct o; try reflexivity; contradiction).
          apply PSZ, K1.
        * intros ->. assert (QE : kV a = kV b) by (rewrite <- EI0, <- EI1; apply RF3; exact ET). apply kV_inj in QE. split; [exact QE|]. subst b.
          (* both operands are one level below, so neither was moved *)
          assert (F1' : lvl (dg_in1 (dget M (kV t))) + 1 = lvl (kV t)) by (apply F1; rewrite G0; discriminate).
          cbn [sg_v sg_u emitted snd]. unfold gate_v. rewrite G0. change ((op_ty OBit =? 3) || (op_ty OBit =? 10) || (op_ty OBit =? 6)) with false. cbv iota.
          destruct O1 as [O1|(_ & _ & O1)]; [|exfalso; apply O1; exact ET]. rewrite O1 in F1' |- *.
          destruct O0 as [->|(_ & _ & O0)]; [reflexivity|]. exfalso. apply O0. rewrite EI0. unfold lvl in F1'. rewrite !R4 in F1'. exact F1'.
      + assert (LE : a <= b) by exact (SE t a b Hs). pose proof (OKs _ Hs) as (_ & _ & HW). cbn in HW.
        assert (NT : dg_ty (dget M (kV t)) <> 3) by (rewrite G0; discriminate).
        destruct O0 as [O0|(_ & O0 & _)]; [|exfalso; apply O0; exact ET]. destruct O1 as [O1|(_ & O1 & _)]; [|exfalso; apply O1; exact ET].
        assert (LI : forall i, a <= i <= b -> In (kV i) (keys M) /\ lvl (kV i) + 1 = lvl (kV t)).
        { intros i Hi. split; [apply KM, (RD _ i Hs); exact Hi|]. unfold lvl. rewrite !R4. apply (RF2 ET). rewrite EI0, EI1. exact Hi. }
        assert (KA : In (kV a) (keys M)) by (apply LI; lia). assert (KB : In (kV b) (keys M)) by (apply LI; lia).
        rewrite (LS (kV a) KA) by (apply LI; lia).
        apply (NSum p (keys M) lv ps var t a b); [exact Hs|exact G0|lia| | |].
        * intros i Hi. destruct (LI i Hi) as [L1 L2]. destruct (LI a ltac:(lia)) as [_ L3]. split; [exact L1|]. split; [unfold lv; f_equal; lia|].
          apply (place_run lvl M a b (lvl (kV t) - 1)); [exact R1| |exact Hi]. intros j Hj. destruct (LI j Hj) as [L4 L5]. split; [exact L4|lia].
        * cbn [sg_u emitted snd]. rewrite O0. apply PSZ, KA.
        * cbn [sg_v emitted snd]. unfold gate_v. rewrite G0. change ((12 =? 3) || (12 =? 10) || (12 =? 6)) with false. cbv iota. rewrite O1. apply PSZ, KB.
      + assert (Z0 : lvl (kV t) = 0) by (unfold lvl; rewrite R4; apply RF1; exact ET).
        assert (lv (kV t) = 0%nat) as -> by (unfold lv; rewrite Z0; reflexivity).
        apply (NIn p (keys M) lv ps var t i); [exact Hs|exact G0|]. cbn [sg_v emitted snd]. unfold gate_v. rewrite G0. reflexivity.
    - destruct (R5 c Hc) as (T1 & T2 & T3). rewrite (LS _ T2 (F0 ltac:(rewrite T1; discriminate))).
      apply (NRelay p (keys M) lv ps var (kR c) (dg_in0 (dget M (kR c)))); try assumption; try reflexivity; try (intros t Q; discriminate Q).
      + cbn [sg_v emitted snd]. unfold gate_v. rewrite T1. reflexivity.
      + unfold var. rewrite T3. unfold src, kR. cbn [fst snd]. reflexivity.
      + cbn [sg_u emitted snd]. apply PSZ, T2. }
  (* every level is inhabited *)
  assert (N0 : (0 < n)%nat) by (rewrite <- Y1; destruct L; [contradiction|cbn; lia]).
  assert (INH : forall j, (j < n)%nat -> exists k, In k (keys M) /\ lv k = (n - 1 - j)%nat).
  { induction j as [|j IH]; intro Hj.
    - destruct B3 as [B3|(k & Hk & B3)]; [exfalso; unfold n in N0; rewrite B3 in N0; cbn in N0; lia|]. destruct (KV k Hk) as (t & ->).
      exists (kV t). split; [apply KM, Hk|]. pose proof (RG (kV t) (proj2 (KM t) Hk)) as RR. unfold lv, lvl in *. rewrite R4 in *. unfold n in *. lia.
    - destruct (IH ltac:(lia)) as (k & Hk & Lk). pose proof (NODE k Hk) as ND'. rewrite Lk in ND'. replace (n - 1 - j)%nat with (S (n - 1 - S j)) in ND' by lia.
      inversion ND' as [| ? ? ? ? ? ? ka ? ? ? HK HL| ? ? ? ? ? ? ? ? HA|? ka ? ? ? ? ? HK HL]; subst.
      + exists ka. split; [exact HK|exact HL].
      + destruct (HA a ltac:(lia)) as (HA1 & HA2 & _). exists (kV a). split; assumption.
      + exists ka. split; [exact HK|exact HL]. }
  assert (LEV0 : forall k, In k (keys M) -> (lvl k = 0 <-> exists t i, k = kV t /\ In (SIn t i) p)).
  { intros k Hk. split.
    - intro Z0. pose proof (NODE k Hk) as ND'. assert (Q : lv k = 0%nat) by (unfold lv; rewrite Z0; reflexivity). rewrite Q in ND'. inversion ND'; subst. exists t, i. split; [reflexivity|assumption].
    - intros (t & i & -> & Hs). pose proof (NODE (kV t) Hk) as ND'.
      destruct (DD (SIn t i) t Hs eq_refl) as [_ D2]. injection D2 as _ D2 _ _.
      unfold lvl. rewrite R4. apply (RF t); [apply KM, Hk|exact D2]. }
  assert (TK : forall t, In t (targets p) -> In (kV t) (keys M)).
  { intros t Ht. unfold targets in Ht. apply in_flat_map in Ht. destruct Ht as (st & Hs & Ht). apply KM. apply (DD st t Hs).
    destruct (target_nil st) as [Q|(t' & Q)]; rewrite Q in Ht |- *; [destruct Ht|]. destruct Ht as [->|[]]. reflexivity. }
  assert (INK : forall t, In t (inputs p) <-> In (kV t) (keys M) /\ lvl (kV t) = 0).
  { intro t. split.
    - intro Ht. unfold inputs in Ht. apply in_flat_map in Ht. destruct Ht as (st & Hs & Ht). destruct st; cbn [input_var In] in Ht; try contradiction. destruct Ht as [->|[]].
      assert (K : In (kV t) (keys M)) by (apply TK; exact (in_targets _ _ _ Hs eq_refl)). split; [exact K|]. apply (LEV0 _ K). exists t, i. split; [reflexivity|exact Hs].
    - intros [K Z0]. apply (LEV0 _ K) in Z0. destruct Z0 as (t' & i & Q & Hs). apply kV_inj in Q. subst t'. apply in_flat_map. exists (SIn t i). split; [exact Hs|left; reflexivity]. }
  assert (NDI : NoDup (inputs p)).
  { clear - ND. induction p as [|st p IH]; [constructor|]. cbn [targets inputs flat_map] in *. fold (targets p) in ND. fold (inputs p).
    assert (SUB : forall t, In t (inputs p) -> In t (targets p)).
    { intros t Ht. apply in_flat_map in Ht. destruct Ht as (x & Hx & Ht). apply in_flat_map. exists x. split; [exact Hx|]. destruct x; try destruct Ht; cbn; tauto. }
    destruct st; cbn [target input_var app] in *; try (inversion ND; subst; auto; fail); try (apply IH; exact ND).
    inversion ND as [|? ? N ND']; subst. constructor; [intro H; apply N, SUB, H|apply IH, ND']. }
  assert (NDM : NoDup M) by (eapply NoDup_map_inv; exact (sorted_nodup _ M R1)).
  assert (NDF : forall q : key * dgate -> bool, NoDup (map fst (filter q M))).
  { intro q. pose proof (sorted_nodup _ M R1) as NK. unfold keys in NK. clear - NK. induction M as [|e M' IH]; [constructor|]. cbn [map filter] in *. inversion NK as [|? ? N NK']; subst.
    destruct (q e); [|apply IH, NK']. cbn [map]. constructor; [|apply IH, NK']. intro H. apply N. apply in_map_iff in H. destruct H as (y & Q & Hy). apply filter_In in Hy. rewrite <- Q. apply in_map. apply Hy. }
  assert (NDV : forall l, NoDup l -> NoDup (map kV l)).
  { clear. induction l as [|x l IH]; intro H; [constructor|]. inversion H as [|? ? N H']; subst. cbn [map]. constructor; [|apply IH, H'].
    intro Q. apply in_map_iff in Q. destruct Q as (y & Q & Hy). apply kV_inj in Q. subst y. contradiction. }
  assert (INM : forall k, In k (keys M) <-> exists g, In (k, g) M).
  { intro k. unfold keys. rewrite in_map_iff. split; [intros ([k' g] & Q & H); cbn [fst] in Q; subst; exists g; exact H|intros (g & H); exists (k, g); split; [reflexivity|exact H]]. }
  assert (C0 : length (at_level lvl 0 M) = length (inputs p)).
  { rewrite <- (map_length fst), <- (map_length kV (inputs p)). apply same_length; [apply NDF|apply NDV, NDI|]. intro k. rewrite !in_map_iff. split.
    - intros ([k' g] & Q & H). cbn [fst] in Q. subst k'. apply at_level_In in H. cbn [fst] in H. destruct H as [H Z0]. assert (K : In k (keys M)) by (apply INM; exists g; exact H).
      pose proof Z0 as Z1. apply (LEV0 _ K) in Z1. destruct Z1 as (t & i & -> & _). exists t. split; [reflexivity|]. apply INK. split; assumption.
    - intros (t & <- & H). apply INK in H. destruct H as [K Z0]. apply INM in K. destruct K as (g & K). exists (kV t, g). split; [reflexivity|]. apply at_level_In. split; assumption. }
  exists (keys M), lv, ps, var. constructor.
  - intros l Hl. rewrite Y1 in Hl. destruct (Y2 l Hl) as (pad & b & Q1 & Q2 & Q3 & Q4 & Q5). cbv zeta in *. eexists _, b. split; [exact Q1|]. cbn [sl_bits sl_gates sl_pad].
    split; [reflexivity|]. assert (LEN : (length (map (emitted pos) (at_level lvl (Z.of_nat l) M) ++ pad_gates (Z.of_nat (length (at_level lvl (Z.of_nat l) M))) pad) = 2 ^ b)%nat).
    { rewrite app_length, map_length, pad_gates_length. apply Nat2Z.inj. rewrite Nat2Z.inj_add, Z2Nat.id by exact Q4. rewrite Q3, Nat2Z.inj_pow. reflexivity. }
    assert (CP : 0 < Z.of_nat (length (at_level lvl (Z.of_nat l) M))).
    { destruct (INH (n - 1 - l)%nat ltac:(lia)) as (k & Hk & Lk). replace (n - 1 - (n - 1 - l))%nat with l in Lk by lia.
      pose proof (place_lt lvl M k R1 Hk) as PL. rewrite <- (LVZ k Hk), Lk in PL. lia. }
    destruct (Q5 CP) as [Q6 Q7]. split; [|split; [exact LEN|split]].
    + split; [exact Q6|exact Q2].
    + intros j g Hj. destruct (Nat.lt_ge_cases j (length (at_level lvl (Z.of_nat l) M))) as [Lj|Lj].
      * rewrite nth_error_app1 in Hj by (rewrite map_length; exact Lj). rewrite nth_error_map in Hj. destruct (nth_error (at_level lvl (Z.of_nat l) M) j) as [[k g']|] eqn:EN; [|discriminate].
        injection Hj as <-. destruct (place_nth _ _ _ _ _ _ R1 EN) as (P1 & P2 & P3). cbn [emitted sg_g fst]. rewrite PSZ; [unfold ps; rewrite P3; reflexivity|]. apply INM. exists g'. exact P1.
      * rewrite nth_error_app2 in Hj by (rewrite map_length; exact Lj). apply pad_gates_nth in Hj. subst g. cbn [sg_g]. rewrite map_length. lia.
    + intros ->. change (Z.of_nat 0) with 0 in Q3, Q7. rewrite C0 in Q3, Q7. split; [lia|]. split; [exact Q4|exact Q7].
  - intros l S j g HS Hj. assert (Hl : (l < n)%nat) by (rewrite <- Y1; apply nth_error_Some; rewrite HS; discriminate).
    destruct (Y2 l Hl) as (pad & b & Q1 & _). cbv zeta in Q1. rewrite Q1 in HS. injection HS as <-. cbn [sl_gates] in Hj.
    destruct (Nat.lt_ge_cases j (length (at_level lvl (Z.of_nat l) M))) as [Lj|Lj].
    + right. rewrite nth_error_app1 in Hj by (rewrite map_length; exact Lj). rewrite nth_error_map in Hj. destruct (nth_error (at_level lvl (Z.of_nat l) M) j) as [[k g']|] eqn:EN; [|discriminate].
      destruct (place_nth _ _ _ _ _ _ R1 EN) as (P1 & P2 & P3). exists k. split; [apply INM; exists g'; exact P1|]. split; [unfold lv; rewrite P2; apply Nat2Z.id|exact P3].
    + left. rewrite nth_error_app2 in Hj by (rewrite map_length; exact Lj). apply pad_gates_nth in Hj. subst g. repeat split.
  - intros k Hk. pose proof (RG k Hk) as RR. destruct (Y2 (lv k) ltac:(unfold lv; lia)) as (pad & b & Q1 & _). cbv zeta in Q1. eexists _, (emitted pos (k, dget M k)). split; [exact Q1|]. cbn [sl_gates].
    rewrite (LVZ k Hk). split; [|apply NODE, Hk]. rewrite nth_error_app1 by (rewrite map_length; apply place_lt; assumption). rewrite nth_error_map.
    unfold ps. rewrite at_level_place by assumption. reflexivity.
  - reflexivity.
  - exact TK.
  - intros t i Hs. assert (K : In (kV t) (keys M)) by (apply TK; exact (in_targets _ _ _ Hs eq_refl)).
    assert (Z0 : lvl (kV t) = 0) by (apply (LEV0 _ K); exists t, i; split; [reflexivity|exact Hs]). split; [unfold lv; rewrite Z0; reflexivity|].
    unfold ps, place, rank. rewrite Z0. rewrite <- (map_length fst), <- (map_length kV (filter _ (inputs p))). apply same_length; [apply NDF|apply NDV, NoDup_filter, NDI|].
    intro k. rewrite !in_map_iff. split.
    + intros ([k' g] & Q & H). cbn [fst] in Q. subst k'. apply filter_In in H. cbn [fst] in H. destruct H as [H H2]. apply andb_true_iff in H2. destruct H2 as [H2 H3]. apply Z.eqb_eq in H2.
      assert (K' : In k (keys M)) by (apply INM; exists g; exact H). pose proof H2 as Z1. apply (LEV0 _ K') in Z1. destruct Z1 as (t' & i' & -> & _). exists t'. split; [reflexivity|].
      apply filter_In. split; [apply INK; split; assumption|]. destruct (key_ltb_spec (kV t') (kV t)) as [Q|]; [|discriminate]. apply Z.ltb_lt. unfold key_lt, kV in Q. cbn [fst snd] in Q. lia.
    + intros (t' & <- & H). apply filter_In in H. destruct H as [H1 H2]. apply INK in H1. destruct H1 as [K' Z1]. pose proof K' as K2. apply INM in K'. destruct K' as (g & K'). exists (kV t', g). split; [reflexivity|].
      apply filter_In. split; [exact K'|]. cbn [fst]. rewrite Z1. cbn [andb Z.eqb]. apply Z.ltb_lt in H2. destruct (key_ltb_spec (kV t') (kV t)) as [|Q]; [reflexivity|]. exfalso. apply Q. unfold key_lt, kV. cbn [fst snd]. lia.
Qed.
