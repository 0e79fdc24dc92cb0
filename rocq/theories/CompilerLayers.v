(** * The layers that the compiler makes of the graph *)
From Coq Require Import ZArith List Bool Arith Lia Sorted.
From Verif Require Import Base Fp Loader SpecLoader LoaderProofs ZkEval Program SpecCompiler Compiler CompilerMaps CompilerRead CompilerLevels.
Import ListNotations.
Open Scope Z_scope.

(** ** Padding *)
Lemma halve_zero : forall fuel full bits, halve fuel 0 full bits = Ok (full, bits).
Proof. intros [|f] full bits; reflexivity. Qed.
Lemma halve_inv : forall fuel lgc full bits full' bits', 0 <= lgc -> halve fuel lgc full bits = Ok (full', bits') ->
  bits <= bits' /\ full' = full * 2 ^ (bits' - bits) /\ lgc < 2 ^ (bits' - bits) /\ (0 < lgc -> bits < bits' /\ 2 ^ (bits' - bits) <= 2 * lgc /\ full' < 2 ^ 31).
Proof.
  induction fuel as [|f IH]; intros lgc full bits full' bits' Hl E; destruct (Z.eq_dec lgc 0) as [->|N].
  - rewrite halve_zero in E. injection E as <- <-. rewrite Z.sub_diag. cbn. lia.
  - cbn [halve] in E. destruct (Z.eqb_spec lgc 0); [contradiction|discriminate].
  - rewrite halve_zero in E. injection E as <- <-. rewrite Z.sub_diag. cbn. lia.
  - cbn [halve] in E. destruct (Z.eqb_spec lgc 0); [contradiction|]. apply bind_inv in E. destruct E as (x & E1 & E). apply int_op_inv in E1. destruct E1 as [-> B1].
    pose proof (Z.div_mod lgc 2 ltac:(lia)) as DM. pose proof (Z.mod_pos_bound lgc 2 ltac:(lia)) as MB.
    destruct (Z.eq_dec (lgc / 2) 0) as [Q|Q].
    + rewrite Q, halve_zero in E. injection E as <- <-. replace (bits + 1 - bits) with 1 by lia. change (2 ^ 1) with 2. lia.
    + apply IH in E; [|apply Z.div_pos; lia]. destruct E as (A1 & A2 & A3 & A4). destruct A4 as (A4 & A5 & A6); [lia|].
      assert (PW : 2 ^ (bits' - bits) = 2 * 2 ^ (bits' - (bits + 1))).
      { replace (bits' - bits) with (Z.succ (bits' - (bits + 1))) by lia. apply Z.pow_succ_r. lia. }
      split; [lia|]. split; [rewrite A2, PW; ring|]. split; [lia|]. intros _. split; [lia|]. split; [lia|exact A6].
Qed.
Lemma halve_one : forall c full bits, 0 <= c -> halve 32 c 1 0 = Ok (full, bits) ->
  0 <= bits < 31 /\ full = 2 ^ bits /\ c < full /\ (0 < c -> 1 <= bits /\ full <= 2 * c).
Proof.
  intros c full bits Hc E. destruct (Z.eq_dec c 0) as [->|N].
  - rewrite halve_zero in E. injection E as <- <-. change (2 ^ 0) with 1. lia.
  - apply halve_inv in E; [|exact Hc]. rewrite Z.sub_0_r in E. destruct E as (A & B & C & D). destruct D as (D1 & D2 & D3); [lia|].
    assert (full = 2 ^ bits) by lia. assert (bits < 31) by (apply (Z.pow_lt_mono_r_iff 2); lia). lia.
Qed.
Lemma pad_level_inv : forall c pad bits, 0 <= c -> pad_level c = Ok (pad, bits) ->
  0 <= bits < 31 /\ c + pad = 2 ^ bits /\ c < 2 ^ bits /\ (0 < c -> 1 <= bits /\ 2 ^ bits <= 2 * c).
Proof.
  intros c pad bits Hc E. unfold pad_level in E. apply bind_inv in E. destruct E as ([full b] & E1 & E). apply halve_one in E1; [|exact Hc].
  destruct (Z.eqb_spec (full - c) 0); [lia|]. injection E as <- <-. lia.
Qed.

(** ** Counting *)
Definition at_level (lvl : key -> Z) (l : Z) (m : dag) : dag := filter (fun e => lvl (fst e) =? l) m.
Definition level_sizes (lvl : key -> Z) (m : dag) (n : nat) : list Z := map (fun l => Z.of_nat (length (at_level lvl (Z.of_nat l) m))) (seq 0 n).
Lemma upd_map_seq : forall A (f : nat -> A) i x n st, (i < n)%nat ->
  upd (map f (seq st n)) i x = map (fun l => if Nat.eqb l (st + i) then x else f l) (seq st n).
Proof.
  intros A f i x n. revert i. induction n as [|n IH]; intros i st H; [lia|]. cbn [seq map]. destruct i as [|i]; cbn [upd].
  - rewrite Nat.add_0_r, Nat.eqb_refl. f_equal. apply map_ext_in. intros l Hl. apply in_seq in Hl. destruct (Nat.eqb_spec l st); [lia|reflexivity].
  - destruct (Nat.eqb_spec st (st + S i)); [lia|]. f_equal. rewrite IH by lia. replace (S st + i)%nat with (st + S i)%nat by lia. reflexivity.
Qed.
Lemma nth_map_seq : forall A (f : nat -> A) n i, (i < n)%nat -> nth_error (map f (seq 0 n)) i = Some (f i).
Proof.
  intros A f n i H. rewrite nth_error_map. rewrite (nth_error_nth' (seq 0 n) 0%nat) by (rewrite seq_length; exact H). cbn [option_map]. rewrite seq_nth by exact H. reflexivity.
Qed.
Lemma at_level_snoc : forall lvl l m e, at_level lvl l (m ++ [e]) = at_level lvl l m ++ (if lvl (fst e) =? l then [e] else []).
Proof. intros. unfold at_level. rewrite filter_app. cbn [filter]. destruct (lvl (fst e) =? l); reflexivity. Qed.
Lemma level_sizes_snoc : forall lvl m e n i x, idx (lvl (fst e)) = Ok i -> rd (level_sizes lvl m n) i = Ok x ->
  0 <= lvl (fst e) /\ i = Z.to_nat (lvl (fst e)) /\ (i < n)%nat /\ x = Z.of_nat (length (at_level lvl (lvl (fst e)) m)) /\
  upd (level_sizes lvl m n) i (x + 1) = level_sizes lvl (m ++ [e]) n.
Proof.
  intros lvl m e n i x Ei Er. apply idx_inv in Ei. destruct Ei as [Hi ->]. apply rd_inv in Er.
  assert (HL : (Z.to_nat (lvl (fst e)) < n)%nat).
  { assert (Q : (Z.to_nat (lvl (fst e)) < length (level_sizes lvl m n))%nat) by (apply nth_error_Some; rewrite Er; discriminate).
    unfold level_sizes in Q. rewrite map_length, seq_length in Q. exact Q. }
  unfold level_sizes in Er. rewrite nth_map_seq in Er by exact HL. injection Er as <-. rewrite Z2Nat.id by exact Hi.
  split; [exact Hi|]. split; [reflexivity|]. split; [exact HL|]. split; [reflexivity|].
  unfold level_sizes. rewrite upd_map_seq by exact HL. apply map_ext_in. intros l Hl. rewrite at_level_snoc, app_length. cbn [Nat.add].
  destruct (Nat.eqb_spec l (Z.to_nat (lvl (fst e)))) as [->|N].
  - rewrite Z2Nat.id by exact Hi. rewrite Z.eqb_refl. cbn [length]. lia.
  - destruct (Z.eqb_spec (lvl (fst e)) (Z.of_nat l)); [lia|]. cbn [length]. lia.
Qed.
Lemma sizes_nil : forall lvl n, level_sizes lvl [] n = repeat 0 n.
Proof.
  intros lvl n. unfold level_sizes, at_level. cbn [filter length]. change (Z.of_nat 0) with 0. generalize 0%nat as st.
  induction n as [|n IH]; intro st; [reflexivity|]. cbn [seq map repeat]. f_equal. apply IH.
Qed.
Lemma count_levels_inv : forall m lvl n c, count_levels m lvl n = Ok c -> c = level_sizes lvl m n /\ forall e, In e m -> 0 <= lvl (fst e) < Z.of_nat n.
Proof.
  intros m lvl n c E. unfold count_levels in E.
  apply (each_inv _ _ _ (fun l c => c = level_sizes lvl l n /\ forall e, In e l -> 0 <= lvl (fst e) < Z.of_nat n) _ _ _ E).
  - split; [symmetry; apply sizes_nil|intros e []].
  - intros l1 e l2 c1 c2 _ [-> H] E1. apply bind_inv in E1. destruct E1 as (i & Ei & E1). apply bind_inv in E1. destruct E1 as (x & Ex & E1).
    apply bind_inv in E1. destruct E1 as (x' & Ex' & E1). apply int_op_inv in Ex'. destruct Ex' as [-> _]. apply wr_inv in E1. destruct E1 as [_ ->].
    destruct (level_sizes_snoc _ _ _ _ _ _ Ei Ex) as (H1 & -> & H2 & _ & ->). split; [reflexivity|].
    intros e' He. apply in_app_iff in He. destruct He as [He|[<-|[]]]; [apply H, He|lia].
Qed.
(** The number of smaller keys on the same level. *)
Definition place (lvl : key -> Z) (m : dag) (k : key) : nat := length (filter (fun e => (lvl (fst e) =? lvl k) && key_ltb (fst e) k) m).
Lemma place_split : forall lvl m1 e m2, sorted (m1 ++ e :: m2) -> place lvl (m1 ++ e :: m2) (fst e) = length (at_level lvl (lvl (fst e)) m1).
Proof.
  intros lvl m1 e m2 S. destruct (sorted_split _ m1 m2 e S) as [A B]. unfold place, at_level. rewrite filter_app, app_length. cbn [filter].
  destruct (key_ltb_spec (fst e) (fst e)) as [Q|_]; [destruct (key_lt_irrefl _ Q)|]. rewrite andb_false_r.
  assert (E2 : filter (fun e0 => (lvl (fst e0) =? lvl (fst e)) && key_ltb (fst e0) (fst e)) m2 = []).
  { clear - B. induction m2 as [|x m2 IH]; [reflexivity|]. cbn [filter]. destruct (key_ltb_spec (fst x) (fst e)) as [Q|_].
    - exfalso. apply (key_lt_irrefl (fst x)). eapply key_lt_trans; [exact Q|]. apply B. left. reflexivity.
    - rewrite andb_false_r. apply IH. intros k Hk. apply B. right. exact Hk. }
  rewrite E2. cbn [length]. rewrite Nat.add_0_r. f_equal. apply filter_ext_in. intros x Hx.
  destruct (key_ltb_spec (fst x) (fst e)) as [_|Q]; [apply andb_true_r|]. exfalso. apply Q, A. apply in_map, Hx.
Qed.
Lemma number_levels_inv : forall m lvl n c pos, sorted m -> number_levels m lvl n = Ok (c, pos) ->
  c = level_sizes lvl m n /\ forall k, In k (keys m) -> pos k = Z.of_nat (place lvl m k).
Proof.
  intros m lvl n c pos S E. unfold number_levels in E.
  pose proof (each_inv _ _ _ (fun l cp => fst cp = level_sizes lvl l n /\ (forall m1 e m2, l = m1 ++ e :: m2 -> snd cp (fst e) = Z.of_nat (length (at_level lvl (lvl (fst e)) m1)))) _ _ _ E) as K.
  cbv beta in K. destruct K as [K1 K2].
  - cbn [fst snd]. split; [symmetry; apply sizes_nil|]. intros [|x m1] e m2 Q; discriminate Q.
  - intros l1 e l2 [c1 p1] [c2 p2] El [Hc1 H] E1. cbn [fst snd] in *. subst c1. apply bind_inv in E1. destruct E1 as (i & Ei & E1). apply bind_inv in E1. destruct E1 as (x & Ex & E1).
    apply bind_inv in E1. destruct E1 as (x' & Ex' & E1). apply int_op_inv in Ex'. destruct Ex' as [-> _]. apply bind_inv in E1. destruct E1 as (c3 & Ec & E1).
    apply wr_inv in Ec. destruct Ec as [_ ->]. injection E1 as <- <-.
    destruct (level_sizes_snoc _ _ _ _ _ _ Ei Ex) as (_ & _ & _ & Hx & ->). split; [reflexivity|].
    intros m1 e' m2 Q. destruct m2 as [|y m2'] using rev_ind.
    + apply app_inj_tail in Q. destruct Q as [-> ->]. rewrite fset_same. exact Hx.
    + rewrite app_comm_cons, app_assoc in Q. apply app_inj_tail in Q. destruct Q as [Q1 <-].
      rewrite fset_other; [apply (H m1 e' m2' Q1)|].
      intro Q2. apply sorted_nodup in S. rewrite El in S. unfold keys in S. rewrite map_app in S. cbn [map] in S. apply NoDup_remove_2 in S. apply S. apply in_app_iff. left.
      rewrite <- Q2. apply in_map. rewrite Q1. apply in_app_iff. right. left. reflexivity.
  - cbn [fst snd] in *. split; [exact K1|]. intros k Hk. pose proof (in_mget _ dg_zero m k Hk) as Hin. apply in_split in Hin. destruct Hin as (m1 & m2 & Q).
    specialize (K2 _ _ _ Q). cbn [fst] in K2. rewrite K2. f_equal. rewrite Q in S. pose proof (place_split lvl m1 (k, mget dg_zero m k) m2 S) as PS. cbn [fst] in PS.
    rewrite <- Q in PS. symmetry. exact PS.
Qed.

(** ** Gates *)
Definition gate_v (pos : key -> Z) (g : dgate) : Z := if (dg_ty g =? 3) || (dg_ty g =? 10) || (dg_ty g =? 6) then 0 else pos (dg_in1 g).
Definition emitted (pos : key -> Z) (e : key * dgate) : sgate := SG (dg_ty (snd e)) (pos (fst e)) (pos (dg_in0 (snd e))) (gate_v pos (snd e)).
Definition emit_facts (lvl : key -> Z) (e : key * dgate) : Prop :=
  (dg_ty (snd e) <> 3 -> lvl (dg_in0 (snd e)) + 1 = lvl (fst e)) /\
  (dg_ty (snd e) <> 3 -> dg_ty (snd e) <> 10 -> dg_ty (snd e) <> 6 -> lvl (dg_in1 (snd e)) + 1 = lvl (fst e)).
Lemma emit_inv : forall m lvl pos n ls, each (emit_gate lvl pos) m (repeat [] n) = Ok ls ->
  ls = map (fun l => map (emitted pos) (at_level lvl (Z.of_nat l) m)) (seq 0 n) /\ forall e, In e m -> emit_facts lvl e.
Proof.
  intros m lvl pos n ls E.
  apply (each_inv _ _ _ (fun l ls => ls = map (fun i => map (emitted pos) (at_level lvl (Z.of_nat i) l)) (seq 0 n) /\ forall e, In e l -> emit_facts lvl e) _ _ _ E).
  - split; [|intros e []]. unfold at_level. cbn [filter map]. generalize 0%nat as st. clear. induction n as [|n IH]; intro st; [reflexivity|]. cbn [seq map repeat]. f_equal. apply IH.
  - intros l1 [k g] l2 c1 c2 _ [-> H] E1. unfold emit_gate in E1. cbv zeta in E1. apply bind_inv in E1. destruct E1 as (i & Ei & E1). apply idx_inv in Ei. destruct Ei as [Hl ->].
    apply bind_inv in E1. destruct E1 as (row & Er & E1). apply bind_inv in E1. destruct E1 as (ls1 & Ew & E1). apply wr_inv in Ew. destruct Ew as [Hw ->].
    apply bind_inv in E1. destruct E1 as (? & A1 & E1). apply assert_inv in A1. apply bind_inv in E1. destruct E1 as (? & A2 & E1). apply assert_inv in A2. injection E1 as <-.
    rewrite map_length, seq_length in Hw. apply rd_inv in Er. rewrite nth_map_seq in Er by exact Hw. injection Er as <-. split.
    + rewrite upd_map_seq by exact Hw. apply map_ext_in. intros l Hl'. rewrite at_level_snoc, map_app. cbn [Nat.add fst].
      destruct (Nat.eqb_spec l (Z.to_nat (lvl k))) as [->|N].
      * rewrite Z2Nat.id by exact Hl. rewrite Z.eqb_refl. reflexivity.
      * destruct (Z.eqb_spec (lvl k) (Z.of_nat l)); [lia|]. cbn [map]. rewrite app_nil_r. reflexivity.
    + intros e He. apply in_app_iff in He. destruct He as [He|[<-|[]]]; [apply H, He|]. unfold emit_facts. cbn [fst snd]. split.
      * intros N3. apply orb_true_iff in A1. destruct A1 as [A1|A1]; [apply Z.eqb_eq, A1|]. apply Z.eqb_eq in A1. contradiction.
      * intros N3 N10 N6. rewrite !orb_true_iff in A2. rewrite !Z.eqb_eq in A2. tauto.
Qed.

(** ** Layers *)
Record layered (m : dag) (lvl pos : key -> Z) (n : nat) (L : list slayer) : Prop := {
  ly_length : length L = n;
  ly_layer : forall l, (l < n)%nat -> exists pad b, let c := Z.of_nat (length (at_level lvl (Z.of_nat l) m)) in
     nth_error L l = Some (SL (map (emitted pos) (at_level lvl (Z.of_nat l) m) ++ pad_gates c pad) (Z.of_nat b) pad) /\
     (b < 31)%nat /\ c + pad = 2 ^ Z.of_nat b /\ 0 <= pad /\ (0 < c -> (1 <= b)%nat /\ 2 ^ Z.of_nat b <= 2 * c);
  ly_pos : forall k, In k (keys m) -> pos k = Z.of_nat (place lvl m k);
  ly_range : forall e, In e m -> 0 <= lvl (fst e) < Z.of_nat n;
  ly_facts : forall e, In e m -> emit_facts lvl e }.
Lemma pad_levels_nth : forall c ps, pad_levels c = Ok ps -> length ps = length c /\ forall i x, nth_error c i = Some x -> exists p, nth_error ps i = Some p /\ pad_level x = Ok p.
Proof.
  induction c as [|x c IH]; intros ps E; cbn [pad_levels] in E.
  - injection E as <-. split; [reflexivity|]. intros [|i] y H; discriminate H.
  - apply bind_inv in E. destruct E as (p & Ep & E). apply bind_inv in E. destruct E as (ps' & E' & E). injection E as <-. destruct (IH _ E') as [L H].
    split; [cbn [length]; lia|]. intros [|i] y Hy; cbn [nth_error] in *; [injection Hy as <-; exists p; split; [reflexivity|exact Ep]|apply H, Hy].
Qed.
Lemma pad_layers_nth : forall ls cs ps, length cs = length ls -> length ps = length ls -> length (pad_layers ls cs ps) = length ls /\
  forall i l c pad bits, nth_error ls i = Some l -> nth_error cs i = Some c -> nth_error ps i = Some (pad, bits) -> nth_error (pad_layers ls cs ps) i = Some (SL (l ++ pad_gates c pad) bits pad).
Proof.
  induction ls as [|l ls IH]; intros [|c cs] [|[pad bits] ps] L1 L2; cbn [length] in *; try lia.
  - split; [reflexivity|]. intros [|i] ? ? ? ? H; discriminate H.
  - destruct (IH cs ps ltac:(lia) ltac:(lia)) as [A B]. cbn [pad_layers length]. split; [lia|]. intros [|i] l' c' pad' bits' H1 H2 H3; cbn [nth_error] in *.
    + injection H1 as <-. injection H2 as <-. injection H3 as <- <-. reflexivity.
    + apply B; assumption.
Qed.
Lemma layers_of_inv : forall m lvl mx L, sorted m -> layers_of m lvl mx = Ok L -> exists pos, layered m lvl pos (Z.to_nat (mx + 1)) L.
Proof.
  intros m lvl mx L S E. unfold layers_of in E. cbv zeta in E. set (n := Z.to_nat (mx + 1)) in *.
  apply bind_inv in E. destruct E as (cnt & Ec & E). apply count_levels_inv in Ec. destruct Ec as [-> RG].
  apply bind_inv in E. destruct E as (ps & Ep & E). destruct (pad_levels_nth _ _ Ep) as [LP NP].
  apply bind_inv in E. destruct E as ([c pos] & En & E). apply number_levels_inv in En; [|exact S]. destruct En as [-> PS].
  apply bind_inv in E. destruct E as (ls & El & E). apply emit_inv in El. destruct El as [-> FC]. injection E as <-.
  exists pos. assert (LS : length (level_sizes lvl m n) = n) by (unfold level_sizes; rewrite map_length, seq_length; reflexivity).
  assert (LM : length (map (fun l => map (emitted pos) (at_level lvl (Z.of_nat l) m)) (seq 0 n)) = n) by (rewrite map_length, seq_length; reflexivity).
  destruct (pad_layers_nth (map (fun l => map (emitted pos) (at_level lvl (Z.of_nat l) m)) (seq 0 n)) (level_sizes lvl m n) ps ltac:(lia) ltac:(lia)) as [A B].
  constructor; try assumption; [lia|]. intros l Hl. cbv zeta.
  assert (NC : nth_error (level_sizes lvl m n) l = Some (Z.of_nat (length (at_level lvl (Z.of_nat l) m)))) by (exact (nth_map_seq _ (fun i => Z.of_nat (length (at_level lvl (Z.of_nat i) m))) n l Hl)).
  destruct (NP _ _ NC) as ([pad bits] & Np & PL). apply pad_level_inv in PL; [|lia]. destruct PL as (B1 & B2 & B3 & B4).
  exists pad, (Z.to_nat bits). rewrite Z2Nat.id by lia. split; [|lia]. apply B; [exact (nth_map_seq _ (fun i => map (emitted pos) (at_level lvl (Z.of_nat i) m)) n l Hl)|exact NC|exact Np].
Qed.
