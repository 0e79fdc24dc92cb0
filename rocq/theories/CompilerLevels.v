(** * Levels and relays of the circuit compiler *)
From Coq Require Import ZArith List Bool Arith Lia Sorted.
From Verif Require Import Base Fp Loader SpecLoader LoaderProofs ZkEval Program SpecCompiler Compiler CompilerMaps CompilerRead.
Import ListNotations.
Open Scope Z_scope.

(** ** In-degrees *)
Definition occ (k : key) (l : list key) : Z := Z.of_nat (length (filter (key_eqb k) l)).
Lemma occ_app : forall k l1 l2, occ k (l1 ++ l2) = occ k l1 + occ k l2.
Proof. intros. unfold occ. rewrite filter_app, app_length. lia. Qed.
Lemma occ_in : forall k l, occ k l <> 0 <-> In k l.
Proof.
  intros k l. unfold occ. split.
  - intro H. destruct (filter (key_eqb k) l) as [|x r] eqn:E; [cbn in H; lia|].
    assert (K : In x (filter (key_eqb k) l)) by (rewrite E; left; reflexivity). apply filter_In in K. destruct K as [K1 K2].
    destruct (key_eqb_spec k x); [congruence|discriminate].
  - intros H. assert (K : In k (filter (key_eqb k) l)) by (apply filter_In; split; [exact H|apply key_eqb_refl]).
    destruct (filter (key_eqb k) l); [destruct K|]. cbn [length]. lia.
Qed.
Definition edges (m : dag) : list key := flat_map (fun e => dg_outs (snd e)) m.
Lemma incr_fold : forall l d k, fold_left (fun d y => fset d y (d y + 1)) l d k = d k + occ k l.
Proof.
  induction l as [|x l IH]; intros d k; [unfold occ; cbn; lia|]. cbn [fold_left]. rewrite IH. unfold occ. cbn [filter].
  destruct (key_eqb_spec k x) as [->|N]; [rewrite fset_same; cbn [length]; lia|rewrite fset_other by exact N; lia].
Qed.
Lemma in_degrees_occ : forall m k, in_degrees m k = occ k (edges m).
Proof.
  intros m k. unfold in_degrees.
  assert (G : forall m d, fold_left (fun d e => fold_left (fun d y => fset d y (d y + 1)) (dg_outs (snd e)) d) m d k = d k + occ k (edges m)).
  { clear m. induction m as [|e m IH]; intro d; [unfold edges, occ; cbn; lia|]. cbn [fold_left]. rewrite IH, incr_fold. unfold edges. cbn [flat_map].
    rewrite occ_app. lia. }
  rewrite G. lia.
Qed.
Lemma check_sources_inv : forall m x, check_sources m (in_degrees m) = Ok x -> forall e, In e m -> In (fst e) (edges m) \/ dg_ty (snd e) = 3.
Proof.
  intros m x E e He. unfold check_sources in E.
  apply (each_all _ _ _ (fun e => In (fst e) (edges m) \/ dg_ty (snd e) = 3) _ _ _ E); [|exact He].
  intros y s1 s2 _ A. apply assert_inv in A. apply orb_true_iff in A. destruct A as [A|A].
  - left. apply negb_true_iff in A. apply Z.eqb_neq in A. rewrite in_degrees_occ in A. apply occ_in, A.
  - right. apply Z.eqb_eq, A.
Qed.
(** Everything is assigned, and no sum is empty. *)
Lemma all_assigned : forall p m x, NoDup (targets p) -> read_inv p m -> check_sources m (in_degrees m) = Ok x ->
  (forall k, In k (keys m) -> exists t s, k = kV t /\ In s p /\ target s = [t]) /\
  (forall t a b, In (Sum t a b) p -> a <= b).
Proof.
  intros p m x ND [S K D U O R] E. pose proof (check_sources_inv m x E) as CS.
  assert (ED : forall k, In k (edges m) -> exists s t a, k = kV t /\ In s p /\ target s = [t] /\ reads s a).
  { intros k Hk. unfold edges in Hk. apply in_flat_map in Hk. destruct Hk as ([k' g] & He & Hk). cbn [snd] in Hk.
    apply (O k'). unfold dget. rewrite (mget_in _ dg_zero m k' g (sorted_nodup _ m S) He). exact Hk. }
  split.
  - intros k Hk. pose proof (in_mget _ dg_zero m k Hk) as He. destruct (CS _ He) as [H|H]; cbn [fst snd] in H.
    + destruct (ED k H) as (s & t & a & -> & Hs & Ht & _). exists t, s. split; [reflexivity|]. split; assumption.
    + destruct (K k Hk) as (t & ->). exists t. destruct (in_dec Z.eq_dec t (targets p)) as [Hin|N].
      * unfold targets in Hin. apply in_flat_map in Hin. destruct Hin as (s & Hs & Ht). exists s. split; [reflexivity|]. split; [exact Hs|].
        destruct (target_nil s) as [Q|(t' & Q)]; rewrite Q in Ht; [destruct Ht|]. destruct Ht as [<-|[]]. exact Q.
      * exfalso. specialize (U t N). unfold dget in U. rewrite U in H. discriminate.
  - intros t a b Hs. destruct (D (Sum t a b) t Hs eq_refl) as [Hk HD]. injection HD as _ HT _ _.
    pose proof (in_mget _ dg_zero m _ Hk) as He. destruct (CS _ He) as [H|H]; cbn [fst snd] in H.
    + destruct (ED _ H) as (s & t' & x' & Q & Hs' & Ht' & Hr). apply kV_inj in Q. subst t'.
      assert (s = Sum t a b) as ->.
      { clear - ND Hs Hs' Ht'. induction p as [|y p IH]; [destruct Hs|]. cbn [targets flat_map] in ND. fold (targets p) in ND.
        pose proof (in_targets p) as IT. destruct Hs as [->|Hs], Hs' as [->|Hs']; try reflexivity.
        - exfalso. apply NoDup_remove_2 with (l := []) in ND. apply ND. exact (IT s t Hs' Ht').
        - exfalso. rewrite Ht' in ND. apply NoDup_remove_2 with (l := []) in ND. apply ND. exact (IT (Sum t a b) t Hs eq_refl).
        - apply IH; try assumption. clear - ND. induction (target y) as [|z l IHl]; [exact ND|]. apply IHl. cbn [app] in ND. inversion ND. assumption. }
      cbn [reads] in Hr. lia.
    + unfold dget in HT. rewrite HT in H. discriminate.
Qed.

(** ** The queue *)
Record bfs_inv (m : dag) (s : lstate) : Prop := {
  bi_nonneg : forall x, 0 <= ls_lvl s x;
  bi_queue : forall k, In k (ls_q s) -> In k (keys m);
  bi_max : ls_max s = -1 \/ exists k, In k (keys m) /\ ls_max s <= ls_lvl s k }.
Lemma visit_out_inv : forall m cur x s, In x (keys m) -> bfs_inv m s -> bfs_inv m (visit_out cur x s).
Proof.
  intros m cur x s Hx [A B C]. unfold visit_out. constructor; cbn [ls_q ls_deg ls_lvl ls_max].
  - intro y. unfold fset. destruct (key_eqb y x); [|apply A]. pose proof (A x). lia.
  - intros k Hk. destruct (_ =? 0); [|apply B, Hk]. apply in_app_iff in Hk. destruct Hk as [Hk|[<-|[]]]; [apply B, Hk|exact Hx].
  - destruct C as [C|(k & Hk & C)]; [left; exact C|right]. exists k. split; [exact Hk|]. unfold fset. destruct (key_eqb_spec k x) as [->|]; [lia|exact C].
Qed.
Lemma visit_inv : forall m cur s, (forall k x, In x (dg_outs (dget m k)) -> In x (keys m)) -> In cur (keys m) -> bfs_inv m s -> bfs_inv m (visit m cur s).
Proof.
  intros m cur s HO Hc [A B C]. unfold visit. cbv zeta.
  assert (G : forall l s, (forall x, In x l -> In x (keys m)) -> bfs_inv m s -> bfs_inv m (fold_left (fun s x => visit_out cur x s) l s)).
  { induction l as [|x l IH]; intros s1 Hl H; [exact H|]. cbn [fold_left]. apply IH; [intros y Hy; apply Hl; right; exact Hy|].
    apply visit_out_inv; [apply Hl; left; reflexivity|exact H]. }
  apply G; [intros x Hx; exact (HO cur x Hx)|]. constructor; cbn [ls_q ls_deg ls_lvl ls_max]; [exact A|exact B|].
  right. destruct C as [C|(k & Hk & C)].
  - exists cur. split; [exact Hc|]. pose proof (A cur). lia.
  - destruct (Z.max_spec (ls_max s) (ls_lvl s cur)) as [[_ ->]|[_ ->]]; [exists cur; split; [exact Hc|lia]|exists k; split; assumption].
Qed.
Lemma bfs_ok_inv : forall fuel m s s', (forall k x, In x (dg_outs (dget m k)) -> In x (keys m)) -> bfs_inv m s -> bfs fuel m s = Ok s' -> bfs_inv m s'.
Proof.
  induction fuel as [|f IH]; intros m s s' HO H E; cbn [bfs] in E; destruct (ls_q s) as [|cur q] eqn:Q; try discriminate.
  - injection E as <-. exact H.
  - injection E as <-. exact H.
  - apply IH in E; [exact E|exact HO|]. destruct H as [A B C]. apply visit_inv; [exact HO|apply B; rewrite Q; left; reflexivity|].
    constructor; cbn [ls_q ls_deg ls_lvl ls_max]; [exact A|intros k Hk; apply B; rewrite Q; right; exact Hk|exact C].
Qed.
Lemma read_outs_keys : forall p m, read_inv p m -> forall k x, In x (dg_outs (dget m k)) -> In x (keys m).
Proof. intros p m [S K D U O R] k x Hx. destruct (O k x Hx) as (s & t & a & -> & Hs & Ht & _). apply (D s t Hs Ht). Qed.
Lemma levels_inv : forall p m s, read_inv p m -> levels m = Ok s -> bfs_inv m s.
Proof.
  intros p m s RI E. unfold levels in E. cbv zeta in E. apply bind_inv in E. destruct E as (? & _ & E). apply bfs_ok_inv in E; [exact E|exact (read_outs_keys p m RI)|].
  constructor; cbn [ls_q ls_deg ls_lvl ls_max]; [intro; lia|intros k Hk; exact Hk|left; reflexivity].
Qed.

(** ** Relays *)
(** The variable a key stands for, given that of the relays. *)
Definition src (f : Z -> Z) (k : key) : key := if fst k =? 82 then kV (f (snd k)) else k.
(** Which wires are moved to a relay. *)
Definition moved0 (lvl0 : key -> Z) (t : Z) (g0 : dgate) : Prop := dg_ty g0 <> 12 /\ lvl0 (dg_in0 g0) + 1 <> lvl0 (kV t).
Definition moved1 (g0 : dgate) : Prop := dg_ty g0 <> 12 /\ dg_ty g0 <> 13.
Record relay_inv (m0 : dag) (lvl0 : key -> Z) (f : Z -> Z) (s : rstate) : Prop := {
  rl_sorted : sorted (rs_m s);
  rl_cnt : 0 <= rs_cnt s;
  rl_keys : forall k, In k (keys (rs_m s)) <-> In k (keys m0) \/ exists c, k = kR c /\ 0 <= c < rs_cnt s;
  rl_lvl : forall t, rs_lvl s (kV t) = lvl0 (kV t);
  rl_relay : forall c, 0 <= c < rs_cnt s -> dg_ty (dget (rs_m s) (kR c)) = 10 /\
     In (dg_in0 (dget (rs_m s) (kR c))) (keys (rs_m s)) /\ src f (dg_in0 (dget (rs_m s) (kR c))) = kV (f c);
  rl_var : forall t, In (kV t) (keys m0) -> let g := dget (rs_m s) (kV t) in let g0 := dget m0 (kV t) in
     dg_ty g = dg_ty g0 /\
     src f (dg_in0 g) = dg_in0 g0 /\ (dg_in0 g = dg_in0 g0 \/ (In (dg_in0 g) (keys (rs_m s)) /\ moved0 lvl0 t g0)) /\
     src f (dg_in1 g) = dg_in1 g0 /\ (dg_in1 g = dg_in1 g0 \/ (In (dg_in1 g) (keys (rs_m s)) /\ moved1 g0)) }.
Lemma src_var : forall f t, src f (kV t) = kV t.
Proof. reflexivity. Qed.
(** Changing what a fresh relay stands for. *)
Definition zset (f : Z -> Z) (c x : Z) : Z -> Z := fun z => if z =? c then x else f z.
Section Relays.
Variables (m0 : dag) (lvl0 : key -> Z).
Hypothesis V0 : forall k, In k (keys m0) -> exists t, k = kV t.
Hypothesis I0 : forall k, fst (dg_in0 (dget m0 k)) <> 82.
Hypothesis I1 : forall k, fst (dg_in1 (dget m0 k)) <> 82.
Hypothesis ID : forall t, In (kV t) (keys m0) -> dg_id (dget m0 (kV t)) = kV t.

Lemma src_old : forall f s x k, relay_inv m0 lvl0 f s -> In k (keys (rs_m s)) -> src (zset f (rs_cnt s) x) k = src f k.
Proof.
  intros f s x k [A B C D E G] Hk. apply C in Hk. unfold src, zset. destruct Hk as [Hk|(c & -> & Hc)].
  - destruct (V0 k Hk) as (t & ->). reflexivity.
  - unfold kR. cbn [fst snd]. change (82 =? 82) with true. cbv iota. destruct (Z.eqb_spec c (rs_cnt s)); [lia|reflexivity].
Qed.
Lemma src_plain : forall f k, fst k <> 82 -> src f k = k.
Proof. intros f k H. unfold src. destruct (Z.eqb_spec (fst k) 82); [contradiction|reflexivity]. Qed.
Lemma relays_inv : forall n i pre s f x pre' s', relay_inv m0 lvl0 f s -> In pre (keys (rs_m s)) -> src f pre = kV x ->
  relays n i pre s = Ok (pre', s') ->
  exists f', relay_inv m0 lvl0 f' s' /\ In pre' (keys (rs_m s')) /\ src f' pre' = kV x.
Proof.
  induction n as [|n IH]; intros i pre s f x pre' s' H Hp Hx E; cbn [relays] in E.
  - injection E as <- <-. exists f. split; [exact H|]. split; assumption.
  - cbv zeta in E. apply bind_inv in E. destruct E as (c' & Ec & E). apply int_op_inv in Ec. destruct Ec as [-> _].
    pose proof (src_old f s x) as SO. destruct H as [A B C D R V]. set (c := rs_cnt s) in *.
    assert (H0 : relay_inv m0 lvl0 f s) by (constructor; assumption).
    assert (NV : forall t, kV t <> kR c) by (intros t Q; discriminate Q).
    revert E. set (g := DG (kR c) 10 pre (kN 0) []). intro E.
    assert (GR : dget (mset (rs_m s) (kR c) g) (kR c) = g) by (unfold dget; apply mget_same).
    assert (GO : forall k, k <> kR c -> dget (mset (rs_m s) (kR c) g) k = dget (rs_m s) k) by (intros k N; unfold dget; apply mget_other; exact N).
    eapply (IH _ _ _ (zset f c x)); [| | |exact E].
    + constructor; cbn [rs_m rs_lvl rs_cnt].
      * apply sorted_mset, A.
      * lia.
      * intro k. rewrite keys_mset, C. split.
        -- intros [->|[Hk|(c1 & -> & Hc)]]; [right; exists c; split; [reflexivity|lia]|left; exact Hk|right; exists c1; split; [reflexivity|lia]].
        -- intros [Hk|(c1 & -> & Hc)]; [tauto|]. destruct (Z.eq_dec c1 c) as [->|]; [left; reflexivity|]. right. right. exists c1. split; [reflexivity|lia].
      * intro t. rewrite fset_other by (apply NV). apply D.
      * intros c1 Hc. destruct (Z.eq_dec c1 c) as [->|Nc].
        -- rewrite GR. cbn [g dg_ty dg_in0]. split; [reflexivity|]. split; [apply keys_mset; right; exact Hp|].
           rewrite (SO pre H0 Hp). unfold zset. rewrite Z.eqb_refl. exact Hx.
        -- rewrite GO by (intro Q; injection Q; lia). destruct (R c1 ltac:(lia)) as (R1 & R2 & R3). split; [exact R1|]. split; [apply keys_mset; right; exact R2|].
           rewrite (SO _ H0 R2), R3. unfold zset. destruct (Z.eqb_spec c1 c); [contradiction|reflexivity].
      * intros t Ht. cbv zeta. rewrite GO by apply NV. destruct (V t Ht) as (V1 & V2 & V3 & V4 & V5). split; [exact V1|].
        assert (SS : forall k k0 (Q : Prop), src f k = k0 -> fst k0 <> 82 -> (k = k0 \/ (In k (keys (rs_m s)) /\ Q)) -> src (zset f c x) k = k0 /\ (k = k0 \/ (In k (keys (mset (rs_m s) (kR c) g)) /\ Q))).
        { intros k k0 Q K1 K2 [->|[K3 K4]].
          - split; [apply src_plain, K2|left; reflexivity].
          - split; [rewrite (SO k H0 K3); exact K1|right; split; [apply keys_mset; right; exact K3|exact K4]]. }
        destruct (SS _ _ _ V2 (I0 _) V3) as [S1 S2]. destruct (SS _ _ _ V4 (I1 _) V5) as [S3 S4]. split; [exact S1|]. split; [exact S2|]. split; [exact S3|exact S4].
    + cbn [rs_m]. apply keys_mset. left. reflexivity.
    + unfold src, kR, zset. cbn [fst snd]. change (82 =? 82) with true. cbv iota. rewrite Z.eqb_refl. reflexivity.
Qed.
Lemma add_relay_inv : forall t a (right : bool) s f s', relay_inv m0 lvl0 f s -> In (kV t) (keys m0) -> In (kV a) (keys m0) ->
  (if right then dg_in1 (dget m0 (kV t)) else dg_in0 (dget m0 (kV t))) = kV a ->
  dg_ty (dget m0 (kV t)) <> 12 -> (right = true -> dg_ty (dget m0 (kV t)) <> 13) ->
  add_relay m0 (kV t) (kV a) right s = Ok s' -> exists f', relay_inv m0 lvl0 f' s'.
Proof.
  intros t a right s f s' H Ht Ha Hin N12 N13 E. unfold add_relay in E. destruct (_ =? _) eqn:Q.
  - injection E as <-. exists f. exact H.
  - apply Z.eqb_neq in Q. rewrite !(rl_lvl _ _ _ _ H) in Q. apply bind_inv in E. destruct E as ([pre s1] & E1 & E). rewrite ID in E1 by exact Ha. rewrite ID in E by exact Ht.
    apply (relays_inv _ _ _ _ f a) in E1; [|exact H|apply (rl_keys _ _ _ _ H); left; exact Ha|reflexivity].
    destruct E1 as (f' & H1 & Hp & Hx). injection E as <-. exists f'. destruct H1 as [A B C D R V].
    set (m1 := if right then set_in1 (rs_m s1) (kV t) pre else set_in0 (rs_m s1) (kV t) pre).
    assert (KV : In (kV t) (keys (rs_m s1))) by (apply C; left; exact Ht).
    assert (KK : forall k, In k (keys m1) <-> In k (keys (rs_m s1))).
    { intro k. unfold m1. destruct right; unfold set_in0, set_in1; cbv zeta; rewrite keys_mset; (split; [intros [->|K]; [exact KV|exact K]|tauto]). }
    assert (GO : forall k, k <> kV t -> dget m1 k = dget (rs_m s1) k).
    { intros k N. unfold m1. destruct right; unfold set_in0, set_in1, dget at 1; cbv zeta; rewrite mget_other by exact N; reflexivity. }
    assert (GT : dget m1 (kV t) = let g := dget (rs_m s1) (kV t) in
       if right then DG (dg_id g) (dg_ty g) (dg_in0 g) pre (dg_outs g) else DG (dg_id g) (dg_ty g) pre (dg_in1 g) (dg_outs g)).
    { unfold m1. destruct right; unfold set_in0, set_in1, dget at 1; cbv zeta; rewrite mget_same; reflexivity. }
    constructor; cbn [rs_m rs_lvl rs_cnt]; fold m1.
    + unfold m1. destruct right; unfold set_in0, set_in1; cbv zeta; apply sorted_mset, A.
    + exact B.
    + intro k. rewrite KK. apply C.
    + exact D.
    + intros c Hc. rewrite GO by discriminate. destruct (R c Hc) as (R1 & R2 & R3). split; [exact R1|]. split; [apply KK, R2|exact R3].
    + intros t' Ht'. cbv zeta. destruct (V t' Ht') as (V1 & V2 & V3 & V4 & V5).
      assert (KP : forall k k0 (R : Prop), (k = k0 \/ (In k (keys (rs_m s1)) /\ R)) -> k = k0 \/ (In k (keys m1) /\ R)) by (intros k k0 R0 [K|[K K']]; [left; exact K|right; split; [apply KK, K|exact K']]).
      destruct (Z.eq_dec t' t) as [->|N].
      * rewrite GT. cbv zeta. destruct right; cbn [dg_ty dg_in0 dg_in1].
        -- split; [exact V1|]. split; [exact V2|]. split; [apply KP, V3|]. rewrite Hin. split; [exact Hx|right; split; [apply KK, Hp|split; [exact N12|apply N13; reflexivity]]].
        -- split; [exact V1|]. rewrite Hin. split; [exact Hx|]. split; [right; split; [apply KK, Hp|split; [exact N12|rewrite Hin; intro Q1; apply Q; lia]]|]. split; [exact V4|apply KP, V5].
      * rewrite GO by (intro Q1; apply N, kV_inj, Q1). split; [exact V1|]. split; [exact V2|]. split; [apply KP, V3|]. split; [exact V4|apply KP, V5].
Qed.
End Relays.

(** What the asserts of the relay phase have checked. *)
Definition relay_facts (lvl0 : key -> Z) (t : Z) (g : dgate) : Prop :=
  (dg_ty g = 3 -> lvl0 (kV t) = 0) /\
  (dg_ty g = 12 -> forall i, snd (dg_in0 g) <= i <= snd (dg_in1 g) -> lvl0 (kV i) + 1 = lvl0 (kV t)) /\
  (dg_ty g = 13 -> dg_in0 g = dg_in1 g).
Lemma reads_op : forall o t a b, reads (Op o t a b) a /\ reads (Op o t a b) b.
Proof. intros. cbn. tauto. Qed.
Lemma insert_relays_inv : forall p m lvl s, read_inv p m ->
  (forall k, In k (keys m) -> exists t s, k = kV t /\ In s p /\ target s = [t]) ->
  insert_relays m lvl = Ok s -> exists f, relay_inv m lvl f s /\ forall t, In (kV t) (keys m) -> relay_facts lvl t (dget m (kV t)).
Proof.
  intros p m lvl s RI AS E. pose proof RI as [S K D U O R].
  assert (SH : forall t, In (kV t) (keys m) -> exists st, In st p /\ target st = [t] /\ dg_id (dget m (kV t)) = kV t /\
     (dg_ty (dget m (kV t)), dg_in0 (dget m (kV t)), dg_in1 (dget m (kV t))) = stmt_gate st).
  { intros t Ht. destruct (AS _ Ht) as (t' & st & Q & Hs & Htg). apply kV_inj in Q. subst t'. destruct (D st t Hs Htg) as [_ D2]. injection D2 as D2 D3.
    exists st. rewrite D2, D3. tauto. }
  assert (NR : forall k, fst (dg_in0 (dget m k)) <> 82 /\ fst (dg_in1 (dget m k)) <> 82).
  { intro k. destruct (in_dec (fun a b => reflect_dec _ _ (key_eqb_spec a b)) k (keys m)) as [Hk|N].
    - destruct (K k Hk) as (t & ->). destruct (SH t Hk) as (st & _ & _ & _ & E1). destruct st; cbn [stmt_gate] in E1; injection E1 as E1 E2 E3; rewrite E2, E3; cbn; lia.
    - unfold dget. rewrite mget_missing by exact N. cbn. lia. }
  assert (ID : forall t, In (kV t) (keys m) -> dg_id (dget m (kV t)) = kV t) by (intros t Ht; destruct (SH t Ht) as (st & _ & _ & H & _); exact H).
  unfold insert_relays in E.
  apply (each_inv _ _ _ (fun l st => exists f, relay_inv m lvl f st /\ forall e, In e l -> relay_facts lvl (snd (fst e)) (snd e)) m) in E.
  - destruct E as (f & H1 & H2). exists f. split; [exact H1|]. intros t Ht. apply (H2 (kV t, dget m (kV t))). unfold dget. apply in_mget, Ht.
  - exists (fun _ => 0). split; [|intros e []]. constructor; cbn [rs_m rs_lvl rs_cnt].
    + exact S.
    + lia.
    + intro k. split; [tauto|]. intros [H|(c & _ & H)]; [exact H|lia].
    + reflexivity.
    + intros c Hc. lia.
    + intros t Ht. cbv zeta. destruct (NR (kV t)) as [N0 N1]. split; [reflexivity|]. split; [apply src_plain, N0|]. split; [left; reflexivity|]. split; [apply src_plain, N1|left; reflexivity].
  - intros l1 [k g] l2 s1 s2 El (f & H1 & H2) E1. assert (Hin : In (k, g) m) by (rewrite El; apply in_app_iff; right; left; reflexivity).
    assert (Hk : In k (keys m)) by (apply in_map_iff; exists (k, g); split; [reflexivity|exact Hin]).
    assert (Hg : dget m k = g) by (unfold dget; apply mget_in; [apply sorted_nodup, S|exact Hin]).
    destruct (K k Hk) as (t & ->). destruct (SH t Hk) as (st & Hst & Htg & _ & EG). rewrite Hg in EG.
    assert (AR : forall a right f1 u1 u2, relay_inv m lvl f1 u1 -> reads st a ->
       (if right : bool then dg_in1 g else dg_in0 g) = kV a -> dg_ty g <> 12 -> (right = true -> dg_ty g <> 13) -> add_relay m (kV t) (kV a) right u1 = Ok u2 -> exists f2, relay_inv m lvl f2 u2).
    { intros a right f1 u1 u2 Hi Hr Hq M12 M13 Ha. apply (add_relay_inv m lvl K (fun k => proj1 (NR k)) (fun k => proj2 (NR k)) ID t a right u1 f1 u2 Hi Hk (R st a Hst Hr)); rewrite ?Hg; assumption. }
    assert (GO : (exists f2, relay_inv m lvl f2 s2) -> relay_facts lvl t g -> exists f, relay_inv m lvl f s2 /\ forall e, In e (l1 ++ [(kV t, g)]) -> relay_facts lvl (snd (fst e)) (snd e)).
    { intros (f2 & Hf2) F. exists f2. split; [exact Hf2|]. intros e He. apply in_app_iff in He. destruct He as [He|[<-|[]]]; [apply H2, He|exact F]. }
    unfold relay_gate in E1. destruct st as [o t' a b|t' a b|t' i|o a|]; try discriminate Htg; injection Htg as ->; cbn [stmt_gate] in EG; injection EG as EG0 EG1 EG2.
    + destruct (reads_op o t a b) as [Ra Rb].
      assert (F : (o = OBit -> dg_in0 g = dg_in1 g) -> relay_facts lvl t g).
      { intro Q. unfold relay_facts. rewrite EG0. destruct o; cbn [op_ty]; (split; [discriminate|]); (split; [discriminate|]); try discriminate. intros _. apply Q. reflexivity. }
      rewrite EG0, EG1, EG2 in E1.
      destruct o; cbn [op_ty] in E1;
        try (apply bind_inv in E1; destruct E1 as (u1 & Eu & E1); apply (AR a false f) in Eu; [|exact H1|exact Ra|exact EG1|rewrite EG0; discriminate|discriminate]; destruct Eu as (f1 & Hf1);
             apply (AR b true f1) in E1; [|exact Hf1|exact Rb|exact EG2|rewrite EG0; discriminate|rewrite EG0; discriminate]; apply GO; [exact E1|apply F; discriminate]).
      * apply (AR a false f) in E1; [|exact H1|exact Ra|exact EG1|rewrite EG0; discriminate|discriminate]. apply GO; [exact E1|apply F; discriminate].
      * apply bind_inv in E1. destruct E1 as (u1 & Eu & E1). apply assert_inv in Eu. apply (AR a false f) in E1; [|exact H1|exact Ra|exact EG1|rewrite EG0; discriminate|discriminate].
        apply GO; [exact E1|]. apply F. intros _. rewrite EG1, EG2. destruct (key_eqb_spec (kV a) (kV b)); [assumption|discriminate].
    + rewrite EG0, EG1, EG2 in E1. cbn [snd kV] in E1.
      assert (Q : s2 = s1 /\ forall i, a <= i < b + 1 -> rs_lvl s1 (kV i) + 1 = rs_lvl s1 (kV t)).
      { pose proof (forz_inv _ _ _ _ (fun i s3 => s3 = s1 /\ forall j, a <= j < i -> rs_lvl s1 (kV j) + 1 = rs_lvl s1 (kV t)) _ _ E1) as KK. cbv beta in KK.
        destruct KK as [Q1 Q2]; [split; [reflexivity|intros; lia]| |split; [exact Q1|intros i Hi; apply Q2; lia]].
        intros i s3 s4 Hi [-> Hj] Hb. apply bind_inv in Hb. destruct Hb as (? & Hb & Hc). injection Hc as <-. split; [reflexivity|]. intros j Hj'.
        apply assert_inv in Hb. apply Z.eqb_eq in Hb. destruct (Z.eq_dec j i) as [->|]; [exact Hb|apply Hj; lia]. }
      destruct Q as [-> Q]. apply GO; [exists f; exact H1|]. unfold relay_facts. rewrite EG0, EG1, EG2. cbn [snd kV]. split; [discriminate|]. split; [|discriminate].
      intros _ i Hi. rewrite <- !(rl_lvl _ _ _ _ H1). apply Q. lia.
    + rewrite EG0 in E1. apply bind_inv in E1. destruct E1 as (? & Eu & E1). injection E1 as <-. apply assert_inv in Eu. apply Z.eqb_eq in Eu.
      apply GO; [exists f; exact H1|]. unfold relay_facts. rewrite EG0. split; [|split; discriminate]. intros _. rewrite <- (rl_lvl _ _ _ _ H1). exact Eu.
Qed.
