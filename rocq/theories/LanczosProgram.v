(** * The program of the Lanczos test *)
From Coq Require Import ZArith List Bool Arith Lia Ring.
From Verif Require Import Base Fp Program SpecLoader SpecCompiler SpecLanczos ShaGen ShaSem ShaMain ShaProgram MerkleShape CompilerOrder CompilerEnd LanczosGen LoaderProofs.
Import ListNotations.
Open Scope Z_scope.

(** ** Shape *)
(** [l] assigns the variables from [v] to [v'] in order, each from smaller ones. *)
Definition sound_op (s : stmt) : Prop := exists o t a b, s = Op o t a b /\ (o = OAdd \/ o = OMul) /\ 0 <= a < t /\ 0 <= b < t.
Definition good (v v' : Z) (l : list stmt) : Prop := v <= v' /\ targets l = zrange v (Z.to_nat (v' - v)) /\ forall s, In s l -> sound_op s.
Definition tot {A} (m : gen A) (v : Z) (Q : A -> Z -> Prop) : Prop := exists a l v', m v = Ok (a, ([], l), v') /\ good v v' l /\ Q a v'.
Lemma good_nil : forall v, good v v [].
Proof. intros v. split; [lia|]. rewrite Z.sub_diag. split; [reflexivity|intros s []]. Qed.
Lemma targets_app : forall a b, targets (a ++ b) = targets a ++ targets b.
Proof. intros a b. unfold targets. apply flat_map_app. Qed.
Lemma good_app : forall a b c l l', good a b l -> good b c l' -> good a c (l ++ l').
Proof.
  intros a b c l l' (H1 & H2 & H3) (G1 & G2 & G3). split; [lia|]. split.
  - rewrite targets_app, H2, G2. replace (Z.to_nat (c - a)) with (Z.to_nat (b - a) + Z.to_nat (c - b))%nat by lia. rewrite range_app. do 2 f_equal. lia.
  - intros s Hs. apply in_app_or in Hs. destruct Hs; auto.
Qed.
Lemma tot_ret : forall A (a : A) v (Q : A -> Z -> Prop), Q a v -> tot (gret a) v Q.
Proof. intros A a v Q H. exists a, [], v. split; [reflexivity|]. split; [apply good_nil|exact H]. Qed.
Lemma tot_lift : forall A (m : outcome A) a v (Q : A -> Z -> Prop), m = Ok a -> Q a v -> tot (glift m) v Q.
Proof. intros A m a v Q E H. exists a, [], v. split; [unfold glift; rewrite E; reflexivity|]. split; [apply good_nil|exact H]. Qed.
Lemma tot_bind : forall A B (m : gen A) (k : A -> gen B) v (R : A -> Z -> Prop) Q, tot m v R -> (forall a v', v <= v' -> R a v' -> tot (k a) v' Q) -> tot (gbind m k) v Q.
Proof.
  intros A B m k v R Q (a & l & v1 & E1 & G1 & H1) Hk. destruct (Hk a v1 (proj1 G1) H1) as (b & l' & v2 & E2 & G2 & H2).
  exists b, (l ++ l'), v2. split; [unfold gbind; rewrite E1; cbn [bind]; rewrite E2; reflexivity|]. split; [exact (good_app _ _ _ _ _ G1 G2)|exact H2].
Qed.
Lemma tot_mono : forall A (m : gen A) v (R Q : A -> Z -> Prop), tot m v R -> (forall a v', R a v' -> Q a v') -> tot m v Q.
Proof. intros A m v R Q (a & l & v' & E & G & H) HQ. exists a, l, v'. auto. Qed.
Lemma tot_emit : forall o a b v (Q : Z -> Z -> Prop), (o = OAdd \/ o = OMul) -> 0 <= a < v -> 0 <= b < v -> Q v (v + 1) -> tot (emit (fun t => Op o t a b)) v Q.
Proof.
  intros o a b v Q Ho Ha Hb H. exists v, [Op o v a b], (v + 1). split; [reflexivity|]. split; [|exact H]. split; [lia|]. split.
  - replace (Z.to_nat (v + 1 - v)) with 1%nat by lia. reflexivity.
  - intros s [<-|[]]. exists o, v, a, b. auto.
Qed.
Definition below (v : Z) (l : list Z) : Prop := forall x, In x l -> 0 <= x < v.
Lemma below_mono : forall v v' l, below v l -> v <= v' -> below v' l.
Proof. intros v v' l H L x Hx. specialize (H x Hx). lia. Qed.
Lemma tot_muls : forall row ci v, 0 <= v -> length row = length ci -> below v row -> below v ci -> tot (lanczos_muls ci row) v (fun os v' => v' = v + Z.of_nat (length row) /\ length os = length row /\ below v' os).
Proof.
  intros row ci v V0 L Hr Hc. unfold lanczos_muls. apply (tot_bind _ _ _ _ _ (fun _ v' => v' = v)); [apply (tot_lift _ _ tt); [rewrite (proj2 (Nat.eqb_eq _ _) L); reflexivity|reflexivity]|].
  intros _ v' _ ->. revert ci v V0 L Hr Hc. induction row as [|x row IH]; intros [|c ci] v V0 L Hr Hc; try discriminate L; cbn [combine gmap].
  - apply tot_ret. split; [cbn; lia|]. split; [reflexivity|intros x []].
  - apply (tot_bind _ _ _ _ _ (fun t v' => t = v /\ v' = v + 1)); [apply tot_emit; [auto|apply Hr; left; reflexivity|apply Hc; left; reflexivity|auto]|]. intros t v1 _ (-> & ->).
    eapply tot_bind; [apply (IH ci (v + 1)); [lia|cbn in L; lia| |]|].
    + intros y Hy. specialize (Hr y (or_intror Hy)). lia.
    + intros y Hy. specialize (Hc y (or_intror Hy)). lia.
    + intros os v2 _ (-> & LO & BO). apply tot_ret. split; [cbn [length]; lia|]. split; [cbn [length]; lia|]. intros y [<-|Hy]; [cbn [length]; lia|]. specialize (BO y Hy). lia.
Qed.
Lemma pair_ind : forall (A : Type) (P : list A -> Prop), P [] -> (forall x, P [x]) -> (forall x y l, P l -> P (x :: y :: l)) -> forall l, P l.
Proof. intros A P H0 H1 H2. fix IH 1. intros [|x [|y l]]; [exact H0|apply H1|apply H2, IH]. Qed.
Lemma tot_level : forall l v, 0 <= v -> below v l -> tot (add_level l) v (fun os v' => v' = v + Z.of_nat (length l / 2) /\ length os = ((length l + 1) / 2)%nat /\ below v' os).
Proof.
  intros l. induction l as [|x|x y l IH] using pair_ind; intros v V0 H.
  - cbn [add_level]. apply tot_ret. split; [cbn; lia|]. split; [reflexivity|exact H].
  - cbn [add_level]. apply tot_ret. split; [cbn; lia|]. split; [reflexivity|exact H].
  - cbn [add_level]. apply (tot_bind _ _ _ _ _ (fun t v' => t = v /\ v' = v + 1)); [apply tot_emit; [auto|apply H; left; reflexivity|apply H; right; left; reflexivity|auto]|]. intros t v1 _ (-> & ->).
    eapply tot_bind; [apply (IH (v + 1)); [lia|]|].
    + intros z Hz. specialize (H z (or_intror (or_intror Hz))). lia.
    + intros os v2 L2 (E2 & LO & BO). apply tot_ret.
      assert (D1 : (length (x :: y :: l) / 2 = S (length l / 2))%nat) by (cbn [length]; replace (S (S (length l))) with (length l + 1 * 2)%nat by lia; rewrite Nat.div_add by lia; lia).
      assert (D2 : ((length (x :: y :: l) + 1) / 2 = S ((length l + 1) / 2))%nat) by (cbn [length]; replace (S (S (length l)) + 1)%nat with (length l + 1 + 1 * 2)%nat by lia; rewrite Nat.div_add by lia; lia).
      rewrite D1, D2. split; [lia|]. split; [cbn [length]; lia|]. intros z [<-|Hz]; [lia|]. exact (BO z Hz).
Qed.
Lemma half : forall n, (n = 2 * (n / 2) \/ n = 2 * (n / 2) + 1)%nat /\ ((n + 1) / 2 = n - n / 2)%nat.
Proof.
  intros n. pose proof (Nat.div_mod n 2 ltac:(lia)) as E. pose proof (Nat.mod_upper_bound n 2 ltac:(lia)) as M. split; [lia|].
  symmetry. apply (Nat.div_unique _ 2 _ (1 - n mod 2)%nat); lia.
Qed.
Lemma tot_tree : forall f l v, 0 <= v -> (1 <= length l <= f)%nat -> below v l -> tot (add_tree f l) v (fun x v' => v' = v + Z.of_nat (length l) - 1 /\ 0 <= x < v').
Proof.
  induction f as [|f IH]; intros l v V0 L H; [lia|]. cbn [add_tree]. eapply tot_bind; [apply tot_level; assumption|]. intros os v1 _ (E1 & LO & BO). destruct (half (length l)) as (HF & HC). rewrite HC in LO.
  destruct os as [|x [|y os]].
  - cbn [length] in LO. lia.
  - apply tot_ret. cbn [length] in LO. split; [lia|]. apply BO. left. reflexivity.
  - eapply tot_mono; [apply IH; [lia|cbn [length] in *; lia|exact BO]|]. cbv beta. intros a v2 (-> & HA). split; [cbn [length] in *; lia|exact HA].
Qed.
Lemma tot_gmap_rows : forall (f : nat -> gen Z) (d : Z) l v v0, 0 <= v -> 0 <= d -> v0 <= v ->
  (forall i v, In i l -> v0 <= v -> tot (f i) v (fun x v' => v' = v + d /\ 0 <= x < v')) ->
  tot (gmap f l) v (fun os v' => v' = v + d * Z.of_nat (length l) /\ length os = length l /\ below v' os).
Proof.
  intros f d l. induction l as [|i l IH]; intros v v0 V0 D0 L0 H; cbn [gmap].
  - apply tot_ret. split; [cbn; lia|]. split; [reflexivity|intros x []].
  - eapply tot_bind; [apply H; [left; reflexivity|exact L0]|]. intros x v1 _ (-> & HX). eapply tot_bind; [apply (IH (v + d) v0); [lia|exact D0|lia|intros j w Hj Hw; apply H; [right; exact Hj|exact Hw]]|].
    intros os v2 _ (E2 & LO & BO). apply tot_ret. split; [cbn [length]; lia|]. split; [cbn [length]; lia|]. intros z [<-|Hz]; [nia|exact (BO z Hz)].
Qed.

Section Program.
Context (r : nat).
Notation R := (Z.of_nat r).
Notation nin := (16 * r ^ 2 + 2 * r)%nat.
Lemma nin_eq : Z.of_nat nin = 16 * R * R + 2 * R.
Proof. cbn [Nat.pow]. lia. Qed.
Lemma ci_length : length (coeffs_idx r) = (4 * r)%nat.
Proof. unfold coeffs_idx. rewrite app_length, rev_length, range_length. lia. Qed.
Lemma ci_below : below (Z.of_nat nin) (coeffs_idx r).
Proof. intros x Hx. unfold coeffs_idx in Hx. apply in_app_or in Hx. assert (H : In x (zrange (Z.of_nat (16 * r ^ 2)) (2 * r))) by (destruct Hx as [Hx|Hx]; [apply in_rev in Hx|]; exact Hx). apply in_range in H. lia. Qed.
Context (Hr : (0 < r)%nat).
Lemma tot_row : forall i v, (i < 4 * r)%nat -> Z.of_nat nin <= v -> tot (lanczos_row r i) v (fun x v' => v' = v + (8 * R - 1) /\ 0 <= x < v').
Proof.
  intros i v Hi Hv. unfold lanczos_row. eapply tot_bind; [apply tot_muls; [lia|rewrite range_length, ci_length; lia| |]|].
  - intros x Hx. apply in_range in Hx. rewrite nin_eq in Hv. nia.
  - exact (below_mono _ _ _ ci_below Hv).
  - intros os v1 _ (-> & LO & BO). rewrite range_length in LO. eapply tot_mono; [apply tot_tree; [rewrite range_length; lia|unfold print_add_tree; lia|exact BO]|]. cbv beta. intros x v2 (-> & HX). split; [rewrite range_length, LO; lia|exact HX].
Qed.
Definition pend : Z := Z.of_nat nin + 32 * R * R + 4 * R - 1.
Lemma tot_sums : tot (lanczos_sums r) (Z.of_nat nin) (fun x v' => v' = pend /\ 0 <= x < v').
Proof.
  unfold lanczos_sums. eapply tot_bind.
  - apply (tot_gmap_rows _ (8 * R - 1)) with (v0 := Z.of_nat nin); [lia|lia|lia|]. intros i v Hi Hv. apply in_seq in Hi. apply tot_row; [lia|exact Hv].
  - intros os v1 L1 (E1 & LO & BO). rewrite seq_length in *. apply (tot_bind _ _ _ _ _ (fun _ v' => v' = v1)); [apply (tot_lift _ _ tt); [rewrite (proj2 (Nat.eqb_eq _ _) LO); reflexivity|reflexivity]|].
    intros _ v' _ ->. eapply tot_bind; [apply tot_muls; [lia|rewrite ci_length; exact LO|exact BO|exact (below_mono _ _ _ ci_below L1)]|].
    intros ms v2 _ (E2 & LM & BM). eapply tot_mono; [apply tot_tree; [lia|lia|exact BM]|]. cbv beta. intros x v3 (-> & HX). split; [unfold pend; lia|exact HX].
Qed.
(** The program: inputs, operations, one output *)
Lemma program_shape : exists l t, lanczos_program r = Ok (map (fun i => SIn i i) (zrange 0 nin) ++ l ++ [SOut pend t]) /\ good (Z.of_nat nin) pend l /\ 0 <= t < pend /\
  lanczos_sums r (Z.of_nat nin) = Ok (t, ([], l), pend).
Proof.
  destruct tot_sums as (t & l & v' & E & G & -> & HT). exists l, t. split; [|split; [exact G|split; [exact HT|exact E]]]. unfold lanczos_program. rewrite E. reflexivity.
Qed.
End Program.

(** ** Programs of this shape *)
Section Shape.
Context (n : nat) (v' : Z) (l : list stmt) (o t : Z) (G : good (Z.of_nat n) v' l) (HT : 0 <= t < v').
Notation p := (map (fun i => SIn i i) (zrange 0 n) ++ l ++ [SOut o t]).
Lemma targets_ins : forall a k, targets (map (fun i => SIn i i) (zrange a k)) = zrange a k.
Proof. intros a k. revert a. induction k as [|k IH]; intros a; [reflexivity|]. cbn [zrange map]. unfold targets in *. cbn [flat_map target app]. f_equal. apply IH. Qed.
Lemma shape_targets : targets p = zrange 0 (Z.to_nat v').
Proof.
  destruct G as (G1 & G2 & _). rewrite !targets_app, targets_ins, G2. unfold targets at 1. cbn [flat_map target app]. rewrite app_nil_r. replace (Z.to_nat v') with (n + Z.to_nat (v' - Z.of_nat n))%nat by lia. rewrite range_app. reflexivity.
Qed.
Lemma inputs_app : forall a b, inputs (a ++ b) = inputs a ++ inputs b.
Proof. intros a b. unfold inputs. apply flat_map_app. Qed.
Lemma shape_inputs : inputs p = zrange 0 n.
Proof.
  destruct G as (_ & _ & G3). rewrite !inputs_app. assert (E : inputs l = []). { unfold inputs. apply flat_map_none. intros s Hs. destruct (G3 s Hs) as (o0 & t0 & a & b & -> & _). reflexivity. }
  rewrite E. unfold inputs at 2. cbn [flat_map input_var app]. rewrite app_nil_r. generalize 0. clear. induction n as [|k IH]; intros a; [reflexivity|]. cbn [zrange map]. unfold inputs in *. cbn [flat_map input_var app]. f_equal. apply IH.
Qed.
Lemma shape_in : forall s, In s p <-> (exists i, s = SIn i i /\ 0 <= i < Z.of_nat n) \/ In s l \/ s = SOut o t.
Proof.
  intros s. rewrite !in_app_iff, in_map_iff. cbn [In]. split.
  - intros [(i & <- & Hi)|[H|[<-|[]]]]; [left; exists i; apply in_range in Hi; split; [reflexivity|lia]|auto|auto].
  - intros [(i & -> & Hi)|[H| ->]]; [left; exists i; split; [reflexivity|apply in_range; lia]|auto|auto].
Qed.
Lemma range_prefix : forall k a l1 x l2, zrange a k = l1 ++ x :: l2 -> l1 = zrange a (Z.to_nat (x - a)) /\ a <= x.
Proof.
  induction k as [|k IH]; intros a l1 x l2 E; [destruct l1; discriminate E|]. destruct l1 as [|y l1].
  - cbn [zrange app] in E. injection E as -> _. rewrite Z.sub_diag. split; [reflexivity|lia].
  - cbn [zrange app] in E. injection E as <- E. destruct (IH _ _ _ _ E) as (E' & L). split; [|lia]. replace (Z.to_nat (x - a)) with (S (Z.to_nat (x - (a + 1)))) by lia. cbn [zrange]. f_equal. exact E'.
Qed.
Lemma shape_ordered : ordered p.
Proof.
  intros p1 s p2 E. assert (HS : In s p) by (rewrite E; apply in_or_app; right; left; reflexivity). destruct G as (G1 & G2 & G3). pose proof shape_targets as ST. rewrite E in ST. rewrite targets_app in ST.
  change (targets (s :: p2)) with (target s ++ targets p2) in ST. apply shape_in in HS. destruct HS as [(i & -> & Hi)|[HS| ->]].
  - split; [intros a []|discriminate].
  - destruct (G3 s HS) as (o0 & t0 & a & b & -> & _ & Ha & Hb). split; [|discriminate]. cbn [target app] in ST. symmetry in ST. apply range_prefix in ST. destruct ST as (-> & _).
    intros c Hc. cbn [uses] in Hc. split; [apply in_range; destruct Hc; subst c; lia|]. intros t1 Q. cbn [target] in Q. injection Q as <-. destruct Hc; subst c; lia.
  - split; [intros a []|]. intros o1 a Q. injection Q as <- <-.
    assert (P2 : targets p2 = []).
    { destruct p2 as [|s2 p2] using rev_ind; [reflexivity|]. exfalso. clear IHp2 ST.
      assert (E' : (map (fun i => SIn i i) (zrange 0 n) ++ l) ++ [SOut o t] = (p1 ++ SOut o t :: p2) ++ [s2]) by (rewrite <- !app_assoc; exact E). apply app_inj_tail in E'. destruct E' as (E' & _).
      assert (Q : In (SOut o t) (map (fun i => SIn i i) (zrange 0 n) ++ l)) by (rewrite E'; apply in_or_app; right; left; reflexivity). apply in_app_or in Q. destruct Q as [Q|Q].
      - apply in_map_iff in Q. destruct Q as (i & Q & _). discriminate Q.
      - destruct (G3 _ Q) as (? & ? & ? & ? & Q' & _). discriminate Q'. }
    rewrite P2 in ST. cbn [target app] in ST. rewrite app_nil_r in ST. rewrite ST. apply in_range. lia.
Qed.
Lemma shape_op : forall s o0 t0 a b, In s l -> s = Op o0 t0 a b -> (o0 = OAdd \/ o0 = OMul) /\ 0 <= a < t0 /\ 0 <= b < t0 /\ t0 < v'.
Proof.
  intros s o0 t0 a b HS ->. pose proof G as (G1 & G2 & G3). destruct (G3 _ HS) as (o1 & t1 & a1 & b1 & Q & Ho & Ha & Hb). injection Q as -> -> -> ->. split; [exact Ho|]. split; [exact Ha|]. split; [exact Hb|].
  assert (T : In t1 (targets l)) by (apply in_flat_map; exists (Op o1 t1 a1 b1); split; [exact HS|left; reflexivity]). rewrite G2 in T. apply in_range in T. lia.
Qed.
Lemma shape_ok : v' < 2 ^ 31 -> prog_ok p.
Proof.
  intros HB. split; [rewrite shape_targets; apply range_NoDup|]. intros s HS. apply shape_in in HS. destruct HS as [(i & -> & Hi)|[HS| ->]]; try exact I.
  pose proof G as (_ & _ & G3). destruct (G3 _ HS) as (o1 & t1 & a1 & b1 & -> & _). destruct (shape_op _ _ _ _ _ HS eq_refl) as (_ & A & B & C). unfold is_int. lia.
Qed.
Lemma shape_regular : forall lev, v' < 2 ^ 31 -> is_int o -> regular p lev.
Proof.
  intros lev HB HO s HS. pose proof G as (G1 & _ & G3). apply shape_in in HS. destruct HS as [(i & -> & Hi)|[HS| ->]].
  - unfold is_int. lia.
  - destruct (G3 _ HS) as (o1 & t1 & a1 & b1 & -> & _). destruct (shape_op _ _ _ _ _ HS eq_refl) as (Ho & A & B & C). split; [unfold is_int; lia|]. intros ->. destruct Ho; discriminate.
  - split; [exact HO|]. unfold is_int. lia.
Qed.
End Shape.

(** ** Values *)
Fixpoint fsum (l : list F) : F := match l with [] => 0 | x :: r => x + fsum r end%F.
Lemma fsum_prod : forall a b, length a = length b -> fsum (map (fun '(x, y) => op_val OMul x y) (combine a b)) = sumn (length b) (fun i => nth i b 0 * nth i a 0)%F.
Proof.
  induction a as [|x a IH]; intros [|y b] H; try discriminate H; [reflexivity|]. cbn [combine map fsum length]. change (S (length b)) with (1 + length b)%nat. rewrite sumn_app. cbn [sumn nth op_val Nat.add]. rewrite IH by (cbn in H; lia). ring.
Qed.
Section Values.
Context (val : Z -> F).
Lemma tri_muls : forall ci row, tri val (lanczos_muls ci row) (fun os => length row = length ci /\ map val os = map (fun '(x, y) => op_val OMul x y) (combine (map val row) (map val ci))).
Proof.
  intros ci row. unfold lanczos_muls. apply (tri_bind _ _ _ _ _ (fun _ => length row = length ci)); [apply tri_lift; intros [] E; apply assert_inv in E; apply Nat.eqb_eq; exact E|].
  intros _ L. eapply tri_mono; [apply (map2_vals val OMul row ci)|]. intros os H. split; [exact L|exact H].
Qed.
Lemma tri_level : forall l, tri val (add_level l) (fun os => fsum (map val os) = fsum (map val l)).
Proof.
  intros l. induction l as [|x|x y l IH] using pair_ind; cbn [add_level]; try (apply tri_ret; reflexivity).
  eapply tri_bind; [apply tri_emit; intros t H; exact H|]. cbv beta. intros t Ht. eapply tri_bind; [exact IH|]. cbv beta. intros os Hos. apply tri_ret. cbn [map fsum]. rewrite Hos, Ht. cbn [op_val]. ring.
Qed.
Lemma tri_tree : forall f l, tri val (add_tree f l) (fun x => val x = fsum (map val l)).
Proof.
  induction f as [|f IH]; intros l; cbn [add_tree]; [apply tri_lift; discriminate|]. eapply tri_bind; [apply tri_level|]. cbv beta. intros os E. destruct os as [|x [|y os]].
  - rewrite <- E. apply IH.
  - apply tri_ret. rewrite <- E. cbn [map fsum]. ring.
  - rewrite <- E. apply IH.
Qed.
Context (r : nat).
Notation w := (map val (coeffs_idx r)).
Lemma w_length : length w = (4 * r)%nat.
Proof. rewrite map_length. apply ci_length. Qed.
Lemma tri_wsum : forall row, tri val (ovals <~ lanczos_muls (coeffs_idx r) row ;; print_add_tree ovals) (fun x => length row = (4 * r)%nat /\ val x = sumn (4 * r) (fun i => nth i w 0 * nth i (map val row) 0)%F).
Proof.
  intros row. eapply tri_bind; [apply tri_muls|]. cbv beta. intros os (L & E). rewrite ci_length in L. eapply tri_mono; [apply tri_tree|]. cbv beta. intros x Hx. split; [exact L|]. rewrite Hx, E, fsum_prod by (rewrite !map_length, ci_length; exact L). rewrite w_length. reflexivity.
Qed.
Lemma nth_map_range : forall k a i, (i < k)%nat -> nth i (map val (zrange a k)) 0%F = val (a + Z.of_nat i).
Proof.
  induction k as [|k IH]; intros a i Hi; [lia|]. destruct i as [|i]; cbn [zrange map nth]; [f_equal; lia|]. rewrite IH by lia. f_equal. lia.
Qed.
Lemma tri_row : forall i, tri val (lanczos_row r i) (fun x => val x = sumn (4 * r) (fun j => nth j w 0 * val (Z.of_nat (4 * r * i + j)))%F).
Proof.
  intros i. unfold lanczos_row. eapply tri_mono; [apply tri_wsum|]. cbv beta. intros x (_ & ->). apply sumn_ext. intros j Hj. rewrite nth_map_range by exact Hj. do 2 f_equal. lia.
Qed.
Lemma tri_sums : tri val (lanczos_sums r) (fun x => val x = lanczos (map val (zrange (Z.of_nat (16 * r ^ 2)) (2 * r))) (fun y x => val (Z.of_nat (4 * r * y + x)))).
Proof.
  unfold lanczos_sums. eapply tri_bind; [apply tri_map; intros i _; apply tri_row|]. cbv beta. intros os Hos. apply (tri_bind _ _ _ _ _ (fun _ => True)); [apply tri_lift; auto|]. intros _ _.
  eapply tri_mono; [apply tri_wsum|]. cbv beta. intros x (L & ->). unfold lanczos. cbv zeta. rewrite <- map_rev, <- map_app. change (rev _ ++ _) with (coeffs_idx r). rewrite w_length. apply sumn_ext. intros i Hi. f_equal.
  assert (Q : forall l os, Forall2 (fun i x => val x = sumn (4 * r) (fun j => nth j w 0 * val (Z.of_nat (4 * r * i + j)))%F) l os -> forall k, (k < length l)%nat -> nth k (map val os) 0%F = sumn (4 * r) (fun j => nth j w 0 * val (Z.of_nat (4 * r * nth k l O + j)))%F).
  { clear. intros l os H. induction H as [|x y l os H1 H2 IH]; intros k Hk; [cbn in Hk; lia|]. destruct k as [|k]; cbn [map nth]; [exact H1|]. apply IH. cbn in Hk. lia. }
  rewrite (Q _ _ Hos) by (rewrite seq_length; exact Hi). rewrite seq_nth by exact Hi. reflexivity.
Qed.
End Values.

(** ** Levels *)
Section Levels.
Context (lev : Z -> nat).
Definition leveled (s : stmt) : Prop := match s with Op _ t a b => lev t = S (Nat.max (lev a) (lev b)) | _ => True end.
(** [Q a g m]: result, number of relays, largest level *)
Definition trl {A} (m : gen A) (Q : A -> nat -> nat -> Prop) : Prop := forall v a i l v', m v = Ok (a, (i, l), v') -> (forall s, In s l -> leveled s) -> Q a (list_sum (map (gaps lev) l)) (list_max (map lev (targets l))).
Lemma trl_ret : forall A (a : A) (Q : A -> nat -> nat -> Prop), Q a O O -> trl (gret a) Q.
Proof. intros A a Q H v x i l v' E _. unfold gret in E. apply Ok_inj in E. injection E as <- _ <- _. exact H. Qed.
Lemma trl_lift : forall A (m : outcome A) (Q : A -> nat -> nat -> Prop), (forall a, m = Ok a -> Q a O O) -> trl (glift m) Q.
Proof. intros A m Q H v x i l v' E _. unfold glift in E. apply bind_inv in E. destruct E as (a & Ea & E). apply Ok_inj in E. injection E as <- _ <- _. exact (H _ Ea). Qed.
Lemma trl_bind : forall A B (m : gen A) (k : A -> gen B) (R : A -> nat -> nat -> Prop) (Q : B -> nat -> nat -> Prop), trl m R -> (forall a g x, R a g x -> trl (k a) (fun b g' x' => Q b (g + g')%nat (Nat.max x x'))) -> trl (gbind m k) Q.
Proof.
  intros A B m k R Q Hm Hk v x i l v' E Hl. unfold gbind in E. apply bind_inv in E. destruct E as (((a & i1 & l1) & v1) & Ea & E).
  apply bind_inv in E. destruct E as (((b & i2 & l2) & v2) & Eb & E). apply Ok_inj in E. injection E as <- _ <- _.
  rewrite map_app, list_sum_app, targets_app, map_app, list_max_app. refine (Hk a _ _ _ _ _ _ _ _ Eb _).
  - refine (Hm _ _ _ _ _ Ea _). intros s Hs. apply Hl, in_app_iff. left. exact Hs.
  - intros s Hs. apply Hl, in_app_iff. right. exact Hs.
Qed.
Lemma trl_mono : forall A (m : gen A) (R Q : A -> nat -> nat -> Prop), trl m R -> (forall a g x, R a g x -> Q a g x) -> trl m Q.
Proof. intros A m R Q H HQ v a i l v' E Hl. apply HQ. exact (H _ _ _ _ _ E Hl). Qed.
Lemma trl_emit : forall o a b (Q : Z -> nat -> nat -> Prop), (o = OAdd \/ o = OMul) -> (forall t, lev t = S (Nat.max (lev a) (lev b)) -> Q t ((lev t - lev a - 1) + (lev t - lev b - 1))%nat (lev t)) -> trl (emit (fun t => Op o t a b)) Q.
Proof.
  intros o a b Q Ho H v x i l v' E Hl. unfold emit in E. apply Ok_inj in E. injection E as <- _ <- _. specialize (H v (Hl _ (or_introl eq_refl))).
  unfold targets, list_max, list_sum. cbn [map fold_right flat_map target app]. rewrite Nat.max_0_r, Nat.add_0_r. destruct Ho as [-> | ->]; exact H.
Qed.
Lemma trl_muls : forall ci row La Lb, (Lb <= La)%nat -> (forall x, In x row -> lev x = La) -> (forall x, In x ci -> lev x = Lb) ->
  trl (lanczos_muls ci row) (fun os g m => length os = length row /\ length row = length ci /\ (forall x, In x os -> lev x = S La) /\ g = (length row * (La - Lb))%nat /\ (m <= S La)%nat).
Proof.
  intros ci row La Lb LL HA HB. unfold lanczos_muls. apply (trl_bind _ _ _ _ (fun _ g m => length row = length ci /\ g = O /\ m = O)); [apply trl_lift; intros [] E; apply assert_inv in E; apply Nat.eqb_eq in E; auto|].
  intros _ g m (L & -> & ->). cbn [Nat.add Nat.max]. revert ci L HB. induction row as [|x row IH]; intros [|c ci] L HB; try discriminate L; cbn [combine gmap].
  - apply trl_ret. split; [reflexivity|]. split; [reflexivity|]. split; [intros x []|]. split; [reflexivity|lia].
  - eapply (trl_bind _ _ _ _ (fun t g m => lev t = S La /\ g = (La - Lb)%nat /\ m = S La)); [apply trl_emit; [auto|]|].
    + intros t Ht. pose proof (HA x (or_introl eq_refl)). pose proof (HB c (or_introl eq_refl)). lia.
    + intros t g m (H1 & -> & ->). eapply trl_bind; [apply (IH (fun y Hy => HA y (or_intror Hy)) ci); [cbn in L; lia|intros y Hy; apply HB; right; exact Hy]|]. cbv beta. intros os g m (L1 & L2 & H2 & -> & H3). apply trl_ret.
      split; [cbn [length]; lia|]. split; [exact L|]. split; [intros y [<-|Hy]; [exact H1|apply H2, Hy]|]. split; [cbn [length]; lia|lia].
Qed.
(** All on level [L], but the last may be lower, by [d]. *)
Definition nearly (L d : nat) (l : list Z) : Prop := exists l0 y, l = l0 ++ [y] /\ (forall x, In x l0 -> lev x = L) /\ (lev y + d = L)%nat.
Lemma nearly_tail : forall L d x y l, nearly L d (x :: y :: l) -> l <> [] -> lev x = L /\ lev y = L /\ nearly L d l.
Proof.
  intros L d x y l (l0 & z & E & H1 & H2) NE. destruct l0 as [|x0 [|y0 l0]]; [discriminate E|injection E as -> -> ->; congruence|]. cbn [app] in E. injection E as <- <- ->.
  split; [apply H1; left; reflexivity|]. split; [apply H1; right; left; reflexivity|]. exists l0, z. split; [reflexivity|]. split; [intros u Hu; apply H1; right; right; exact Hu|exact H2].
Qed.
Lemma trl_level : forall l L d, nearly L d l -> trl (add_level l) (fun os g m => length os = ((length l + 1) / 2)%nat /\ (m <= S L)%nat /\
  exists d', nearly (S L) d' os /\ if Nat.even (length l) then (g = d /\ d' = O)%nat else (g = O /\ d' = S d)%nat).
Proof.
  intros l. induction l as [|x|x y l IH] using pair_ind; intros L d H; cbn [add_level].
  - destruct H as (l0 & y & E & _). destruct l0; discriminate E.
  - apply trl_ret. split; [reflexivity|]. split; [lia|]. exists (S d). cbn [length Nat.even]. split; [|split; reflexivity]. destruct H as (l0 & y & E & H1 & H2). exists l0, y. destruct l0 as [|? [|]]; try discriminate E. split; [exact E|]. split; [intros u []|lia].
  - assert (D2 : ((length (x :: y :: l) + 1) / 2 = S ((length l + 1) / 2))%nat) by (cbn [length]; replace (S (S (length l)) + 1)%nat with (length l + 1 + 1 * 2)%nat by lia; rewrite Nat.div_add by lia; lia).
    destruct l as [|z l].
    + destruct H as (l0 & u & E & H1 & H2). destruct l0 as [|x0 [|y0 [|z0 l0]]]; try discriminate E. cbn [app] in E. injection E as <- <-. specialize (H1 x (or_introl eq_refl)).
      eapply (trl_bind _ _ _ _ (fun t g m => lev t = S L /\ g = d /\ m = S L)); [apply trl_emit; [auto|intros t Ht; lia]|]. intros t g m (A & -> & ->). cbn [add_level].
      eapply trl_bind; [apply trl_ret with (Q := fun a g m => a = [] /\ g = O /\ m = O); auto|]. intros os g m (-> & -> & ->). apply trl_ret. split; [reflexivity|]. split; [lia|]. exists O. cbn [length Nat.even]. split; [|split; lia].
      exists [], t. split; [reflexivity|]. split; [intros u []|lia].
    + destruct (nearly_tail _ _ _ _ _ H ltac:(discriminate)) as (Hx & Hy & HN).
      eapply (trl_bind _ _ _ _ (fun t g m => lev t = S L /\ g = O /\ m = S L)); [apply trl_emit; [auto|intros t Ht; lia]|]. intros t g m (A & -> & ->).
      eapply trl_bind; [apply (IH L d HN)|]. cbv beta. intros os g m (LO & HM & d' & ND & HG). apply trl_ret. split; [rewrite D2, <- LO; reflexivity|]. split; [lia|]. exists d'.
      change (Nat.even (length (x :: y :: z :: l))) with (Nat.even (length (z :: l))). rewrite Nat.add_0_r. cbn [Nat.add]. split; [|exact HG].
      destruct ND as (o0 & u & -> & U1 & U2). exists (t :: o0), u. split; [reflexivity|]. split; [intros q [<-|Hq]; [exact A|apply U1, Hq]|exact U2].
Qed.
Lemma log2_up_half : forall n, (2 <= n)%nat -> Nat.log2_up n = S (Nat.log2_up ((n + 1) / 2)).
Proof.
  intros n Hn. destruct (half n) as (H1 & H2). rewrite H2. set (m := (n - n / 2)%nat). assert (M : (1 <= m /\ 2 * m - 1 <= n <= 2 * m)%nat) by (unfold m; lia). clearbody m. clear H1 H2.
  destruct (Nat.eq_dec m 1) as [->|N1].
  - assert (n = 2)%nat as -> by lia. reflexivity.
  - pose proof (Nat.log2_up_spec m ltac:(lia)) as (S1 & S2). apply Nat.log2_up_unique; [lia|]. pose proof (Nat.log2_up_pos m ltac:(lia)) as LP. destruct (Nat.log2_up m) as [|k]; [lia|]. cbn [Nat.pred Nat.pow] in *. lia.
Qed.
Lemma nearly_length : forall L d l, nearly L d l -> (1 <= length l)%nat.
Proof. intros L d l (l0 & y & -> & _). rewrite app_length. cbn. lia. Qed.
Lemma trl_tree : forall f l L d, (2 <= length l)%nat -> nearly L d l -> trl (add_tree f l) (fun x g m => lev x = (L + Nat.log2_up (length l))%nat /\ (m <= L + Nat.log2_up (length l))%nat /\ (g <= d + Nat.log2_up (length l))%nat).
Proof.
  induction f as [|f IH]; intros l L d L2 H; cbn [add_tree]; [apply trl_lift; discriminate|]. rewrite (log2_up_half (length l) L2).
  eapply trl_bind; [apply (trl_level l L d H)|]. cbv beta. intros os g m (LO & HM & d' & HN & HG). rewrite <- LO. pose proof (half (length l)) as (HF & HC). rewrite HC in LO.
  destruct os as [|x [|y os]].
  - apply nearly_length in HN. cbn in HN. lia.
  - apply trl_ret. destruct HN as (l0 & u & E & _ & HU). destruct l0 as [|? [|]]; try discriminate E. injection E as <-. cbn [length] in *. change (Nat.log2_up 1) with O.
    assert (EL : length l = 2%nat) by lia. rewrite EL in HG. cbn [Nat.even] in HG. lia.
  - eapply trl_mono; [apply (IH (x :: y :: os) (S L) d'); [cbn; lia|exact HN]|]. cbv beta. intros a g' m' (A & B & C). destruct (Nat.even (length l)); lia.
Qed.
Lemma nearly_flat : forall L l, l <> [] -> (forall x, In x l -> lev x = L) -> nearly L 0 l.
Proof.
  intros L l NE H. destruct (exists_last NE) as (l0 & y & ->). exists l0, y. split; [reflexivity|]. split; [intros x Hx; apply H, in_or_app; left; exact Hx|]. rewrite H; [lia|]. apply in_or_app. right. left. reflexivity.
Qed.
Context (r : nat) (Hr : (0 < r)%nat).
Notation d := (Nat.log2_up (4 * r)).
Notation nin := (16 * r ^ 2 + 2 * r)%nat.
Context (H0 : forall x, 0 <= x < Z.of_nat nin -> lev x = O).
Lemma trl_wsum : forall row La, (forall x, In x row -> lev x = La) -> trl (ovals <~ lanczos_muls (coeffs_idx r) row ;; print_add_tree ovals) (fun x g m => lev x = (S La + d)%nat /\ (m <= S La + d)%nat /\ (g <= 4 * r * La + d)%nat).
Proof.
  intros row La HA. eapply trl_bind; [apply (trl_muls _ _ La 0); [lia|exact HA|]|].
  - intros x Hx. apply H0. exact (ci_below r x Hx).
  - cbv beta. intros os g m (L1 & L2 & H1 & -> & HM). rewrite ci_length in L2. eapply trl_mono; [apply (trl_tree _ os (S La) 0); [lia|apply nearly_flat; [intros ->; cbn in L1; lia|exact H1]]|].
    cbv beta. intros x g m' (A & B & C). rewrite L1, L2 in *. lia.
Qed.
Lemma trl_rows : forall l, (forall i, In i l -> (i < 4 * r)%nat) -> trl (gmap (lanczos_row r) l) (fun os g m => (forall x, In x os -> lev x = S d) /\ (m <= S d)%nat /\ (g <= length l * d)%nat).
Proof.
  induction l as [|i l IH]; intros HL; cbn [gmap].
  - apply trl_ret. split; [intros x []|]. split; lia.
  - eapply trl_bind.
    + unfold lanczos_row. apply (trl_wsum _ 0). intros x Hx. apply in_range in Hx. apply H0. specialize (HL i (or_introl eq_refl)). cbn [Nat.pow]. nia.
    + cbv beta. intros x g m (A & B & C). eapply trl_bind; [apply IH; intros j Hj; apply HL; right; exact Hj|]. cbv beta. intros os g' m' (A' & B' & C'). apply trl_ret. split; [intros y [<-|Hy]; [lia|apply A', Hy]|]. split; [lia|]. cbn [length]. lia.
Qed.
Lemma trl_sums : trl (lanczos_sums r) (fun x g m => lev x = (2 + 2 * d)%nat /\ (m <= 2 + 2 * d)%nat /\ (g <= (8 * r + 1) * d + 4 * r)%nat).
Proof.
  unfold lanczos_sums. eapply trl_bind; [apply trl_rows; intros i Hi; apply in_seq in Hi; lia|]. cbv beta. intros os g m (A & B & C). rewrite seq_length in C.
  eapply (trl_bind _ _ _ _ (fun _ g m => g = O /\ m = O)); [apply trl_lift; auto|]. intros _ g1 m1 (-> & ->). eapply trl_mono; [apply (trl_wsum _ (S d)); exact A|]. cbv beta. intros x g' m' (A' & B' & C'). lia.
Qed.
End Levels.
Lemma log2_up_r : forall r, (0 < r)%nat -> (Nat.log2_up (4 * r) <= r + 1)%nat.
Proof.
  intros r Hr. apply Nat.log2_up_le_pow2; [lia|]. induction r as [|r IH]; [lia|]. destruct r as [|r]; [cbn; lia|]. specialize (IH ltac:(lia)). change (S (S r) + 1)%nat with (S (S r + 1)). cbn [Nat.pow]. lia.
Qed.

(** ** The program meets the conditions of the compiler *)
Section Whole.
Context (r : nat) (Hr : (0 < r)%nat).
Notation nin := (16 * r ^ 2 + 2 * r)%nat.
Lemma program_levels : Z.of_nat nin <= 2 ^ 27 -> exists p lev t, lanczos_program r = Ok p /\ prog_ok p /\ ordered p /\ levels_of p lev /\ regular p lev /\ inputs p = zrange 0 nin /\
  In (SOut (pend r) t) p /\ (forall o a, In (SOut o a) p -> o = pend r /\ a = t) /\ In t (targets p) /\ (forall s, In s p -> match s with Sum _ _ _ | Op OBit _ _ _ => False | _ => True end) /\
  (gate_count p lev <= 5 * nin)%nat /\ lev t = (2 + 2 * Nat.log2_up (4 * r))%nat /\ (forall a, In a (targets p) -> (lev a <= lev t)%nat).
Proof.
  intros HB. destruct (program_shape r Hr) as (l & t & EP & G & HT & ES). set (p := _ ++ _) in EP. assert (PB : pend r < 2 ^ 31) by (unfold pend; cbn [Nat.pow] in HB |- *; lia).
  pose proof (shape_ok nin (pend r) l (pend r) t G HT PB) as PO. pose proof (shape_ordered nin (pend r) l (pend r) t G HT) as OR. change (prog_ok p) in PO. change (ordered p) in OR.
  destruct (levels_exist p (proj1 PO) OR) as (lev & LV). assert (P0 : 0 < pend r) by lia.
  assert (L0 : forall x, 0 <= x < Z.of_nat nin -> lev x = O). { intros x Hx. destruct (LV (SIn x x) x) as (_ & [Q|(a & [] & _)]); [apply shape_in; left; exists x; split; [reflexivity|exact Hx]|reflexivity|exact Q]. }
  assert (LL : forall s, In s l -> leveled lev s).
  { intros s Hs. pose proof G as (_ & _ & G3). destruct (G3 s Hs) as (o & t1 & a & b & -> & _). cbn [leveled]. destruct (LV (Op o t1 a b) t1) as (U & [Z|(c & Hc & E)]); [apply shape_in; right; left; exact Hs|reflexivity| |].
    - pose proof (U a (or_introl eq_refl)). lia.
    - pose proof (U a (or_introl eq_refl)). pose proof (U b (or_intror eq_refl)). cbn [uses] in Hc. destruct Hc; subst c; lia. }
  destruct (trl_sums lev r Hr L0 _ _ _ _ _ ES LL) as (A & B & C). pose proof (log2_up_r r Hr) as LD. pose proof (shape_targets nin (pend r) l (pend r) t G HT) as ST. change (targets p = zrange 0 (Z.to_nat (pend r))) in ST.
  exists p, lev, t. split; [exact EP|]. split; [exact PO|]. split; [exact OR|]. split; [exact LV|]. split; [apply (shape_regular nin (pend r) l (pend r) t G HT); [exact PB|unfold is_int; lia]|]. split; [exact (shape_inputs nin (pend r) l (pend r) t G)|].
  split; [apply shape_in; auto|]. split.
  { intros o a H. apply shape_in in H. destruct H as [(i & H & _)|[H|H]]; [discriminate H|pose proof G as (_ & _ & G3); destruct (G3 _ H) as (? & ? & ? & ? & Q & _); discriminate Q|injection H as -> ->; auto]. }
  split; [rewrite ST; apply in_range; lia|]. split.
  { intros s H. apply shape_in in H. destruct H as [(i & -> & _)|[H| ->]]; try exact I. pose proof G as (_ & _ & G3). destruct (G3 _ H) as (? & ? & ? & ? & -> & [-> | ->] & _); exact I. }
  split; [|split; [exact A|]].
  - unfold gate_count. rewrite ST, range_length. unfold p. rewrite !map_app, !list_sum_app. cbn [map gaps]. change (list_sum [0%nat]) with 0%nat. rewrite map_map. cbn [gaps].
    assert (E0 : list_sum (map (fun _ : Z => 0%nat) (zrange 0 nin)) = O) by (generalize 0; clear; induction nin as [|k IH]; intros a; [reflexivity|]; cbn [zrange map list_sum]; apply IH). rewrite E0.
    assert (EN : (Z.to_nat (pend r) <= nin + 32 * r ^ 2 + 4 * r)%nat) by (unfold pend; cbn [Nat.pow]; lia). cbn [Nat.pow] in *. clear E0 LD A B.
    pose proof (log2_up_r r Hr) as LD. set (d := Nat.log2_up (4 * r)) in *. clearbody d.
    assert (NI : (r <= r * r)%nat) by (destruct r; [lia|nia]). assert (NJ : ((8 * r + 1) * d <= (8 * r + 1) * (r + 1))%nat) by (apply Nat.mul_le_mono_l; exact LD). lia.
  - intros a Ha. rewrite A. rewrite ST in Ha. apply in_range in Ha. destruct (Z.ltb_spec a (Z.of_nat nin)) as [Q|Q]; [rewrite L0 by lia; lia|].
    pose proof G as (_ & GT & _). eapply Nat.le_trans; [|exact B]. apply list_max_in. apply in_map. rewrite GT. apply in_range. lia.
Qed.
Lemma program_value : forall p val o t, lanczos_program r = Ok p -> (forall s, In s p -> holds val s) -> In (SOut o t) p -> val t = lanczos (map val (zrange (Z.of_nat (16 * r ^ 2)) (2 * r))) (fun y x => val (Z.of_nat (4 * r * y + x))).
Proof.
  intros p val o t EP HV HO. destruct (program_shape r Hr) as (l & t' & EP' & G & _ & ES). rewrite EP' in EP. apply Ok_inj in EP. subst p.
  apply shape_in in HO. destruct HO as [(i & H & _)|[H|H]]; [discriminate H|pose proof G as (_ & _ & G3); destruct (G3 _ H) as (? & ? & ? & ? & Q & _); discriminate Q|]. injection H as -> ->.
  refine (tri_sums val r _ _ _ _ _ ES _). intros s Hs. apply HV, shape_in. auto.
Qed.
End Whole.
