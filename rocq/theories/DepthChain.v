(** A family of files on which the printed depth stays 3 (for C73). *)
From Coq Require Import ZArith List Bool Arith Lia.
From Verif Require Import Base Depth SpecDepth DepthProofs.
Import ListNotations.
Open Scope Z_scope.

(** Gate [i + 1] adds gates 0 and [i]. *)
Definition chain_gate (i : nat) : pline := LBin OpAdd (Z.of_nat i + 1) 0 (Z.of_nat i).
Definition chain_file (m : nat) : list pline := LInput 0 0 :: map chain_gate (seq 0 m).

Lemma chain_length : forall m, length (chain_file m) = S m.
Proof. intro m. unfold chain_file. cbn [length]. rewrite map_length, seq_length. reflexivity. Qed.
Lemma chain_plain : forall m, Z.of_nat m < 499999 -> Forall plain_line (chain_file m).
Proof.
  intros m H. apply Forall_cons; [cbn; lia|]. apply Forall_forall. intros l Hl. apply in_map_iff in Hl. destruct Hl as (i & <- & Hi). apply in_seq in Hi.
  cbn. lia.
Qed.
Lemma chain_ordered_from : forall n s known, (forall z, In z known <-> 0 <= z <= Z.of_nat s) -> ordered known (map chain_gate (seq s n)).
Proof.
  induction n as [|n IH]; intros s known H; [exact I|]. cbn [seq map ordered chain_gate]. split; [apply H; lia|]. split; [apply H; lia|]. split; [rewrite H; lia|].
  apply IH. intro z. cbn [In]. rewrite H. lia.
Qed.
Lemma chain_ordered : forall m, ordered [] (chain_file m).
Proof. intro m. cbn [chain_file ordered]. split; [intros []|]. apply chain_ordered_from. intro z. cbn [In]. lia. Qed.
Lemma chain_path : forall m n s, (s + n <= m)%nat -> path (wire (chain_file m)) (NV (Z.of_nat s)) n (NV (Z.of_nat (s + n))).
Proof.
  intros m n. induction n as [|n IH]; intros s H; [rewrite Nat.add_0_r; constructor|].
  apply path_cons with (NV (Z.of_nat (S s))).
  - exists (chain_gate s). split; [right; apply in_map; apply in_seq; lia|]. cbn. split; [f_equal; lia|right; reflexivity].
  - replace (s + S n)%nat with (S s + n)%nat by lia. apply IH. lia.
Qed.
Lemma chain_depth : forall m, has_depth (chain_file m) (Z.of_nat m + 2).
Proof.
  intro m. exists (NI 0), (S m), (NV (Z.of_nat m)). split; [exists 0, 0; split; [left; reflexivity|reflexivity]|]. split; [|lia].
  apply path_cons with (NV (Z.of_nat 0)); [exists (LInput 0 0); split; [left; reflexivity|cbn; tauto]|]. apply (chain_path m m 0). lia.
Qed.

(** ** The lists of successors, in their order *)
Definition lists (g : graph) (A : Z -> list Z) : Prop := 2 <= g_tot g /\ forall x, lst g (g_head g x) (A x).
Lemma lists_add : forall g A x y, lists g A -> 0 <= x < Maxn -> g_tot g < Maxn ->
  exists g', graph_add x y g = Ok g' /\ g_tot g' = g_tot g + 1 /\ lists g' (fun z => if z =? x then y :: A z else A z).
Proof.
  intros g A x y [T L] Hx He. unfold graph_add.
  assert (G : (0 <=? x) && (x <? Maxn) && (g_tot g <? Maxn) = true).
  { rewrite !andb_true_iff. split; [split; [apply Z.leb_le|apply Z.ltb_lt]|apply Z.ltb_lt]; lia. }
  rewrite G. eexists. split; [reflexivity|]. split; [reflexivity|]. split; [cbn [g_tot]; lia|].
  intro z. pose proof (L z) as H. cbn [g_head]. destruct (Z.eqb_spec z x) as [->|K].
  - rewrite upd_same. replace y with (upd (g_no g) (g_tot g) y (g_tot g)) at 2 by apply upd_same.
    apply (lst_cons (Graph (upd (g_head g) x (g_tot g)) (upd (g_next g) (g_tot g) (g_head g x)) (upd (g_no g) (g_tot g) y) (g_tot g + 1)) (g_tot g) (A x));
      cbn [g_tot g_next]; rewrite ?upd_same; [lia|apply (lst_bound _ _ _ H); lia|apply lst_add; exact H].
  - rewrite upd_other by exact K. apply lst_add. exact H.
Qed.
Lemma lists_succs : forall g A x, lists g A -> succs g x = Ok (A x).
Proof. intros g A x [T L]. unfold succs. apply (lst_chain _ _ _ (L x)). pose proof (lst_bound _ _ _ (L x) T). lia. Qed.
(** The list of gate 0 after [m] gates: [m], ..., 2, 1, 1. *)
Fixpoint falling (m : nat) : list Z :=
  match m with O => [] | S O => [1; 1] | S m' => Z.of_nat m :: falling m' end.
Definition after (m : nat) (x : Z) : list Z :=
  if x =? 500000 then [0] else if x =? 0 then falling m else if (1 <=? x) && (x <? Z.of_nat m) then [x + 1] else [].
Lemma chain_read : forall m, Z.of_nat m < 499999 -> exists s, read_lines (chain_file m) pst_init = Ok s /\ p_in s = [500000] /\ p_tot s = Z.of_nat (S m) /\ p_deg2 s = 0 /\
  g_tot (p_g s) = 3 + 2 * Z.of_nat m /\ lists (p_g s) (after m).
Proof.
  assert (EXT : forall g A B, lists g A -> (forall z, A z = B z) -> lists g B).
  { intros g A B [T L] E. split; [exact T|]. intro x. rewrite <- E. apply L. }
  induction m as [|m IH]; intro H.
  - assert (I0 : lists graph_init (fun _ => [])) by (split; [cbn; lia|intro; constructor]).
    destruct (lists_add graph_init (fun _ => []) 500000 0 I0) as (g & E & T & L); [unfold Maxn; lia|cbn; unfold Maxn; lia|].
    eexists (Pst g 0 [500000] 1 0). split; [unfold read_lines; cbn [chain_file seq map fold_left bind read_line]; change (0 + 500000) with 500000;
      change (p_g pst_init) with graph_init; rewrite E; reflexivity|].
    cbn [p_in p_tot p_deg2 p_g]. split; [reflexivity|]. split; [reflexivity|]. split; [reflexivity|]. split; [exact T|].
    apply (EXT _ _ _ L). intro z. unfold after. destruct (Z.eqb_spec z 500000); [reflexivity|]. destruct (z =? 0); [reflexivity|].
    destruct (Z.leb_spec 1 z), (Z.ltb_spec z (Z.of_nat 0)); try reflexivity. lia.
  - destruct (IH ltac:(lia)) as (s & E & I1 & T1 & D1 & G1 & L1).
    destruct (lists_add (p_g s) _ 0 (Z.of_nat m + 1) L1) as (g1 & E1 & T2 & L2); [unfold Maxn; lia|unfold Maxn; lia|].
    destruct (lists_add g1 _ (Z.of_nat m) (Z.of_nat m + 1) L2) as (g2 & E2 & T3 & L3); [unfold Maxn; lia|unfold Maxn; lia|].
    exists (Pst g2 (Z.of_nat m) (p_in s) (p_tot s + 1) (p_deg2 s + 0)). split.
    + unfold chain_file in *. rewrite seq_S, map_app. unfold read_lines in *. cbn [map]. rewrite app_comm_cons, fold_left_app, E.
      cbn [fold_left Nat.add]. rewrite bind_ok. cbn [read_line chain_gate deg2]. rewrite E1, bind_ok, E2. reflexivity.
    + cbn [p_in p_tot p_deg2 p_g]. split; [exact I1|]. split; [lia|]. split; [lia|]. split; [lia|].
      apply (EXT _ _ _ L3). intro z. unfold after. destruct (Z.eqb_spec z 500000) as [->|N5].
      * destruct (Z.eqb_spec 500000 (Z.of_nat m)); [lia|]. reflexivity.
      * destruct (Z.eqb_spec z 0) as [->|N0].
        -- destruct m as [|m]; [reflexivity|]. destruct (Z.eqb_spec 0 (Z.of_nat (S m))); [lia|]. change (falling (S (S m))) with (Z.of_nat (S (S m)) :: falling (S m)).
           f_equal. lia.
        -- destruct (Z.eqb_spec z (Z.of_nat m)) as [->|Nm].
           ++ destruct (Z.leb_spec 1 (Z.of_nat m)); [|lia]. destruct (Z.ltb_spec (Z.of_nat m) (Z.of_nat m)); [lia|]. destruct (Z.ltb_spec (Z.of_nat m) (Z.of_nat (S m))); [|lia]. reflexivity.
           ++ destruct (Z.leb_spec 1 z), (Z.ltb_spec z (Z.of_nat m)), (Z.ltb_spec z (Z.of_nat (S m))); try reflexivity; lia.
Qed.

(** ** The search *)
Section Dfs.
Variables (g : graph) (m : nat).
Hypothesis Hg : lists g (after m).
Hypothesis Hm : Z.of_nat m < 499999.
Lemma dfs_leaf : forall f j v mx, 1 <= j <= Z.of_nat m -> v j = 0 -> (j < Z.of_nat m -> v (j + 1) <> 0) -> mx <= 3 ->
  dfs (S (S f)) g j 3 (v, mx) = Ok (upd v j 3, 3).
Proof.
  intros f j v mx Hj V0 V1 Hmx. remember (S f) as f1 eqn:F1. cbn [dfs].
  assert (R : (0 <=? j) && (j <? Maxn) = true) by (apply andb_true_iff; split; [apply Z.leb_le|apply Z.ltb_lt]; unfold Maxn; lia).
  rewrite R, V0, Z.eqb_refl, (lists_succs _ _ _ Hg), bind_ok.
  assert (EM : (if mx <? 3 then 3 else mx) = 3) by (destruct (Z.ltb_spec mx 3); lia). rewrite EM.
  unfold after. destruct (Z.eqb_spec j 500000); [lia|]. destruct (Z.eqb_spec j 0); [lia|]. destruct (Z.leb_spec 1 j); [|lia].
  destruct (Z.ltb_spec j (Z.of_nat m)) as [L|L]; cbn [andb fold_left]; [|reflexivity].
  rewrite bind_ok. subst f1. cbn [dfs].
  assert (R2 : (0 <=? j + 1) && (j + 1 <? Maxn) = true) by (apply andb_true_iff; split; [apply Z.leb_le|apply Z.ltb_lt]; unfold Maxn; lia).
  rewrite R2, upd_other by lia. destruct (Z.eqb_spec (v (j + 1)) 0) as [E|E]; [destruct (V1 L E)|reflexivity].
Qed.
Lemma dfs_again : forall f j d v mx, 0 <= j < Maxn -> v j <> 0 -> dfs (S f) g j d (v, mx) = Ok (v, mx).
Proof.
  intros f j d v mx Hj V. cbn [dfs].
  assert (R : (0 <=? j) && (j <? Maxn) = true) by (apply andb_true_iff; split; [apply Z.leb_le|apply Z.ltb_lt]; lia).
  rewrite R. destruct (Z.eqb_spec (v j) 0) as [E|E]; [destruct (V E)|reflexivity].
Qed.
Lemma dfs_falling : forall f j v mx, (1 <= j <= m)%nat -> (forall z, 1 <= z <= Z.of_nat j -> v z = 0) -> (forall z, Z.of_nat j < z <= Z.of_nat m -> v z <> 0) -> mx <= 3 ->
  exists v', fold_left (fun a y => s <- a ;; dfs (S (S f)) g y 3 s) (falling j) (Ok (v, mx)) = Ok (v', 3).
Proof.
  intros f j. induction j as [|j IH]; intros v mx Hj Z0 Z1 Hmx; [lia|]. destruct j as [|j].
  - cbn [falling fold_left]. rewrite bind_ok, dfs_leaf; [|lia|apply Z0; lia|intro; apply Z1; lia|exact Hmx].
    rewrite bind_ok, dfs_again; [eexists; reflexivity|unfold Maxn; lia|]. rewrite upd_same. lia.
  - change (falling (S (S j))) with (Z.of_nat (S (S j)) :: falling (S j)). cbn [fold_left].
    rewrite bind_ok, dfs_leaf; [|lia|apply Z0; lia|intro; apply Z1; lia|exact Hmx].
    apply IH; [lia| | |lia].
    + intros z Hz. rewrite upd_other by lia. apply Z0. lia.
    + intros z Hz. unfold upd. destruct (Z.eqb_spec z (Z.of_nat (S (S j)))); [lia|]. apply Z1. lia.
Qed.
Lemma dfs_all : forall f, (1 <= m)%nat -> exists v, dfs (S (S (S (S f)))) g 500000 1 (fun _ => 0, 0) = Ok (v, 3).
Proof.
  intros f H1. remember (S (S (S f))) as f3 eqn:F3. cbn [dfs].
  change ((0 <=? 500000) && (500000 <? Maxn)) with true. cbn iota. rewrite Z.eqb_refl, (lists_succs _ _ _ Hg), bind_ok.
  change (after m 500000) with [0]. cbn [fold_left]. rewrite bind_ok. change (if 0 <? 1 then 1 else 0) with 1. change (1 + 1) with 2.
  subst f3. remember (S (S f)) as f2 eqn:F2. cbn [dfs]. change ((0 <=? 0) && (0 <? Maxn)) with true. cbn iota.
  rewrite upd_other by lia. rewrite Z.eqb_refl, (lists_succs _ _ _ Hg), bind_ok. change (after m 0) with (falling m).
  change (if 1 <? 2 then 2 else 1) with 2. change (2 + 1) with 3. subst f2.
  apply dfs_falling; [lia| | |lia].
  - intros z Hz. rewrite !upd_other by lia. reflexivity.
  - intros z Hz. lia.
Qed.
End Dfs.
Lemma chain_printed : forall m f, (1 <= m)%nat -> Z.of_nat m < 499999 -> (4 <= f)%nat ->
  depth_main f (chain_file m) = Ok (3, Z.of_nat (S m), 0).
Proof.
  intros m f H1 Hm Hf. destruct (chain_read m Hm) as (s & E & I & T & D & _ & L). unfold depth_main. rewrite E, bind_ok, I. cbn [fold_left].
  do 4 (destruct f as [|f]; [lia|]). destruct (dfs_all (p_g s) m L Hm f H1) as [v V]. rewrite bind_ok, V, bind_ok, T, D. reflexivity.
Qed.
