(** * Proofs about the depth computation *)
From Coq Require Import ZArith List Bool Arith Lia.
From Verif Require Import Base Depth SpecDepth.
Import ListNotations.
Open Scope Z_scope.

Lemma bind_ok : forall A B (x : A) (k : A -> outcome B), bind (Ok x) k = k x.
Proof. reflexivity. Qed.
(** ** The linked lists *)
Inductive lst (g : graph) : Z -> list Z -> Prop :=
| lst_nil : lst g 0 []
| lst_cons : forall i l, 2 <= i < g_tot g -> g_next g i < i -> lst g (g_next g i) l -> lst g i (g_no g i :: l).
Definition linked (g : graph) (es : list (Z * Z)) : Prop :=
  g_tot g = 2 + Z.of_nat (length es) /\ forall x, exists l, lst g (g_head g x) l /\ forall y, In y l <-> In (x, y) es.
Lemma lst_bound : forall g i l, lst g i l -> 2 <= g_tot g -> 0 <= i < g_tot g.
Proof. intros g i l H T. destruct H; lia. Qed.
Lemma lst_chain : forall g i l, lst g i l -> forall f, i < Z.of_nat f -> chain f g i = Ok l.
Proof.
  intros g i l H. induction H as [|i l Hi Hn H IH]; intros f Hf; (destruct f as [|f]; [cbn in Hf; lia|]); cbn [chain]; [reflexivity|].
  destruct (Z.eqb_spec i 0); [lia|]. rewrite IH by lia. reflexivity.
Qed.
Lemma succs_ok : forall g es x, linked g es -> exists l, succs g x = Ok l /\ forall y, In y l <-> In (x, y) es.
Proof.
  intros g es x [T L]. destruct (L x) as (l & H & E). exists l. split; [|exact E]. apply (lst_chain _ _ _ H).
  pose proof (lst_bound _ _ _ H). lia.
Qed.
Lemma upd_same : forall f k v, upd f k v k = v.
Proof. intros. unfold upd. rewrite Z.eqb_refl. reflexivity. Qed.
Lemma upd_other : forall f k v i, i <> k -> upd f k v i = f i.
Proof. intros f k v i H. unfold upd. destruct (Z.eqb_spec i k); [contradiction|reflexivity]. Qed.
Lemma lst_add : forall g x y i l, lst g i l ->
  lst (Graph (upd (g_head g) x (g_tot g)) (upd (g_next g) (g_tot g) (g_head g x)) (upd (g_no g) (g_tot g) y) (g_tot g + 1)) i l.
Proof.
  intros g x y i l H. induction H as [|i l Hi Hn H IH]; [constructor|].
  set (g' := Graph _ _ _ _) in *. assert (E1 : g_no g i = g_no g' i) by (cbn [g_no g']; symmetry; apply upd_other; lia).
  assert (E2 : g_next g i = g_next g' i) by (cbn [g_next g']; symmetry; apply upd_other; lia).
  rewrite E1. constructor; [cbn [g_tot g']; lia|rewrite <- E2; exact Hn|rewrite <- E2; exact IH].
Qed.
Lemma graph_add_ok : forall g es x y, linked g es -> 0 <= x < Maxn -> Z.of_nat (length es) + 2 < Maxn ->
  exists g', graph_add x y g = Ok g' /\ linked g' (es ++ [(x, y)]).
Proof.
  intros g es x y [T L] Hx He. unfold graph_add.
  assert (G : (0 <=? x) && (x <? Maxn) && (g_tot g <? Maxn) = true).
  { rewrite !andb_true_iff. split; [split; [apply Z.leb_le|apply Z.ltb_lt]|apply Z.ltb_lt]; lia. }
  rewrite G. eexists. split; [reflexivity|]. split; [cbn [g_tot]; rewrite app_length; cbn [length]; lia|].
  intro z. destruct (L z) as (l & H & E). cbn [g_head]. destruct (Z.eqb_spec z x) as [->|K].
  - rewrite upd_same. exists (y :: l). split.
    + replace y with (upd (g_no g) (g_tot g) y (g_tot g)) at 2 by apply upd_same.
      apply (lst_cons (Graph (upd (g_head g) x (g_tot g)) (upd (g_next g) (g_tot g) (g_head g x)) (upd (g_no g) (g_tot g) y) (g_tot g + 1)) (g_tot g) l);
        cbn [g_tot g_next]; rewrite ?upd_same; [lia|apply (lst_bound _ _ _ H); lia|apply lst_add; exact H].
    + intro y'. rewrite in_app_iff. cbn [In]. rewrite E. split; [intros [->|A]; [right; left; reflexivity|left; exact A]|].
      intros [A|[A|[]]]; [right; exact A|left; injection A as ->; reflexivity].
  - rewrite upd_other by exact K. exists l. split; [apply lst_add; exact H|]. intro y'. rewrite in_app_iff. cbn [In]. rewrite E.
    split; [tauto|]. intros [A|[A|[]]]; [exact A|injection A; intros; subst; contradiction].
Qed.

(** ** The search *)
Section Search.
Variables (g : graph) (es : list (Z * Z)) (U : list Z).
Hypothesis Hg : linked g es.
Let E (x y : Z) : Prop := In (x, y) es.
Hypothesis HU : forall x y, E x y -> In y U.
Hypothesis Hr : forall x, In x U -> 0 <= x < Maxn.
Definition open_nodes (v : Z -> Z) : nat := length (filter (fun z => v z =? 0) U).
Record post (xs : list Z) (d : Z) (s s' : search) : Prop := {
  po_keep : forall z, fst s z <> 0 -> fst s' z = fst s z;
  po_path : forall z, fst s z = 0 -> fst s' z <> 0 -> exists x k, In x xs /\ path E x k z /\ fst s' z = d + Z.of_nat k;
  po_start : forall x, In x xs -> fst s' x <> 0;
  po_closed : forall z y, fst s z = 0 -> fst s' z <> 0 -> E z y -> fst s' y <> 0;
  po_up : snd s <= snd s';
  po_max : forall z, fst s z = 0 -> fst s' z <> 0 -> fst s' z <= snd s';
  po_from : snd s' = snd s \/ exists z, fst s z = 0 /\ fst s' z <> 0 /\ snd s' = fst s' z }.
Lemma filter_le : forall A (p q : A -> bool) l, (forall x, p x = true -> q x = true) -> (length (filter p l) <= length (filter q l))%nat.
Proof.
  intros A p q l H. induction l as [|x l IH]; [cbn; lia|]. cbn [filter]. specialize (H x). destruct (p x), (q x); cbn [length]; try lia.
Qed.
Lemma filter_lt : forall A (p q : A -> bool) l x, (forall x, p x = true -> q x = true) -> In x l -> p x = false -> q x = true ->
  (length (filter p l) < length (filter q l))%nat.
Proof.
  intros A p q l x H Hin Hp Hq. induction l as [|z l IH]; [destruct Hin|]. pose proof (filter_le A p q l H) as L. cbn [filter].
  destruct Hin as [->|Hin]; [rewrite Hp, Hq; cbn [length]; lia|]. specialize (IH Hin). specialize (H z). destruct (p z), (q z); cbn [length]; try lia.
Qed.
Lemma post_open : forall xs d s s', post xs d s s' -> (open_nodes (fst s') <= open_nodes (fst s))%nat.
Proof.
  intros xs d s s' [K _ _ _ _ _ _]. apply filter_le. intros z Hz. apply Z.eqb_eq in Hz. apply Z.eqb_eq.
  destruct (Z.eq_dec (fst s z) 0) as [|N]; [assumption|]. rewrite K in Hz by exact N. exact Hz.
Qed.
Lemma post_nil : forall d s, post [] d s s.
Proof. intros d s. split; try (intros; contradiction); try (intros; lia); try reflexivity. Qed.
Lemma post_app : forall x xs d s s1 s2, post [x] d s s1 -> post xs d s1 s2 -> post (x :: xs) d s s2.
Proof.
  intros x xs d s s1 s2 [A1 A2 A3 A4 A5 A6 A7] [B1 B2 B3 B4 B5 B6 B7]. split.
  - intros z Hz. rewrite B1; [apply A1; exact Hz|]. rewrite A1; exact Hz.
  - intros z Hz Hz2. destruct (Z.eq_dec (fst s1 z) 0) as [N|N].
    + destruct (B2 z N Hz2) as (y & k & Hy & HP & V). exists y, k. split; [right; exact Hy|]. split; assumption.
    + destruct (A2 z Hz N) as (y & k & Hy & HP & V). exists y, k. split; [destruct Hy as [->|[]]; left; reflexivity|]. split; [exact HP|].
      rewrite B1 by exact N. exact V.
  - intros y [<-|Hy]; [|apply B3; exact Hy]. pose proof (A3 x (or_introl eq_refl)) as N. rewrite B1; exact N.
  - intros z y Hz Hz2 HE. destruct (Z.eq_dec (fst s1 z) 0) as [N|N]; [apply (B4 z y N Hz2 HE)|].
    pose proof (A4 z y Hz N HE) as M. rewrite B1; exact M.
  - lia.
  - intros z Hz Hz2. destruct (Z.eq_dec (fst s1 z) 0) as [N|N]; [apply (B6 z N Hz2)|]. rewrite B1 by exact N. specialize (A6 z Hz N). lia.
  - destruct B7 as [EQ|(z & N & N2 & EQ)].
    + destruct A7 as [EQ'|(z & N & N2 & EQ')]; [left; congruence|]. right. exists z. split; [exact N|]. split; [rewrite B1; exact N2|]. rewrite B1 by exact N2. congruence.
    + right. exists z. split; [|split; assumption]. destruct (Z.eq_dec (fst s z) 0) as [|M]; [assumption|]. rewrite A1 in N by exact M. contradiction.
Qed.
Lemma dfs_fold : forall f d, (forall x s, In x U -> (open_nodes (fst s) < f)%nat -> exists s', dfs f g x d s = Ok s' /\ post [x] d s s') ->
  forall xs s, (forall x, In x xs -> In x U) -> (open_nodes (fst s) < f)%nat ->
  exists s', fold_left (fun a y => s <- a ;; dfs f g y d s) xs (Ok s) = Ok s' /\ post xs d s s'.
Proof.
  intros f d H xs. induction xs as [|x xs IH]; intros s HX HO; [exists s; split; [reflexivity|apply post_nil]|].
  destruct (H x s (HX x (or_introl eq_refl)) HO) as (s1 & E1 & P1). cbn [fold_left]. rewrite bind_ok, E1.
  pose proof (post_open _ _ _ _ P1). destruct (IH s1) as (s2 & E2 & P2); [intros y Hy; apply HX; right; exact Hy|lia|].
  exists s2. split; [exact E2|]. apply (post_app _ _ _ _ s1); assumption.
Qed.
Lemma dfs_ok : forall f x d s, In x U -> 1 <= d -> (open_nodes (fst s) < f)%nat -> exists s', dfs f g x d s = Ok s' /\ post [x] d s s'.
Proof.
  induction f as [|f IH]; intros x d [v mx] HX Hd HO; [lia|]. cbn [dfs]. pose proof (Hr x HX) as R.
  assert (G : (0 <=? x) && (x <? Maxn) = true) by (rewrite andb_true_iff; split; [apply Z.leb_le|apply Z.ltb_lt]; lia). rewrite G.
  cbn [fst] in HO. destruct (Z.eqb_spec (v x) 0) as [N|N].
  2:{ exists (v, mx). split; [reflexivity|]. split; cbn [fst snd]; try (intros; contradiction); try (intros; lia); try reflexivity.
      intros y [<-|[]]. exact N. }
  destruct (succs_ok g es x Hg) as (l & EL & IL). rewrite EL, bind_ok. cbv zeta.
  set (mx' := if mx <? d then d else mx).
  assert (M : mx <= mx' /\ d <= mx' /\ (mx' = mx \/ mx' = d)) by (unfold mx'; destruct (Z.ltb_spec mx d); lia).
  destruct (dfs_fold f (d + 1) ltac:(intros y s Hy HS; apply IH; [exact Hy|lia|exact HS]) l (upd v x d, mx')) as (s2 & E2 & [B1 B2 B3 B4 B5 B6 B7]).
  - intros y Hy. apply IL in Hy. apply (HU x y Hy).
  - cbn [fst]. assert (open_nodes (upd v x d) < open_nodes v)%nat; [|lia]. apply (filter_lt _ _ _ _ x).
    + intros z Hz. apply Z.eqb_eq in Hz. apply Z.eqb_eq. destruct (Z.eq_dec z x) as [->|K]; [exact N|]. rewrite upd_other in Hz by exact K. exact Hz.
    + exact HX.
    + rewrite upd_same. apply Z.eqb_neq. lia.
    + apply Z.eqb_eq. exact N.
  - exists s2. split; [exact E2|]. cbn [fst snd] in *.
    assert (VX : fst s2 x = d) by (rewrite B1; rewrite upd_same; lia).
    assert (OTH : forall z, z <> x -> v z = 0 -> upd v x d z = 0) by (intros z K Hz; rewrite upd_other by exact K; exact Hz).
    split; cbn [fst snd].
    + intros z Hz. assert (K : z <> x) by (intros ->; contradiction). rewrite B1 by (rewrite upd_other; assumption). apply upd_other. exact K.
    + intros z Hz Hz2. destruct (Z.eq_dec z x) as [->|K].
      * exists x, 0%nat. split; [left; reflexivity|]. split; [constructor|]. lia.
      * destruct (B2 z (OTH z K Hz) Hz2) as (y & k & Hy & HP & V). exists x, (S k). split; [left; reflexivity|].
        split; [apply path_cons with y; [apply IL; exact Hy|exact HP]|]. lia.
    + intros y [<-|[]]. lia.
    + intros z y Hz Hz2 HE. destruct (Z.eq_dec z x) as [->|K]; [apply B3; apply IL; exact HE|]. apply (B4 z y (OTH z K Hz) Hz2 HE).
    + lia.
    + intros z Hz Hz2. destruct (Z.eq_dec z x) as [->|K]; [lia|]. apply (B6 z (OTH z K Hz) Hz2).
    + destruct B7 as [EQ|(z & N2 & N3 & EQ)].
      * destruct M as (_ & _ & [M|M]); [left; lia|]. right. exists x. split; [exact N|]. lia.
      * right. exists z. destruct (Z.eq_dec z x) as [->|K]; [rewrite upd_same in N2; lia|]. rewrite upd_other in N2 by exact K. tauto.
Qed.
(** The whole search from the inputs *)
Lemma search_all : forall f xs, (length U < f)%nat -> (forall x, In x xs -> In x U) -> exists v mx,
  fold_left (fun a x => r <- a ;; dfs f g x 1 r) xs (Ok (fun _ => 0, 0)) = Ok (v, mx) /\
  (forall z, v z <> 0 <-> exists x k, In x xs /\ path E x k z) /\
  (forall z, v z <> 0 -> v z <= mx /\ exists x k, In x xs /\ path E x k z /\ v z = Z.of_nat k + 1) /\
  (xs = [] /\ mx = 0 \/ exists z, v z <> 0 /\ mx = v z).
Proof.
  intros f xs Hf HX. destruct (dfs_fold f 1 ltac:(intros x s Hx Hs; apply dfs_ok; [exact Hx|lia|exact Hs]) xs (fun _ => 0, 0) HX) as ([v mx] & E1 & [B1 B2 B3 B4 B5 B6 B7]).
  - cbn [fst]. unfold open_nodes. assert (Q : forall l : list Z, length (filter (fun _ => 0 =? 0) l) = length l).
    { change (0 =? 0) with true. induction l as [|y l IH]; [reflexivity|]. cbn [filter length]. f_equal. exact IH. }
    rewrite Q. exact Hf.
  - cbn [fst snd] in *. exists v, mx. split; [exact E1|]. split; [|split].
    + intro z. split.
      * intro Hz. destruct (B2 z eq_refl Hz) as (x & k & Hx & HP & _). exists x, k. split; assumption.
      * intros (x & k & Hx & HP). specialize (B3 x Hx). revert B3. clear Hx. induction HP as [a|a b k c HE HP IH]; intro V; [exact V|].
        apply IH. apply (B4 a b eq_refl V HE).
    + intros z Hz. split; [apply (B6 z eq_refl Hz)|]. destruct (B2 z eq_refl Hz) as (x & k & Hx & HP & V). exists x, k. split; [exact Hx|]. split; [exact HP|lia].
    + destruct B7 as [EQ|(z & _ & N & EQ)]; [|right; exists z; split; assumption].
      destruct xs as [|x xs]; [left; split; [reflexivity|exact EQ]|]. exfalso. pose proof (B3 x (or_introl eq_refl)) as N.
      pose proof (B6 x eq_refl N). destruct (B2 x eq_refl N) as (y & k & _ & _ & V). lia.
Qed.
End Search.

(** ** Reading plain lines *)
Definition num (a : node) : Z := match a with NI i => i + 500000 | NV v => v | NO o => o + 1000000 end.
Definition edges_of (l : pline) : list (Z * Z) :=
  match l with
  | LBin _ t a b => [(a, t); (b, t)]
  | LInput t i => [(i + 500000, t)]
  | LOutput o a => [(a, o + 1000000)]
  | _ => []
  end.
Definition inputs_of (l : pline) : list Z := match l with LInput _ i => [i + 500000] | _ => [] end.
Definition deg2_of (l : pline) : Z := match l with LBin op _ _ _ => deg2 op | _ => 0 end.
Definition total (f : pline -> Z) (L : list pline) : Z := fold_right (fun l a => f l + a) 0 L.
Lemma read_lines_ok : forall L s es, Forall plain_line L -> linked (p_g s) es -> Z.of_nat (length es) + 2 * Z.of_nat (length L) + 2 <= Maxn ->
  exists s', read_lines L s = Ok s' /\ linked (p_g s') (es ++ flat_map edges_of L) /\ p_in s' = p_in s ++ flat_map inputs_of L /\
    p_tot s' = p_tot s + Z.of_nat (length L) /\ p_deg2 s' = p_deg2 s + total deg2_of L.
Proof.
  unfold Maxn. induction L as [|l L IH]; intros s es HF HL HN.
  - exists s. cbn. rewrite !app_nil_r. split; [reflexivity|]. split; [exact HL|]. split; [reflexivity|]. lia.
  - inversion HF as [|? ? Hl HF']; subst. cbn [length] in HN.
    assert (STEP : exists s1, read_line l s = Ok s1 /\ linked (p_g s1) (es ++ edges_of l) /\ p_in s1 = p_in s ++ inputs_of l /\
              p_tot s1 = p_tot s + 1 /\ p_deg2 s1 = p_deg2 s + deg2_of l).
    { destruct l as [op t a b|t c a|t c|t i|o a|t a b|t a b]; cbn [plain_line] in Hl; try contradiction; cbn [read_line edges_of inputs_of deg2_of].
      - destruct (graph_add_ok (p_g s) es a t HL) as (g1 & E1 & L1); [unfold Maxn; lia|unfold Maxn; lia|]. rewrite E1, bind_ok.
        destruct (graph_add_ok g1 _ b t L1) as (g2 & E2 & L2); [unfold Maxn; lia|unfold Maxn; rewrite app_length; cbn [length]; lia|]. rewrite E2, bind_ok.
        eexists. split; [reflexivity|]. cbn [p_g p_in p_tot p_deg2]. rewrite <- app_assoc in L2. rewrite app_nil_r. repeat split; try reflexivity; apply L2.
      - eexists. split; [reflexivity|]. cbn [p_g p_in p_tot p_deg2]. rewrite !app_nil_r, Z.add_0_r. repeat split; try reflexivity; apply HL.
      - destruct (graph_add_ok (p_g s) es (i + 500000) t HL) as (g1 & E1 & L1); [unfold Maxn; lia|unfold Maxn; lia|]. rewrite E1, bind_ok.
        eexists. split; [reflexivity|]. cbn [p_g p_in p_tot p_deg2]. rewrite Z.add_0_r. repeat split; try reflexivity; apply L1.
      - destruct (graph_add_ok (p_g s) es a (o + 1000000) HL) as (g1 & E1 & L1); [unfold Maxn; lia|unfold Maxn; lia|]. rewrite E1, bind_ok.
        eexists. split; [reflexivity|]. cbn [p_g p_in p_tot p_deg2]. rewrite Z.add_0_r, app_nil_r. repeat split; try reflexivity; apply L1. }
    destruct STEP as (s1 & E1 & L1 & I1 & T1 & D1). unfold read_lines. cbn [fold_left]. rewrite bind_ok, E1.
    destruct (IH s1 (es ++ edges_of l) HF' L1) as (s2 & E2 & L2 & I2 & T2 & D2).
    + rewrite app_length. assert (length (edges_of l) <= 2)%nat by (destruct l; cbn; lia). lia.
    + exists s2. split; [exact E2|]. cbn [flat_map]. rewrite !app_assoc. split; [exact L2|]. split; [rewrite I2, I1; reflexivity|].
      cbn [length total fold_right]. change (fold_right (fun l0 a => deg2_of l0 + a) 0 L) with (total deg2_of L). lia.
Qed.
Lemma plain_edges : forall L, Forall plain_line L -> forall x y, In (x, y) (flat_map edges_of L) <-> exists a b, wire L a b /\ x = num a /\ y = num b.
Proof.
  intros L HF x y. rewrite Forall_forall in HF. rewrite in_flat_map. split.
  - intros (l & Hl & HE). specialize (HF l Hl). destruct l as [op t a b|t c a|t c|t i|o a|t a b|t a b]; cbn [plain_line edges_of In] in *; try contradiction.
    + destruct HE as [HE|[HE|[]]]; injection HE as <- <-; [exists (NV a), (NV t)|exists (NV b), (NV t)]; (split; [exists (LBin op t a b); split; [exact Hl|cbn; tauto]|split; reflexivity]).
    + destruct HE as [HE|[]]; injection HE as <- <-. exists (NI i), (NV t). split; [exists (LInput t i); split; [exact Hl|cbn; tauto]|split; reflexivity].
    + destruct HE as [HE|[]]; injection HE as <- <-. exists (NV a), (NO o). split; [exists (LOutput o a); split; [exact Hl|cbn; tauto]|split; reflexivity].
  - intros (a & b & (l & Hl & HW) & -> & ->). exists l. split; [exact Hl|]. specialize (HF l Hl).
    destruct l as [op t x y|t c x|t c|t i|o x|t x y|t x y]; cbn [plain_line wire_of edges_of In] in *; try contradiction.
    + destruct HW as [-> [-> | ->]]; cbn [num]; tauto.
    + destruct HW as [-> ->]; cbn [num]; tauto.
    + destruct HW as [-> ->]; cbn [num]; tauto.
Qed.
(** Nodes with numbers that do not collide *)
Definition small (a : node) : Prop := match a with NI i => 0 <= i < 500000 | NV v => 0 <= v < 500000 | NO o => 0 <= o < 2000000 end.
Lemma num_inj : forall a b, small a -> small b -> num a = num b -> a = b.
Proof. intros [i|i|i] [j|j|j]; cbn [small num]; intros; try lia; f_equal; lia. Qed.
Lemma wire_small : forall L a b, Forall plain_line L -> wire L a b -> small a /\ small b.
Proof.
  intros L a b HF (l & Hl & HW). rewrite Forall_forall in HF. specialize (HF l Hl).
  destruct l as [op t x y|t c x|t c|t i|o x|t x y|t x y]; cbn [plain_line wire_of] in *; try contradiction.
  - destruct HW as [-> [-> | ->]]; cbn [small]; lia.
  - destruct HW as [-> ->]; cbn [small]; lia.
  - destruct HW as [-> ->]; cbn [small]; lia.
Qed.
Lemma input_small : forall L a, Forall plain_line L -> is_input L a -> small a.
Proof. intros L a HF (t & i & Hl & ->). rewrite Forall_forall in HF. specialize (HF _ Hl). cbn [plain_line small] in *. lia. Qed.
Lemma inputs_num : forall L x, In x (flat_map inputs_of L) <-> exists a, is_input L a /\ x = num a.
Proof.
  intros L x. rewrite in_flat_map. split.
  - intros (l & Hl & HI). destruct l; cbn [inputs_of In] in HI; try contradiction. destruct HI as [<-|[]]. exists (NI i). split; [exists t, i; split; [exact Hl|reflexivity]|reflexivity].
  - intros (a & (t & i & Hl & ->) & ->). exists (LInput t i). split; [exact Hl|]. cbn. tauto.
Qed.
Lemma path_num : forall L, Forall plain_line L -> forall x k z, path (fun x y => In (x, y) (flat_map edges_of L)) x k z ->
  forall a, small a -> x = num a -> exists b, z = num b /\ small b /\ path (wire L) a k b.
Proof.
  intros L HF x k z HP. induction HP as [x|x y k z HE HP IH]; intros a Sa Ea.
  - exists a. split; [exact Ea|]. split; [exact Sa|constructor].
  - apply plain_edges in HE; [|exact HF]. destruct HE as (a' & b' & HW & -> & ->). destruct (wire_small _ _ _ HF HW) as [Sa' Sb'].
    apply num_inj in Ea; [subst a'|assumption|assumption]. destruct (IH b' Sb' eq_refl) as (b & Eb & Sb & HP'). exists b. split; [exact Eb|]. split; [exact Sb|].
    apply path_cons with b'; assumption.
Qed.
Lemma num_path : forall L, Forall plain_line L -> forall a k b, path (wire L) a k b -> path (fun x y => In (x, y) (flat_map edges_of L)) (num a) k (num b).
Proof.
  intros L HF a k b HP. induction HP as [a|a b k c HW HP IH]; [constructor|]. apply path_cons with (num b); [|exact IH].
  apply plain_edges; [exact HF|]. exists a, b. split; [exact HW|]. split; reflexivity.
Qed.
Lemma path_small : forall L a k b, Forall plain_line L -> path (wire L) a k b -> small a -> small b.
Proof. intros L a k b HF HP. induction HP as [a|a b k c HW HP IH]; intro H; [exact H|]. apply IH. apply (wire_small _ _ _ HF HW). Qed.
Definition targets (L : list pline) : list Z := map snd (flat_map edges_of L) ++ flat_map inputs_of L.
Lemma main_ok : forall L f, Forall plain_line L -> Z.of_nat (length L) < 1500000 -> (length (targets L) < f)%nat -> exists mx,
  depth_main f L = Ok (mx, Z.of_nat (length L), total deg2_of L) /\
  ((forall a, ~ is_input L a) /\ mx = 0 \/ has_depth L mx) /\
  (layered L -> forall n, has_depth L n -> n <= mx).
Proof.
  intros L f HF HN Hf. destruct (read_lines_ok L pst_init [] HF) as (s & ES & LS & IS & TS & DS).
  { split; [reflexivity|]. intro x. exists []. split; [constructor|]. intro y. cbn. tauto. }
  { unfold Maxn. cbn [length]. lia. }
  cbn [app] in LS. cbn [p_in pst_init app] in IS. cbn [p_tot p_deg2 pst_init] in TS, DS.
  assert (HU : forall x y, In (x, y) (flat_map edges_of L) -> In y (targets L)).
  { intros x y H. apply in_or_app. left. apply in_map_iff. exists (x, y). split; [reflexivity|exact H]. }
  assert (HR : forall x, In x (targets L) -> 0 <= x < Maxn).
  { intros x H. unfold Maxn. apply in_app_or in H. destruct H as [H|H].
    - apply in_map_iff in H. destruct H as ([a b] & E & H). cbn [snd] in E. subst b. apply plain_edges in H; [|exact HF]. destruct H as (u & w & HW & _ & ->).
      destruct (wire_small _ _ _ HF HW) as [_ S]. destruct w; cbn [small num] in *; lia.
    - apply inputs_num in H. destruct H as (a & HI & ->). pose proof (input_small _ _ HF HI) as S. destruct a; cbn [small num] in *; lia. }
  assert (HX : forall x, In x (flat_map inputs_of L) -> In x (targets L)) by (intros x H; apply in_or_app; right; exact H).
  destruct (search_all (p_g s) _ (targets L) LS HU HR f (flat_map inputs_of L) Hf HX) as (v & mx & EF & R & V & M).
  exists mx. split; [|split].
  - unfold depth_main. rewrite ES, bind_ok, IS, EF, bind_ok. do 2 f_equal; [f_equal; lia|lia].
  - destruct M as [[E0 ->]|(z & Nz & ->)].
    + left. split; [|reflexivity]. intros a Ha. assert (Q : In (num a) (flat_map inputs_of L)) by (apply inputs_num; exists a; split; [exact Ha|reflexivity]).
      rewrite E0 in Q. destruct Q.
    + right. destruct (V z Nz) as (_ & x & k & Hx & HP & ->). apply inputs_num in Hx. destruct Hx as (a & Ha & ->).
      destruct (path_num L HF _ _ _ HP a (input_small _ _ HF Ha) eq_refl) as (b & _ & _ & HP'). exists a, k, b. split; [exact Ha|]. split; [exact HP'|reflexivity].
  - intros HL n (a & k & b & Ha & HP & ->).
    assert (N : v (num b) <> 0). { apply R. exists (num a), k. split; [apply inputs_num; exists a; split; [exact Ha|reflexivity]|apply num_path; assumption]. }
    destruct (V _ N) as (Hle & x & k' & Hx & HP' & EV). apply inputs_num in Hx. destruct Hx as (a' & Ha' & ->).
    destruct (path_num L HF _ _ _ HP' a' (input_small _ _ HF Ha') eq_refl) as (b' & Eb & Sb' & HP2).
    assert (Sb : small b) by (apply (path_small L a k b HF HP); apply (input_small _ _ HF Ha)).
    apply num_inj in Eb; [subst b'|assumption|assumption]. rewrite (HL a a' k k' b Ha Ha' HP HP2). lia.
Qed.
