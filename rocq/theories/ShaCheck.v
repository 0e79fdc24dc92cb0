(** * A checker for the conditions on programs, and runs of ordered programs *)
From Coq Require Import ZArith List Bool Arith Lia.
From Verif Require Import Base Fp SpecLoader Program SpecCompiler.
Import ListNotations.
Open Scope Z_scope.

(** ** Runs *)
Lemma targets_app : forall p q, targets (p ++ q) = targets p ++ targets q.
Proof. intros p q. unfold targets. apply flat_map_app. Qed.
Lemma ordered_prefix : forall p q, ordered (p ++ q) -> ordered p.
Proof. intros p q H p1 s p2 E. apply (H p1 s (p2 ++ q)). rewrite E, <- app_assoc. reflexivity. Qed.
Lemma ordered_uses : forall p s a, ordered p -> In s p -> uses s a -> In a (targets p).
Proof.
  intros p s a H Hs Ha. apply in_split in Hs. destruct Hs as (p1 & p2 & ->). destruct (H p1 s p2 eq_refl) as (Q & _). rewrite targets_app. apply in_app_iff. left. apply Q, Ha.
Qed.
Lemma holds_ext : forall val val' s, (forall a, uses s a \/ In a (target s) -> val a = val' a) -> holds val s -> holds val' s.
Proof.
  intros val val' s H. destruct s as [o t a b|t a b| | |]; cbn [holds uses target In] in *; try (intros _; exact I).
  - rewrite (H t), (H a), (H b) by tauto. auto.
  - rewrite (H t) by tauto. intros ->. apply sumn_ext. intros i Hi. rewrite H; [reflexivity|]. left. lia.
Qed.
Lemma NoDup_app_l : forall (l m : list Z), NoDup (l ++ m) -> NoDup l.
Proof.
  induction l as [|x l IH]; intros m H; [constructor|]. inversion H as [|y k N H']; subst. constructor; [intros Q; apply N, in_app_iff; left; exact Q|exact (IH m H')].
Qed.
Lemma run_exists : forall g p, NoDup (targets p) -> ordered p -> exists val, (forall s, In s p -> holds val s) /\ forall t i, In (SIn t i) p -> val t = g t.
Proof.
  intros g p. induction p as [|s p IH] using rev_ind; intros ND OR.
  - exists g. split; intros; contradiction.
  - rewrite targets_app in ND. destruct IH as (val & Hv & Hi); [exact (NoDup_app_l _ _ ND)|exact (ordered_prefix _ _ OR)|].
    destruct (OR p s [] eq_refl) as (OS & _).
    assert (NEW : forall t x, target s = [t] -> (x = g t \/ forall i, s <> SIn t i) ->
      (forall val', (forall a, In a (targets p) -> val' a = val a) -> val' t = x -> holds val' s) -> exists val, (forall s', In s' (p ++ [s]) -> holds val s') /\ forall t i, In (SIn t i) (p ++ [s]) -> val t = g t).
    { intros t x Ht Hx Hs. set (val' := fun y => if y =? t then x else val y).
      assert (Ft : ~ In t (targets p)).
      { intros Q. cbn [targets flat_map] in ND. rewrite Ht in ND. cbn [app] in ND. apply NoDup_remove_2 in ND. apply ND. rewrite app_nil_r. exact Q. }
      assert (A : forall a, In a (targets p) -> val' a = val a). { intros a Ha. unfold val'. destruct (Z.eqb_spec a t) as [->|_]; [contradiction|reflexivity]. }
      assert (T : val' t = x) by (unfold val'; rewrite Z.eqb_refl; reflexivity).
      exists val'. split.
      - intros s' Hs'. apply in_app_iff in Hs'. destruct Hs' as [Hs'|[<-|[]]]; [|exact (Hs val' A T)]. apply (holds_ext val); [|exact (Hv s' Hs')]. intros a [Ha|Ha]; symmetry; apply A.
        + exact (ordered_uses p s' a (ordered_prefix _ _ OR) Hs' Ha).
        + apply in_flat_map. exists s'. split; [exact Hs'|exact Ha].
      - intros t' i Hin. apply in_app_iff in Hin. destruct Hin as [Hin|[Hin|[]]].
        + rewrite A by (apply in_flat_map; exists (SIn t' i); split; [exact Hin|left; reflexivity]). exact (Hi t' i Hin).
        + subst s. cbn [target] in Ht. injection Ht as ->. rewrite T. destruct Hx as [Hx|Hx]; [exact Hx|]. exfalso. exact (Hx i eq_refl). }
    destruct s as [o t a b|t a b|t i|o a|].
    + apply (NEW t (op_val o (val a) (val b)) eq_refl); [right; discriminate|]. intros val' A T. cbn [holds]. rewrite T, !A; [reflexivity| |]; apply OS; cbn; auto.
    + apply (NEW t (sumn (Z.to_nat (b + 1 - a)) (fun k => Fpow (1 + 1) k * val (a + Z.of_nat k)%Z)%F) eq_refl); [right; discriminate|]. intros val' A T. cbn [holds]. rewrite T.
      apply sumn_ext. intros k Hk. rewrite A; [reflexivity|]. apply OS. cbn [uses]. lia.
    + apply (NEW t (g t) eq_refl); [left; reflexivity|]. intros; exact I.
    + exists val. split; [intros s Hs; apply in_app_iff in Hs; destruct Hs as [Hs|[<-|[]]]; [exact (Hv s Hs)|exact I]|]. intros t i Hin. apply in_app_iff in Hin. destruct Hin as [Hin|[Hin|[]]]; [exact (Hi t i Hin)|discriminate Hin].
    + exists val. split; [intros s Hs; apply in_app_iff in Hs; destruct Hs as [Hs|[<-|[]]]; [exact (Hv s Hs)|exact I]|]. intros t i Hin. apply in_app_iff in Hin. destruct Hin as [Hin|[Hin|[]]]; [exact (Hi t i Hin)|discriminate Hin].
Qed.

(** ** Maps *)
Inductive trie := Leaf | Node (v : option nat) (l r : trie).
Fixpoint pget (k : positive) (m : trie) : option nat :=
  match m with
  | Leaf => None
  | Node v l r => match k with xH => v | xO k' => pget k' l | xI k' => pget k' r end
  end.
Fixpoint pset (k : positive) (x : nat) (m : trie) : trie :=
  let '(v, l, r) := match m with Leaf => (None, Leaf, Leaf) | Node v l r => (v, l, r) end in
  match k with xH => Node (Some x) l r | xO k' => Node v (pset k' x l) r | xI k' => Node v l (pset k' x r) end.
Lemma pget_set : forall k x k' m, pget k' (pset k x m) = if Pos.eqb k' k then Some x else pget k' m.
Proof.
  induction k as [k IH|k IH|]; intros x k' m; destruct m as [|v l r]; cbn [pset]; destruct k' as [k'|k'|]; cbn [pget Pos.eqb]; try reflexivity; try (rewrite IH; destruct (k' =? k)%positive; reflexivity).
  all: first [reflexivity|destruct k'; reflexivity|rewrite IH; destruct (k' =? k)%positive; [reflexivity|]; destruct k'; reflexivity].
Qed.
Definition tget (t : Z) (m : trie) : option nat := if t <? 0 then None else pget (Z.to_pos (t + 1)) m.
Definition tset (t : Z) (x : nat) (m : trie) : trie := pset (Z.to_pos (t + 1)) x m.
Lemma tget_set : forall t x t' m, 0 <= t -> tget t' (tset t x m) = if t' =? t then Some x else tget t' m.
Proof.
  intros t x t' m Ht. unfold tget, tset. destruct (Z.ltb_spec t' 0) as [N|N]; [destruct (Z.eqb_spec t' t); [lia|reflexivity]|].
  rewrite pget_set. destruct (Z.eqb_spec t' t) as [->|D]; [rewrite Pos.eqb_refl; reflexivity|]. destruct (Pos.eqb_spec (Z.to_pos (t' + 1)) (Z.to_pos (t + 1))) as [E|_]; [|reflexivity].
  apply Z2Pos.inj in E; lia.
Qed.

(** ** The checker *)
Definition int_b (x : Z) : bool := (0 <=? x) && (x <? 2 ^ 31).
Fixpoint same_level (n : nat) (a : Z) (l : nat) (m : trie) : bool :=
  match n with
  | O => true
  | S n' => match tget a m with Some l' => (l' =? l)%nat && same_level n' (a + 1) l m | None => false end
  end.
Definition bit_same (o : opname) (a b : Z) : bool := match o with OBit => a =? b | _ => true end.
Definition fresh (t : Z) (m : trie) : bool := match tget t m with None => true | Some _ => false end.
(** The map of levels after a statement, and the number of relays for it *)
Definition check1 (D : nat) (s : stmt) (m : trie) : option (trie * nat) :=
  match s with
  | Op o t a b =>
      match tget a m, tget b m with
      | Some la, Some lb =>
          let l := S (Nat.max la lb) in
          if int_b t && int_b a && int_b b && bit_same o a b && fresh t m && (a <? t) && (b <? t) && (l <=? D)%nat
          then Some (tset t l m, (l - la - 1 + match o with ONot => 0 | _ => l - lb - 1 end)%nat) else None
      | _, _ => None
      end
  | Sum t a b =>
      match tget a m with
      | Some la =>
          if int_b t && int_b a && int_b b && fresh t m && (a <=? b) && (b <? t) && (b - a + 1 <=? 63) && same_level (Z.to_nat (b + 1 - a)) a la m && (S la <=? D)%nat
          then Some (tset t (S la) m, 0%nat) else None
      | None => None
      end
  | SIn t i => if int_b t && int_b i && fresh t m then Some (tset t 0 m, 0%nat) else None
  | SOut o a => match tget a m with Some _ => if int_b o && int_b a then Some (m, 0%nat) else None | None => None end
  | SBad => None
  end.
Fixpoint check (D : nat) (p : list stmt) (m : trie) (c : Z) : option (trie * Z) :=
  match p with
  | [] => Some (m, c)
  | s :: r => match check1 D s m with Some (m', g) => check D r m' (c + Z.of_nat (length (target s) + g)) | None => None end
  end.
Definition lev_of (m : trie) (t : Z) : nat := match tget t m with Some l => l | None => 0%nat end.

Record checked (D : nat) (p : list stmt) (m : trie) (c : Z) : Prop := {
  ck_dom : forall t, In t (targets p) <-> tget t m <> None;
  ck_ok : prog_ok p; ck_ord : ordered p; ck_lev : levels_of p (lev_of m); ck_reg : regular p (lev_of m);
  ck_count : Z.of_nat (gate_count p (lev_of m)) = c; ck_depth : forall t, (lev_of m t <= D)%nat }.
Lemma same_level_ok : forall n a l m, same_level n a l m = true -> forall i, a <= i < a + Z.of_nat n -> tget i m = Some l.
Proof.
  induction n as [|n IH]; intros a l m H i Hi; [lia|]. cbn [same_level] in H. destruct (tget a m) as [l'|] eqn:E; [|discriminate H]. apply andb_true_iff in H. destruct H as (H1 & H2). apply Nat.eqb_eq in H1. subst l'.
  destruct (Z.eq_dec i a) as [->|N]; [exact E|]. apply (IH _ _ _ H2). lia.
Qed.
Lemma int_b_ok : forall x, int_b x = true -> is_int x /\ 0 <= x.
Proof. intros x H. unfold int_b in H. apply andb_true_iff in H. destruct H as (H1 & H2). apply Z.leb_le in H1. apply Z.ltb_lt in H2. unfold is_int. lia. Qed.
Lemma split_last : forall A (l : list A) x p1 s p2, l ++ [x] = p1 ++ s :: p2 -> (p1 = l /\ s = x /\ p2 = []) \/ exists p3, p2 = p3 ++ [x] /\ l = p1 ++ s :: p3.
Proof.
  intros A l x p1 s p2 E. destruct p2 as [|y p2] using rev_ind; [left|right].
  - apply app_inj_tail in E. destruct E as (-> & ->). auto.
  - clear IHp2. exists p2. rewrite app_comm_cons, app_assoc in E. apply app_inj_tail in E. destruct E as (-> & ->). auto.
Qed.
Lemma gate_count_last : forall p s lev, gate_count (p ++ [s]) lev = (gate_count p lev + length (target s) + gaps lev s)%nat.
Proof.
  intros p s lev. unfold gate_count. rewrite targets_app, app_length, map_app, list_sum_app. cbn [targets flat_map map list_sum]. rewrite app_nil_r. cbn [list_sum fold_right]. lia.
Qed.
Lemma gate_count_ext : forall p lev lev', (forall s, In s p -> gaps lev s = gaps lev' s) -> gate_count p lev = gate_count p lev'.
Proof. intros p lev lev' H. unfold gate_count. f_equal. f_equal. apply map_ext_in. exact H. Qed.
(** One more statement, on new levels [m'] that agree with [m] on the variables so far *)
Lemma checked_step : forall D p m c s m' g, checked D p m c ->
  (forall t, In t (targets p) -> lev_of m' t = lev_of m t) -> (forall t, tget t m' <> None <-> In t (targets p) \/ In t (target s)) ->
  (forall t, In t (target s) -> ~ In t (targets p)) ->
  (match s with Op _ _ a b => is_int a /\ is_int b | Sum _ a b => is_int a /\ is_int b /\ b - a + 1 <= 63 | _ => True end) ->
  (forall a, uses s a -> In a (targets p) /\ forall t, target s = [t] -> a < t) -> (forall o a, s = SOut o a -> In a (targets p)) ->
  (forall t, target s = [t] -> (forall a, uses s a -> (lev_of m' a < lev_of m' t)%nat) /\ (lev_of m' t = 0%nat \/ exists a, uses s a /\ lev_of m' t = S (lev_of m' a))) ->
  (match s with
   | Op o t a b => is_int t /\ (o = OBit -> a = b)
   | Sum t a b => is_int t /\ a <= b /\ forall i, a <= i <= b -> lev_of m' i = lev_of m' a
   | SIn t i => is_int t /\ is_int i
   | SOut o a => is_int o /\ is_int a
   | SBad => False
   end) -> gaps (lev_of m') s = g -> (forall t, (lev_of m' t <= D)%nat) ->
  checked D (p ++ [s]) m' (c + Z.of_nat (length (target s) + g)).
Proof.
  intros D p m c s m' g [DOM (ND & OK) ORD LEV REG CNT DEP] AG DOM' FR FIT US OUT LV RG GP DEP'.
  assert (UA : forall s' a, In s' p -> uses s' a -> lev_of m' a = lev_of m a) by (intros s' a Hs Ha; apply AG; exact (ordered_uses p s' a ORD Hs Ha)).
  assert (TA : forall s' t, In s' p -> target s' = [t] -> lev_of m' t = lev_of m t).
  { intros s' t Hs Ht. apply AG. apply in_flat_map. exists s'. split; [exact Hs|]. rewrite Ht. left. reflexivity. }
  constructor.
  - intros t. rewrite DOM', targets_app, in_app_iff. cbn [targets flat_map]. rewrite app_nil_r. reflexivity.
  - split.
    + rewrite targets_app. cbn [targets flat_map]. rewrite app_nil_r. destruct (target s) as [|t [|t' l]] eqn:Et; [rewrite app_nil_r; exact ND| |destruct s; discriminate Et].
      apply NoDup_Add with (a := t) (l := targets p); [rewrite <- (app_nil_r (targets p)) at 1; apply Add_app|]. split; [exact ND|]. apply FR. left. reflexivity.
    + intros s' Hs. apply in_app_iff in Hs. destruct Hs as [Hs|[<-|[]]]; [exact (OK s' Hs)|exact FIT].
  - intros p1 s' p2 E. apply split_last in E. destruct E as [(-> & -> & _)|(p3 & _ & E)]; [split; [exact US|exact OUT]|exact (ORD p1 s' p3 E)].
  - intros s' t Hs Ht. apply in_app_iff in Hs. destruct Hs as [Hs|[<-|[]]]; [|exact (LV t Ht)]. destruct (LEV s' t Hs Ht) as (L1 & L2). split.
    + intros a Ha. rewrite (UA s' a Hs Ha), (TA s' t Hs Ht). exact (L1 a Ha).
    + rewrite (TA s' t Hs Ht). destruct L2 as [L2|(a & Ha & L2)]; [left; exact L2|right]. exists a. rewrite (UA s' a Hs Ha). split; [exact Ha|exact L2].
  - intros s' Hs. apply in_app_iff in Hs. destruct Hs as [Hs|[<-|[]]]; [|exact RG]. specialize (REG s' Hs). destruct s' as [o t a b|t a b|t i|o a|]; try exact REG.
    destruct REG as (R1 & R2 & R3). split; [exact R1|]. split; [exact R2|]. intros i Hi. rewrite !(UA (Sum t a b) _ Hs) by (cbn [uses]; lia). exact (R3 i Hi).
  - rewrite gate_count_last, GP, (gate_count_ext p (lev_of m') (lev_of m)); [lia|]. intros s' Hs. destruct s' as [o t a b|t a b|t i|o a|]; try reflexivity. cbn [gaps].
    rewrite (TA (Op o t a b) t Hs eq_refl), (UA (Op o t a b) a Hs), (UA (Op o t a b) b Hs) by (cbn [uses]; auto). reflexivity.
  - exact DEP'.
Qed.
Ltac split_and H := repeat match type of H with _ && _ = true => let A := fresh "K" in apply andb_true_iff in H; destruct H as (H & A) end.
Lemma checked_set : forall D p m c t l, checked D p m c -> 0 <= t -> fresh t m = true -> (l <= D)%nat ->
  ~ In t (targets p) /\ (forall a, In a (targets p) -> lev_of (tset t l m) a = lev_of m a) /\ lev_of (tset t l m) t = l /\
  (forall a, tget a (tset t l m) <> None <-> In a (targets p) \/ In a [t]) /\ (forall a, (lev_of (tset t l m) a <= D)%nat).
Proof.
  intros D p m c t l [DOM _ _ _ _ _ DEP] Ht FR HD. assert (NI : ~ In t (targets p)) by (rewrite DOM; unfold fresh in FR; destruct (tget t m); [discriminate FR|tauto]).
  split; [exact NI|]. split; [|split; [|split]].
  - intros a Ha. unfold lev_of. rewrite tget_set by exact Ht. destruct (Z.eqb_spec a t) as [->|_]; [contradiction|reflexivity].
  - unfold lev_of. rewrite tget_set, Z.eqb_refl by exact Ht. reflexivity.
  - intros a. rewrite tget_set by exact Ht. rewrite DOM. cbn [In]. destruct (Z.eqb_spec a t) as [->|N]; [split; [auto|discriminate]|]. split; [auto|]. intros [Q|[Q|[]]]; [exact Q|congruence].
  - intros a. unfold lev_of. rewrite tget_set by exact Ht. destruct (a =? t); [exact HD|apply DEP].
Qed.
Lemma lev_get : forall a m l, tget a m = Some l -> lev_of m a = l.
Proof. intros a m l H. unfold lev_of. rewrite H. reflexivity. Qed.
Lemma check1_ok : forall D p m c s m' g, checked D p m c -> check1 D s m = Some (m', g) -> checked D (p ++ [s]) m' (c + Z.of_nat (length (target s) + g)).
Proof.
  intros D p m c s m' g CK H. pose proof (ck_dom _ _ _ _ CK) as DOM. destruct s as [o t a b|t a b|t i|o a|]; cbn [check1] in H; [| | | |discriminate H].
  - destruct (tget a m) as [la|] eqn:Ea; [|discriminate H]. destruct (tget b m) as [lb|] eqn:Eb; [|discriminate H]. cbv zeta in H.
    match type of H with (if ?e then _ else _) = _ => destruct e eqn:K; [|discriminate H] end. split_and K. injection H as <- <-.
    apply int_b_ok in K, K5, K6. apply Z.ltb_lt in K1, K2. apply Nat.leb_le in K0.
    destruct (checked_set D p m c t (S (Nat.max la lb)) CK ltac:(tauto) K3 K0) as (S1 & S2 & S3 & S4 & S5).
    assert (Ia : In a (targets p)) by (rewrite DOM, Ea; discriminate). assert (Ib : In b (targets p)) by (rewrite DOM, Eb; discriminate).
    pose proof (S2 a Ia) as La. rewrite (lev_get _ _ _ Ea) in La. pose proof (S2 b Ib) as Lb. rewrite (lev_get _ _ _ Eb) in Lb.
    apply (checked_step D p m c); try assumption; cbn [target uses gaps].
    + intros u [<-|[]]. exact S1.
    + tauto.
    + intros x [->| ->]; (split; [assumption|]); intros u Q; injection Q as <-; assumption.
    + discriminate.
    + intros u Q. injection Q as <-. split; [intros x [->| ->]; rewrite ?La, ?Lb, S3; lia|]. right. destruct (Nat.max_spec la lb) as [(Q & E)|(Q & E)]; rewrite S3; [exists b; rewrite Lb, E|exists a; rewrite La, E]; auto.
    + split; [tauto|]. intros ->. cbn [bit_same] in K4. apply Z.eqb_eq in K4. exact K4.
    + rewrite La, Lb, S3. reflexivity.
  - destruct (tget a m) as [la|] eqn:Ea; [|discriminate H]. match type of H with (if ?e then _ else _) = _ => destruct e eqn:K; [|discriminate H] end. split_and K. injection H as <- <-.
    apply int_b_ok in K, K6, K7. apply Z.ltb_lt in K3. apply Z.leb_le in K4, K2. apply Nat.leb_le in K0.
    destruct (checked_set D p m c t (S la) CK ltac:(tauto) K5 K0) as (S1 & S2 & S3 & S4 & S5).
    pose proof (same_level_ok _ _ _ _ K1) as SL. assert (IN : forall i, a <= i <= b -> In i (targets p)) by (intros i Hi; rewrite DOM, SL by lia; discriminate).
    assert (LV : forall i, a <= i <= b -> lev_of (tset t (S la) m) i = la) by (intros i Hi; rewrite S2 by (apply IN; exact Hi); apply lev_get, SL; lia).
    apply (checked_step D p m c); try assumption; cbn [target uses gaps].
    + intros u [<-|[]]. exact S1.
    + tauto.
    + intros x Hx. split; [apply IN; exact Hx|]. intros u Q. injection Q as <-. lia.
    + discriminate.
    + intros u Q. injection Q as <-. split; [intros x Hx; rewrite (LV x Hx), S3; lia|]. right. exists a. rewrite (LV a) by lia. split; [split; [apply Z.le_refl|exact K4]|exact S3].
    + split; [tauto|]. split; [exact K4|]. intros i Hi. rewrite !LV by lia. reflexivity.
    + reflexivity.
  - match type of H with (if ?e then _ else _) = _ => destruct e eqn:K; [|discriminate H] end. split_and K. injection H as <- <-. apply int_b_ok in K, K1.
    destruct (checked_set D p m c t 0 CK ltac:(tauto) K0 ltac:(lia)) as (S1 & S2 & S3 & S4 & S5).
    apply (checked_step D p m c); try assumption; cbn [target uses gaps].
    + intros u [<-|[]]. exact S1.
    + exact I.
    + intros x [].
    + discriminate.
    + intros u Q. injection Q as <-. split; [intros x []|left; exact S3].
    + tauto.
    + reflexivity.
  - destruct (tget a m) as [la|] eqn:Ea; [|discriminate H]. match type of H with (if ?e then _ else _) = _ => destruct e eqn:K; [|discriminate H] end. split_and K. injection H as <- <-. apply int_b_ok in K, K0.
    apply (checked_step D p m c); cbn [target uses gaps]; try assumption.
    + reflexivity.
    + intros u. cbn [In]. rewrite DOM. tauto.
    + intros u [].
    + exact I.
    + intros x [].
    + intros o' a' Q. injection Q as <- <-. rewrite DOM, Ea. discriminate.
    + discriminate.
    + tauto.
    + reflexivity.
    + apply (ck_depth _ _ _ _ CK).
Qed.
Lemma check_from : forall D p q m c m' c', checked D p m c -> check D q m c = Some (m', c') -> checked D (p ++ q) m' c'.
Proof.
  intros D p q. revert p. induction q as [|s q IH]; intros p m c m' c' CK H; cbn [check] in H.
  - injection H as <- <-. rewrite app_nil_r. exact CK.
  - destruct (check1 D s m) as [(m1 & g)|] eqn:E; [|discriminate H]. replace (p ++ s :: q) with ((p ++ [s]) ++ q) by (rewrite <- app_assoc; reflexivity).
    refine (IH _ _ _ _ _ _ H). exact (check1_ok D p m c s m1 g CK E).
Qed.
Theorem check_ok : forall D p m c, check D p Leaf 0 = Some (m, c) -> checked D p m c.
Proof.
  intros D p m c H. apply (check_from D [] p Leaf 0); [|exact H]. assert (N : forall t, tget t Leaf = None) by (intros t; unfold tget; destruct (t <? 0); [|destruct (Z.to_pos (t + 1))]; reflexivity). constructor.
  - intros t. rewrite N. cbn. tauto.
  - split; [constructor|]. intros s [].
  - intros p1 s p2 E. destruct p1; discriminate E.
  - intros s t [].
  - intros s [].
  - reflexivity.
  - intros t. unfold lev_of. rewrite N. lia.
Qed.
