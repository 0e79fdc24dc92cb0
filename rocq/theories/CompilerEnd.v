(** * Every ordered program has levels *)
From Coq Require Import ZArith List Bool Arith Lia.
From Verif Require Import SpecLoader Program SpecCompiler CompilerOrder.
Import ListNotations.
Open Scope Z_scope.

Definition use_list (s : stmt) : list Z :=
  match s with
  | Op _ _ a b => [a; b]
  | Sum _ a b => map (fun i => a + Z.of_nat i) (seq 0 (Z.to_nat (b + 1 - a)))
  | _ => []
  end.
Lemma use_list_iff : forall s a, In a (use_list s) <-> uses s a.
Proof.
  intros [o t x y|t x y|t i|o x|] a; cbn [use_list uses In]; try tauto; [intuition congruence|].
  rewrite in_map_iff. split.
  - intros (i & <- & H). apply in_seq in H. lia.
  - intros H. exists (Z.to_nat (a - x)). split; [lia|]. apply in_seq. lia.
Qed.
Lemma list_max_top : forall l, l <> [] -> exists x, In x l /\ list_max l = x.
Proof.
  induction l as [|x l IH]; intros H; [congruence|]. change (list_max (x :: l)) with (Nat.max x (list_max l)). destruct l as [|y l].
  - exists x. split; [left; reflexivity|]. cbn. lia.
  - destruct (IH ltac:(discriminate)) as (z & H1 & H2). destruct (Nat.max_dec x (list_max (y :: l))) as [->| ->]; [exists x; split; [left|]; reflexivity|exists z; split; [right; exact H1|exact H2]].
Qed.
Lemma list_max_in : forall l x, In x l -> (x <= list_max l)%nat.
Proof. intros l x H. pose proof (proj1 (list_max_le l (list_max l)) (le_n _)) as Q. rewrite Forall_forall in Q. apply Q, H. Qed.
Lemma targets_snoc : forall p s, targets (p ++ [s]) = targets p ++ target s.
Proof. intros p s. unfold targets. rewrite flat_map_app. cbn. rewrite app_nil_r. reflexivity. Qed.
Lemma ordered_prefix : forall p s, ordered (p ++ [s]) -> ordered p.
Proof. intros p s H p1 s1 p2 ->. apply (H p1 s1 (p2 ++ [s])). rewrite <- app_assoc. reflexivity. Qed.
Lemma levels_exist : forall p, NoDup (targets p) -> ordered p -> exists lev, levels_of p lev.
Proof.
  induction p as [|s p IH] using rev_ind; intros ND OR.
  - exists (fun _ => 0%nat). intros s t [].
  - rewrite targets_snoc in ND. destruct IH as (lev & L).
    { clear -ND. induction (targets p) as [|x l IH]; [constructor|]. inversion ND; subst. constructor; [intros H; apply H1, in_or_app; left; exact H|apply IH; assumption]. }
    { apply (ordered_prefix _ s OR). }
    destruct (OR p s [] eq_refl) as [U _].
    assert (TG : target s = [] \/ exists t, target s = [t]) by (destruct s; cbn; eauto).
    destruct TG as [E|(t & E)].
    + exists lev. intros s' t' Hs Ht. apply in_app_or in Hs. destruct Hs as [Hs|[<-|[]]]; [apply (L s' t' Hs Ht)|congruence].
    + rewrite E in ND. assert (FR : ~ In t (targets p)). { intros H. apply NoDup_remove_2 in ND. rewrite app_nil_r in ND. exact (ND H). }
      set (n := match use_list s with [] => 0%nat | l => S (list_max (map lev l)) end).
      exists (fun x => if x =? t then n else lev x). intros s' t' Hs Ht. apply in_app_or in Hs. destruct Hs as [Hs|[<-|[]]].
      * assert (Ht' : In t' (targets p)). { apply in_flat_map. exists s'. split; [exact Hs|]. rewrite Ht. left. reflexivity. }
        assert (NE : (t' =? t) = false) by (apply Z.eqb_neq; congruence). rewrite NE.
        assert (NU : forall a, uses s' a -> (a =? t) = false).
        { intros a Ha. apply Z.eqb_neq. intros ->. apply FR. exact (proj1 (order_uses p s' t (ordered_prefix _ s OR) Hs Ha)). }
        destruct (L s' t' Hs Ht) as [L1 L2]. split.
        -- intros a Ha. rewrite (NU a Ha). apply L1, Ha.
        -- destruct L2 as [L2|(a & Ha & L2)]; [left; exact L2|right; exists a; split; [exact Ha|]]. rewrite (NU a Ha). exact L2.
      * assert (t' = t) as -> by congruence. rewrite Z.eqb_refl.
        assert (NU : forall a, uses s a -> (a =? t) = false).
        { intros a Ha. apply Z.eqb_neq. intros ->. apply FR. exact (proj1 (U t Ha)). }
        split.
        -- intros a Ha. rewrite (NU a Ha). apply use_list_iff in Ha. unfold n. destruct (use_list s) as [|y l] eqn:EU; [contradiction|]. rewrite <- EU in *. apply le_n_S, list_max_in. apply in_map, Ha.
        -- unfold n. destruct (use_list s) as [|y l] eqn:EU; [left; reflexivity|right]. rewrite <- EU. destruct (list_max_top (map lev (use_list s))) as (x & Hx & ->); [rewrite EU; discriminate|].
           apply in_map_iff in Hx. destruct Hx as (a & <- & Ha). apply use_list_iff in Ha. exists a. split; [exact Ha|]. rewrite (NU a Ha). reflexivity.
Qed.
Lemma levels_unique : forall p lev lev', ordered p -> levels_of p lev -> levels_of p lev' -> forall t, In t (targets p) -> lev t = lev' t.
Proof.
  induction p as [|s p IH] using rev_ind; intros lev lev' OR L L' t Ht; [destruct Ht|].
  assert (R : forall a, In a (targets p) -> lev a = lev' a).
  { apply IH; [apply (ordered_prefix _ s OR)| |]; intros s' t' Hs; [apply L|apply L']; apply in_or_app; left; exact Hs. }
  rewrite targets_snoc in Ht. apply in_app_or in Ht. destruct Ht as [Ht|Ht]; [apply R, Ht|].
  assert (E : target s = [t]) by (destruct s; cbn in *; intuition congruence).
  destruct (OR p s [] eq_refl) as [U _]. destruct (L s t) as [A1 A2]; [apply in_or_app; right; left; reflexivity|exact E|].
  destruct (L' s t) as [B1 B2]; [apply in_or_app; right; left; reflexivity|exact E|].
  destruct A2 as [A2|(a & Ha & A2)], B2 as [B2|(b & Hb & B2)].
  - congruence.
  - specialize (A1 b Hb). lia.
  - specialize (B1 a Ha). lia.
  - pose proof (A1 b Hb). pose proof (B1 a Ha). pose proof (R a (proj1 (U a Ha))). pose proof (R b (proj1 (U b Hb))). lia.
Qed.
