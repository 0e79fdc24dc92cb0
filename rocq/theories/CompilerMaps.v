(** * Maps and loops of the circuit compiler *)
From Coq Require Import ZArith List Bool Arith Lia Sorted.
From Verif Require Import Base Loader LoaderProofs ZkEval Program Compiler.
Import ListNotations.
Open Scope Z_scope.

(** ** Inversion *)
Lemma int_op_inv : forall z x, int_op z = Ok x -> x = z /\ - 2 ^ 31 <= z < 2 ^ 31.
Proof.
  intros z x H. unfold int_op in H. destruct (in_int z) eqn:E; [|discriminate]. injection H as <-. split; [reflexivity|].
  unfold in_int in E. apply andb_true_iff in E. destruct E as [E1 E2]. apply Z.leb_le in E1. apply Z.ltb_lt in E2. lia.
Qed.
Lemma int_op_ok : forall z, - 2 ^ 31 <= z < 2 ^ 31 -> int_op z = Ok z.
Proof.
  intros z H. unfold int_op, in_int. destruct (Z.leb_spec (- 2 ^ 31) z); [|lia]. destruct (Z.ltb_spec z (2 ^ 31)); [reflexivity|lia].
Qed.
Lemma read_ll_inv : forall z x, read_ll z = Ok x -> x = z /\ - 2 ^ 63 <= z < 2 ^ 63.
Proof.
  intros z x H. unfold read_ll in H. destruct (_ && _) eqn:E; [|discriminate]. injection H as <-. split; [reflexivity|].
  apply andb_true_iff in E. destruct E as [E1 E2]. apply Z.leb_le in E1. apply Z.ltb_lt in E2. lia.
Qed.
Lemma read_ll_ok : forall z, - 2 ^ 63 <= z < 2 ^ 63 -> read_ll z = Ok z.
Proof.
  intros z H. unfold read_ll. destruct (Z.leb_spec (- 2 ^ 63) z); [|lia]. destruct (Z.ltb_spec z (2 ^ 63)); [reflexivity|lia].
Qed.
Lemma cast_int_id : forall z, - 2 ^ 31 <= z < 2 ^ 31 -> cast_int z = z.
Proof. intros z H. unfold cast_int. rewrite Z.mod_small; lia. Qed.
Lemma idx_inv : forall z n, idx z = Ok n -> 0 <= z /\ n = Z.to_nat z.
Proof. intros z n H. unfold idx in H. destruct (Z.ltb_spec z 0); [discriminate|]. injection H as <-. split; [lia|reflexivity]. Qed.
Lemma wr_inv : forall A (l : list A) i x l', wr l i x = Ok l' -> (i < length l)%nat /\ l' = upd l i x.
Proof. intros A l i x l' H. unfold wr in H. destruct (Nat.ltb_spec i (length l)); [|discriminate]. injection H as <-. split; [assumption|reflexivity]. Qed.
Lemma rd_inv : forall A (l : list A) i x, rd l i = Ok x -> nth_error l i = Some x.
Proof. intros A l i x H. unfold rd in H. destruct (nth_error l i); [injection H as <-; reflexivity|discriminate]. Qed.

Lemma each_app : forall A S (f : A -> S -> outcome S) l1 l2 s, each f (l1 ++ l2) s = (s' <- each f l1 s ;; each f l2 s').
Proof.
  intros A S f. induction l1 as [|x l1 IH]; intros l2 s; [reflexivity|]. cbn [app each]. destruct (f x s); try reflexivity. cbn [bind]. apply IH.
Qed.
(** Invariants indexed by the part of the list already traversed. *)
Lemma each_inv : forall A S (f : A -> S -> outcome S) (I : list A -> S -> Prop) l s s',
  each f l s = Ok s' -> I [] s ->
  (forall l1 x l2 s1 s2, l = l1 ++ x :: l2 -> I l1 s1 -> f x s1 = Ok s2 -> I (l1 ++ [x]) s2) -> I l s'.
Proof.
  intros A S f I l. induction l as [|x l IH] using rev_ind; intros s s' E I0 HS.
  - injection E as <-. exact I0.
  - rewrite each_app in E. apply bind_inv in E. destruct E as (s1 & E1 & E2). cbn [each] in E2. apply bind_inv in E2. destruct E2 as (s2 & E2 & E3).
    injection E3 as <-. apply (HS l x [] s1 s2); [reflexivity| |exact E2].
    apply (IH s s1 E1 I0). intros l1 y l2 t1 t2 -> It Et. apply (HS l1 y (l2 ++ [x]) t1 t2); [rewrite <- app_assoc; reflexivity|exact It|exact Et].
Qed.
(** What every call satisfied. *)
Lemma each_all : forall A S (f : A -> S -> outcome S) (Q : A -> Prop) l s s',
  each f l s = Ok s' -> (forall x s1 s2, In x l -> f x s1 = Ok s2 -> Q x) -> forall x, In x l -> Q x.
Proof.
  intros A S f Q. induction l as [|y l IH]; intros s s' E HS x Hx; [destruct Hx|]. cbn [each] in E. apply bind_inv in E.
  destruct E as (s1 & E1 & E2). destruct Hx as [<-|Hx]; [apply (HS y s s1 ltac:(left; reflexivity) E1)|].
  apply (IH s1 s' E2); [|exact Hx]. intros z t1 t2 Hz. apply HS. right. exact Hz.
Qed.
Lemma each_ok : forall A S (f : A -> S -> outcome S) (I : list A -> S -> Prop) l s, I [] s ->
  (forall l1 x l2 s1, l = l1 ++ x :: l2 -> I l1 s1 -> returns (f x s1) (I (l1 ++ [x]))) -> returns (each f l s) (I l).
Proof.
  intros A S f I l. induction l as [|x l IH] using rev_ind; intros s I0 HS; [exists s; split; [reflexivity|exact I0]|].
  destruct (IH s I0) as (s1 & E1 & I1).
  - intros l1 y l2 t1 -> It. apply (HS l1 y (l2 ++ [x])); [rewrite <- app_assoc; reflexivity|exact It].
  - destruct (HS l x [] s1 eq_refl I1) as (s2 & E2 & I2). exists s2. split; [|exact I2]. rewrite each_app, E1. cbn [bind each]. rewrite E2. reflexivity.
Qed.

(** ** Keys *)
Lemma key_eqb_spec : forall a b, reflect (a = b) (key_eqb a b).
Proof.
  intros [a1 a2] [b1 b2]. unfold key_eqb. cbn [fst snd]. destruct (Z.eqb_spec a1 b1); destruct (Z.eqb_spec a2 b2); constructor; congruence.
Qed.
Lemma key_eqb_refl : forall a, key_eqb a a = true.
Proof. intro a. destruct (key_eqb_spec a a); congruence. Qed.
Definition key_lt (a b : key) : Prop := fst a < fst b \/ (fst a = fst b /\ snd a < snd b).
Lemma key_ltb_spec : forall a b, reflect (key_lt a b) (key_ltb a b).
Proof.
  intros [a1 a2] [b1 b2]. unfold key_ltb, key_lt. cbn [fst snd].
  apply iff_reflect. rewrite orb_true_iff, andb_true_iff, Z.ltb_lt, Z.eqb_eq, Z.ltb_lt. reflexivity.
Qed.
Lemma key_lt_trans : forall a b c, key_lt a b -> key_lt b c -> key_lt a c.
Proof. unfold key_lt. intros; lia. Qed.
Lemma key_lt_irrefl : forall a, ~ key_lt a a.
Proof. unfold key_lt. intros; lia. Qed.
Lemma key_lt_total : forall a b, key_lt a b \/ a = b \/ key_lt b a.
Proof. intros [a1 a2] [b1 b2]. unfold key_lt. cbn [fst snd]. destruct (Z.lt_trichotomy a1 b1) as [|[->|]]; [lia| |lia].
  destruct (Z.lt_trichotomy a2 b2) as [|[->|]]; [lia|right; left; reflexivity|lia]. Qed.
Lemma fset_same : forall f k z, fset f k z k = z.
Proof. intros. unfold fset. rewrite key_eqb_refl. reflexivity. Qed.
Lemma fset_other : forall f k z x, x <> k -> fset f k z x = f x.
Proof. intros. unfold fset. destruct (key_eqb_spec x k); congruence. Qed.
Lemma kV_inj : forall a b, kV a = kV b -> a = b.
Proof. intros a b H. injection H. auto. Qed.

(** ** Entries *)
Definition keys {A} (m : kmap A) : list key := map fst m.
Definition sorted {A} (m : kmap A) : Prop := StronglySorted key_lt (keys m).
Lemma mget_mset : forall A (d : A) m k a x, mget d (mset m k a) x = if key_eqb x k then a else mget d m x.
Proof.
  intros A d. induction m as [|[k' a'] m IH]; intros k a x; [reflexivity|]. cbn [mset].
  destruct (key_ltb_spec k k') as [L|L]; [reflexivity|]. destruct (key_eqb_spec k k') as [<-|N].
  - cbn [mget]. destruct (key_eqb_spec x k); reflexivity.
  - cbn [mget]. destruct (key_eqb_spec x k') as [->|M]; [|apply IH]. destruct (key_eqb_spec k' k); [congruence|reflexivity].
Qed.
Lemma mget_same : forall A (d : A) m k a, mget d (mset m k a) k = a.
Proof. intros. rewrite mget_mset, key_eqb_refl. reflexivity. Qed.
Lemma mget_other : forall A (d : A) m k a x, x <> k -> mget d (mset m k a) x = mget d m x.
Proof. intros. rewrite mget_mset. destruct (key_eqb_spec x k); congruence. Qed.
Lemma keys_mset : forall A (m : kmap A) k a x, In x (keys (mset m k a)) <-> x = k \/ In x (keys m).
Proof.
  intros A. induction m as [|[k' a'] m IH]; intros k a x; [cbn; intuition congruence|]. cbn [mset].
  destruct (key_ltb_spec k k') as [L|L]; [cbn; intuition congruence|]. destruct (key_eqb_spec k k') as [<-|N]; [cbn; intuition congruence|].
  cbn [keys map fst In]. fold (keys (mset m k a)). rewrite IH. fold (keys m). tauto.
Qed.
Lemma sorted_mset : forall A (m : kmap A) k a, sorted m -> sorted (mset m k a).
Proof.
  intros A. unfold sorted. induction m as [|[k' a'] m IH]; intros k a H; [repeat constructor|]. cbn [mset].
  cbn [keys map fst] in H. fold (keys m) in H. pose proof (StronglySorted_inv H) as [H1 H2].
  destruct (key_ltb_spec k k') as [L|L].
  - cbn [keys map fst]. fold (keys m). constructor; [exact H|]. constructor; [exact L|].
    eapply Forall_impl; [|exact H2]. intros y Hy. eapply key_lt_trans; [exact L|exact Hy].
  - destruct (key_eqb_spec k k') as [<-|N]; [exact H|]. cbn [keys map fst]. fold (keys (mset m k a)). constructor; [apply IH; exact H1|].
    apply Forall_forall. intros y Hy. apply keys_mset in Hy. destruct Hy as [->|Hy].
    + destruct (key_lt_total k k') as [|[|]]; [contradiction|contradiction|assumption].
    + rewrite Forall_forall in H2. apply H2, Hy.
Qed.
Lemma sorted_nodup : forall A (m : kmap A), sorted m -> NoDup (keys m).
Proof.
  intros A m. unfold sorted. induction (keys m) as [|k l IH]; intro H; [constructor|]. apply StronglySorted_inv in H. destruct H as [H1 H2].
  constructor; [|apply IH, H1]. intro Hin. rewrite Forall_forall in H2. exact (key_lt_irrefl _ (H2 _ Hin)).
Qed.
Lemma mget_in : forall A (d : A) m k a, NoDup (keys m) -> In (k, a) m -> mget d m k = a.
Proof.
  intros A d. induction m as [|[k' a'] m IH]; intros k a ND Hin; [destruct Hin|]. cbn [keys map fst] in ND. inversion ND as [|? ? Nin ND']; subst.
  cbn [mget]. destruct Hin as [E|Hin].
  - injection E as -> ->. rewrite key_eqb_refl. reflexivity.
  - destruct (key_eqb_spec k k') as [->|N]; [|apply IH; assumption]. exfalso. apply Nin. apply in_map_iff. exists (k', a). split; [reflexivity|exact Hin].
Qed.
Lemma in_mget : forall A (d : A) m k, In k (keys m) -> In (k, mget d m k) m.
Proof.
  intros A d. induction m as [|[k' a'] m IH]; intros k Hin; [destruct Hin|]. cbn [mget]. destruct (key_eqb_spec k k') as [->|N]; [left; reflexivity|].
  right. apply IH. destruct Hin as [E|Hin]; [cbn in E; congruence|exact Hin].
Qed.
Lemma mget_missing : forall A (d : A) m k, ~ In k (keys m) -> mget d m k = d.
Proof.
  intros A d. induction m as [|[k' a'] m IH]; intros k N; [reflexivity|]. cbn [mget]. destruct (key_eqb_spec k k') as [->|M].
  - exfalso. apply N. left. reflexivity.
  - apply IH. intro H. apply N. right. exact H.
Qed.
Lemma sorted_split : forall A (m1 m2 : kmap A) e, sorted (m1 ++ e :: m2) ->
  (forall k, In k (keys m1) -> key_lt k (fst e)) /\ (forall k, In k (keys m2) -> key_lt (fst e) k).
Proof.
  intros A m1 m2 e. unfold sorted, keys. rewrite map_app. cbn [map]. induction m1 as [|x m1 IH]; intro H.
  - cbn [map app] in *. apply StronglySorted_inv in H. destruct H as [_ H]. rewrite Forall_forall in H. split; [intros k []|exact H].
  - cbn [map app] in *. apply StronglySorted_inv in H. destruct H as [H1 H2]. rewrite Forall_forall in H2. destruct (IH H1) as [A1 A2]. split; [|exact A2].
    intros k [<-|Hk]; [|apply A1, Hk]. apply H2. apply in_or_app. right. left. reflexivity.
Qed.
