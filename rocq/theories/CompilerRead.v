(** * The graph that the compiler reads *)
From Coq Require Import ZArith List Bool Arith Lia Sorted.
From Verif Require Import Base Fp Loader SpecLoader LoaderProofs ZkEval Program SpecCompiler Compiler CompilerMaps.
Import ListNotations.
Open Scope Z_scope.

Definition stmt_gate (s : stmt) : Z * key * key :=
  match s with
  | Op o _ a b => (op_ty o, kV a, kV b)
  | Sum _ a b => (12, kV a, kV b)
  | SIn _ i => (3, kI (cast_int i), kN 0)
  | _ => (0, (0, 0), (0, 0))
  end.
(** Variable [a] is read by [s]. *)
Definition reads (s : stmt) (a : Z) : Prop :=
  match s with
  | Op _ _ x y => a = x \/ a = y
  | Sum _ x y => x <= a <= y
  | _ => False
  end.
(** Same gate but for the outputs. *)
Definition same_gate (g g' : dgate) : Prop :=
  dg_id g = dg_id g' /\ dg_ty g = dg_ty g' /\ dg_in0 g = dg_in0 g' /\ dg_in1 g = dg_in1 g'.
Record read_inv (p : list stmt) (m : dag) : Prop := {
  ri_sorted : sorted m;
  ri_keys : forall k, In k (keys m) -> exists t, k = kV t;
  ri_def : forall s t, In s p -> target s = [t] -> In (kV t) (keys m) /\
     (dg_id (dget m (kV t)), (dg_ty (dget m (kV t)), dg_in0 (dget m (kV t)), dg_in1 (dget m (kV t)))) = (kV t, stmt_gate s);
  ri_undef : forall t, ~ In t (targets p) -> dg_ty (dget m (kV t)) = 0;
  ri_outs : forall k o, In o (dg_outs (dget m k)) -> exists s t a, o = kV t /\ In s p /\ target s = [t] /\ reads s a;
  ri_reads : forall s a, In s p -> reads s a -> In (kV a) (keys m) }.

Lemma dget_push : forall m k o x, dget (push_out m k o) x =
  if key_eqb x k then DG (dg_id (dget m k)) (dg_ty (dget m k)) (dg_in0 (dget m k)) (dg_in1 (dget m k)) (dg_outs (dget m k) ++ [o]) else dget m x.
Proof. intros. unfold push_out, dget at 1. cbv zeta. rewrite mget_mset. reflexivity. Qed.
Lemma push_same : forall m k o x, same_gate (dget (push_out m k o) x) (dget m x).
Proof. intros. rewrite dget_push. destruct (key_eqb_spec x k) as [->|N]; repeat split. Qed.
Lemma push_keys : forall m k o x, In x (keys (push_out m k o)) <-> x = k \/ In x (keys m).
Proof. intros. unfold push_out. cbv zeta. apply keys_mset. Qed.
Lemma push_sorted : forall m k o, sorted m -> sorted (push_out m k o).
Proof. intros. unfold push_out. cbv zeta. apply sorted_mset. assumption. Qed.
Lemma push_outs : forall m k o x y, In y (dg_outs (dget (push_out m k o) x)) -> y = o \/ In y (dg_outs (dget m x)).
Proof.
  intros m k o x y. rewrite dget_push. destruct (key_eqb_spec x k) as [->|N]; [|tauto]. cbn [dg_outs]. rewrite in_app_iff. cbn [In]. intuition congruence.
Qed.

(** The graph after the new gate and the pushes: what stays as it was. *)
Record after (m m' : dag) (t : Z) (gt : Z * key * key) (rs : Z -> Prop) : Prop := {
  af_sorted : sorted m -> sorted m';
  af_keys : forall k, In k (keys m') <-> k = kV t \/ In k (keys m) \/ exists a, k = kV a /\ rs a;
  af_other : forall x, x <> kV t -> same_gate (dget m' x) (dget m x);
  af_new : (dg_id (dget m' (kV t)), (dg_ty (dget m' (kV t)), dg_in0 (dget m' (kV t)), dg_in1 (dget m' (kV t)))) = (kV t, gt);
  af_outs : forall k o, In o (dg_outs (dget m' k)) -> (o = kV t /\ exists a, rs a) \/ In o (dg_outs (dget m k)) }.
Lemma after_set : forall m t ty a b, after m (mset m (kV t) (DG (kV t) ty a b [])) t (ty, a, b) (fun _ => False).
Proof.
  intros. constructor.
  - apply sorted_mset.
  - intro k. rewrite keys_mset. firstorder.
  - intros x N. unfold dget. rewrite mget_other by exact N. repeat split.
  - unfold dget. rewrite mget_same. reflexivity.
  - intros k o. unfold dget. rewrite mget_mset. destruct (key_eqb_spec k (kV t)); [intros []|]. intro H. right. exact H.
Qed.
Lemma after_push : forall m m' t gt rs a, after m m' t gt rs -> after m (push_out m' (kV a) (kV t)) t gt (fun x => x = a \/ rs x).
Proof.
  intros m m' t gt rs a [A B C D E]. constructor.
  - intro S. apply push_sorted, A, S.
  - intro k. rewrite push_keys, B. split.
    + intros [->|[H|[H|(x & H & Hr)]]]; [right; right; exists a; tauto|tauto|tauto|right; right; exists x; tauto].
    + intros [H|[H|(x & -> & [->|Hr])]]; [tauto|tauto|tauto|]. right. right. right. exists x. tauto.
  - intros x N. destruct (push_same m' (kV a) (kV t) x) as (H1 & H2 & H3 & H4). destruct (C x N) as (K1 & K2 & K3 & K4). unfold same_gate. rewrite H1, H2, H3, H4. tauto.
  - destruct (push_same m' (kV a) (kV t) (kV t)) as (H1 & H2 & H3 & H4). rewrite H1, H2, H3, H4. exact D.
  - intros k o H. apply push_outs in H. destruct H as [->|H]; [left; split; [reflexivity|exists a; tauto]|].
    destruct (E k o H) as [(-> & x & Hx)|Ho]; [left; split; [reflexivity|exists x; tauto]|right; exact Ho].
Qed.
Lemma forz_inv : forall S u v (body : Z -> S -> outcome S) (I : Z -> S -> Prop) s s', forz u v body s = Ok s' -> I u s ->
  (forall i s1 s2, u <= i < v -> I i s1 -> body i s1 = Ok s2 -> I (i + 1) s2) -> I (Z.max u v) s'.
Proof.
  intros S u v body I s s' E I0 HS. unfold forz in E.
  assert (G : forall n st s s', (Z.of_nat (st + n) <= Z.max 0 (v - u)) -> I (u + Z.of_nat st) s -> for_ n st (fun k => body (u + Z.of_nat k)) s = Ok s' -> I (u + Z.of_nat (st + n)) s').
  { clear E I0 s s'. induction n as [|n IH]; intros st s s' B H E; [injection E as <-; rewrite Nat.add_0_r; exact H|].
    cbn [for_] in E. apply bind_inv in E. destruct E as (s1 & E1 & E2). assert (H1 : I (u + Z.of_nat st + 1) s1) by (apply (HS _ s); [lia|exact H|exact E1]).
    replace (st + Datatypes.S n)%nat with (Datatypes.S st + n)%nat by lia. apply (IH _ s1); [lia| |exact E2].
    replace (u + Z.of_nat (Datatypes.S st)) with (u + Z.of_nat st + 1) by lia. exact H1. }
  apply G in E; [|lia|rewrite Z.add_0_r; exact I0]. replace (Z.max u v) with (u + Z.of_nat (0 + Z.to_nat (v - u))) by lia. exact E.
Qed.
Lemma forz_body : forall S u v (body : Z -> S -> outcome S) s s' (Q : Z -> Prop), forz u v body s = Ok s' ->
  (forall i s1 s2, u <= i < v -> body i s1 = Ok s2 -> Q i) -> forall i, u <= i < v -> Q i.
Proof.
  intros S u v body s s' Q E HS. pose proof (forz_inv S u v body (fun i _ => forall j, u <= j < i -> Q j) s s' E) as K.
  cbv beta in K. intros i Hi. apply K; [intros; lia| |lia]. intros k s1 s2 Hk IH Eb j Hj.
  destruct (Z.eq_dec j k) as [->|N]; [exact (HS k s1 s2 Hk Eb)|apply IH; lia].
Qed.

Lemma after_ext : forall m m' t gt rs rs', (forall a, rs a <-> rs' a) -> after m m' t gt rs -> after m m' t gt rs'.
Proof.
  intros m m' t gt rs rs' H [A B C D E]. constructor; try assumption.
  - intro k. rewrite B. split; (intros [K|[K|(a & K & Kr)]]; [tauto|tauto|]; right; right; exists a; split; [exact K|apply H, Kr]).
  - intros k o Ho. destruct (E k o Ho) as [(K & a & Ka)|K]; [left; split; [exact K|exists a; apply H, Ka]|right; exact K].
Qed.
Lemma targets_app : forall p q, targets (p ++ q) = targets p ++ targets q.
Proof. intros. apply flat_map_app. Qed.
Lemma in_targets : forall p s t, In s p -> target s = [t] -> In t (targets p).
Proof. intros p s t H E. apply in_flat_map. exists s. split; [exact H|]. rewrite E. left. reflexivity. Qed.
Lemma step_inv : forall p m m' s t, target s = [t] -> ~ In t (targets p) -> read_inv p m ->
  after m m' t (stmt_gate s) (reads s) -> read_inv (p ++ [s]) m'.
Proof.
  intros p m m' s t Ht Nt [S K D U O R] [A B C N E]. constructor.
  - apply A, S.
  - intros k Hk. apply B in Hk. destruct Hk as [->|[Hk|(a & -> & _)]]; [exists t; reflexivity|apply K, Hk|exists a; reflexivity].
  - intros s' t' Hs Ht'. apply in_app_iff in Hs. destruct Hs as [Hs|[<-|[]]].
    + assert (Nt' : t' <> t) by (intros ->; apply Nt; exact (in_targets _ _ _ Hs Ht')).
      destruct (D s' t' Hs Ht') as [D1 D2]. split; [apply B; tauto|].
      assert (NK : kV t' <> kV t) by (intro Q; apply Nt', kV_inj, Q). destruct (C (kV t') NK) as (C1 & C2 & C3 & C4). rewrite C1, C2, C3, C4. exact D2.
    + rewrite Ht in Ht'. injection Ht' as <-. split; [apply B; tauto|exact N].
  - intros t' H. rewrite targets_app, in_app_iff in H. cbn [targets flat_map] in H. rewrite Ht in H. cbn [app In] in H.
    assert (NK : kV t' <> kV t) by (intro Q; apply kV_inj in Q; subst t'; tauto).
    destruct (C (kV t') NK) as (_ & C2 & _ & _). rewrite C2. apply U. tauto.
  - intros k o Ho. destruct (E k o Ho) as [(-> & a & Ha)|Ho'].
    + exists s, t, a. split; [reflexivity|]. split; [apply in_app_iff; right; left; reflexivity|]. split; assumption.
    + destruct (O k o Ho') as (s' & t' & a' & H1 & H2 & H3). exists s', t', a'. split; [exact H1|]. split; [apply in_app_iff; left; exact H2|exact H3].
  - intros s' a Hs Ha. apply B. apply in_app_iff in Hs. destruct Hs as [Hs|[<-|[]]]; [right; left; exact (R s' a Hs Ha)|].
    right. right. exists a. split; [reflexivity|exact Ha].
Qed.

Definition stmt_ok (s : stmt) : Prop :=
  match s with
  | Op _ _ a b => is_int a /\ is_int b
  | Sum _ a b => is_int a /\ is_int b /\ b - a + 1 <= 63
  | _ => True
  end.
(** One statement that assigns a variable. *)
Lemma read_after : forall s t m ic m' ic', target s = [t] -> stmt_ok s -> read_stmt s (m, ic) = Ok (m', ic') ->
  after m m' t (stmt_gate s) (reads s).
Proof.
  intros s t m ic m' ic' Ht Hs E. destruct s as [o t' a b|t' a b|t' i|o a|]; try discriminate Ht; injection Ht as ->; cbn [read_stmt] in E.
  - destruct Hs as [Ha Hb]. unfold is_int in Ha, Hb.
    apply bind_inv in E. destruct E as (t1 & E1 & E). apply int_op_inv in E1. destruct E1 as [-> _].
    apply bind_inv in E. destruct E as (a1 & E1 & E). apply read_ll_inv in E1. destruct E1 as [-> _].
    apply bind_inv in E. destruct E as (b1 & E1 & E). apply read_ll_inv in E1. destruct E1 as [-> _].
    injection E as <- _. rewrite !cast_int_id by assumption. unfold stmt_gate.
    eapply after_ext; [|apply after_push, after_push, after_set]. intro x. cbn [reads]. tauto.
  - destruct Hs as (Ha & Hb & _). unfold is_int in Ha, Hb.
    apply bind_inv in E. destruct E as (t1 & E1 & E). apply int_op_inv in E1. destruct E1 as [-> _].
    apply bind_inv in E. destruct E as (a1 & E1 & E). apply read_ll_inv in E1. destruct E1 as [-> _].
    apply bind_inv in E. destruct E as (b1 & E1 & E). apply read_ll_inv in E1. destruct E1 as [-> _].
    rewrite !cast_int_id in E by assumption. apply bind_inv in E. destruct E as (m1 & E1 & E). injection E as <- _.
    pose proof (forz_inv _ _ _ _ (fun i m1 => after m m1 t (12, kV a, kV b) (fun x => a <= x < i)) _ _ E1) as K. cbv beta in K.
    eapply after_ext; [|apply K].
    + intro x. cbn [reads]. lia.
    + eapply after_ext; [|apply after_set]. intro x. cbv beta. lia.
    + intros i s1 s2 Hi Hs Hb'. apply bind_inv in Hb'. destruct Hb' as (? & _ & Hb'). injection Hb' as <-.
      eapply after_ext; [|apply after_push, Hs]. intro z. cbv beta. lia.
  - apply bind_inv in E. destruct E as (t1 & E1 & E). apply int_op_inv in E1. destruct E1 as [-> _].
    apply bind_inv in E. destruct E as (i1 & E1 & E). apply read_ll_inv in E1. destruct E1 as [-> _].
    apply bind_inv in E. destruct E as (c1 & E1 & E). injection E as <- _. apply after_set.
Qed.
Lemma read_out_inv : forall p m a o, read_inv p m -> read_inv (p ++ [SOut o a]) (mset m (kV a) (dget m (kV a))).
Proof.
  intros p m a o [S K D U O R].
  assert (G : forall x, dget (mset m (kV a) (dget m (kV a))) x = dget m x).
  { intro x. unfold dget at 1. rewrite mget_mset. destruct (key_eqb_spec x (kV a)) as [->|]; reflexivity. }
  assert (T : targets (p ++ [SOut o a]) = targets p) by (rewrite targets_app; apply app_nil_r).
  constructor.
  - apply sorted_mset, S.
  - intros k Hk. apply keys_mset in Hk. destruct Hk as [->|Hk]; [exists a; reflexivity|apply K, Hk].
  - intros s t Hs Ht. apply in_app_iff in Hs. destruct Hs as [Hs|[<-|[]]]; [|discriminate Ht]. rewrite !G. destruct (D s t Hs Ht) as [D1 D2].
    split; [apply keys_mset; tauto|exact D2].
  - intros t Ht. rewrite T in Ht. rewrite G. apply U, Ht.
  - intros k x. rewrite G. intro Hx. destruct (O k x Hx) as (s & t & y & H1 & H2 & H3). exists s, t, y. split; [exact H1|]. split; [apply in_app_iff; left; exact H2|exact H3].
  - intros s x Hs Hx. apply in_app_iff in Hs. destruct Hs as [Hs|[<-|[]]]; [|destruct Hx]. apply keys_mset. right. exact (R s x Hs Hx).
Qed.
Lemma target_nil : forall s, target s = [] \/ exists t, target s = [t].
Proof. intros [o t a b|t a b|t i|o a|]; cbn; eauto. Qed.
Lemma read_inv_prog : forall p m ic, NoDup (targets p) -> (forall s, In s p -> stmt_ok s) -> read_prog p = Ok (m, ic) ->
  read_inv p m /\ ic = Z.of_nat (length (inputs p)).
Proof.
  intros p m ic ND OKs E. unfold read_prog in E.
  apply (each_inv _ _ _ (fun l st => read_inv l (fst st) /\ snd st = Z.of_nat (length (inputs l))) _ _ _ E).
  - cbn [fst snd]. split; [|reflexivity]. constructor; try (intros; contradiction).
    + constructor.
    + reflexivity.
  - intros l1 s l2 [m1 ic1] [m2 ic2] El [RI Ic] Es. cbn [fst snd] in *.
    assert (Hs : stmt_ok s) by (apply OKs; rewrite El; apply in_app_iff; right; left; reflexivity).
    assert (IN : length (inputs (l1 ++ [s])) = (length (inputs l1) + length (input_var s))%nat).
    { unfold inputs. rewrite flat_map_app, app_length. cbn [flat_map]. rewrite app_nil_r. reflexivity. }
    rewrite IN. destruct (target_nil s) as [Ht|(t & Ht)].
    + destruct s as [o t a b|t a b|t i|o a|]; try discriminate Ht; cbn [read_stmt] in Es; [|discriminate].
      apply bind_inv in Es. destruct Es as (o1 & _ & Es). apply bind_inv in Es. destruct Es as (a1 & E1 & Es). injection Es as <- <-.
      split; [|cbn [input_var length]; lia].
      destruct (read_out_inv l1 m1 (cast_int a1) o RI) as [S K D U O R]. constructor; try assumption.
      * intros s' t' Hs' Ht'. apply in_app_iff in Hs'. destruct Hs' as [Hs'|[<-|[]]]; [|discriminate Ht']. apply D; [apply in_app_iff; left; exact Hs'|exact Ht'].
      * intros t' Ht'. apply U. rewrite targets_app in *. exact Ht'.
      * intros k x Hx. destruct (O k x Hx) as (s & t & y & H1 & H2 & H3 & H4). apply in_app_iff in H2. destruct H2 as [H2|[<-|[]]]; [|discriminate H3].
        exists s, t, y. split; [exact H1|]. split; [apply in_app_iff; left; exact H2|]. split; assumption.
      * intros s' x Hs' Hx. apply in_app_iff in Hs'. destruct Hs' as [Hs'|[<-|[]]]; [|destruct Hx]. apply (R s' x); [apply in_app_iff; left; exact Hs'|exact Hx].
    + assert (Nt : ~ In t (targets l1)).
      { rewrite El, targets_app in ND. cbn [targets flat_map] in ND. fold (targets l2) in ND. rewrite Ht in ND. cbn [app] in ND.
        apply NoDup_remove_2 in ND. rewrite in_app_iff in ND. tauto. }
      split; [exact (step_inv l1 m1 m2 s t Ht Nt RI (read_after s t m1 ic1 m2 ic2 Ht Hs Es))|].
      destruct s as [o t' a b|t' a b|t' i|o a|]; try discriminate Ht; cbn [read_stmt] in Es; cbn [input_var length].
      * apply bind_inv in Es. destruct Es as (? & _ & Es). apply bind_inv in Es. destruct Es as (? & _ & Es).
        apply bind_inv in Es. destruct Es as (? & _ & Es). injection Es as _ <-. lia.
      * apply bind_inv in Es. destruct Es as (? & _ & Es). apply bind_inv in Es. destruct Es as (? & _ & Es).
        apply bind_inv in Es. destruct Es as (? & _ & Es). apply bind_inv in Es. destruct Es as (? & _ & Es). injection Es as _ <-. lia.
      * apply bind_inv in Es. destruct Es as (? & _ & Es). apply bind_inv in Es. destruct Es as (? & _ & Es).
        apply bind_inv in Es. destruct Es as (? & E3 & Es). injection Es as _ <-. apply int_op_inv in E3. lia.
Qed.
