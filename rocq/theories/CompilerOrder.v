(** * Levels of programs in order *)
From Coq Require Import ZArith List Bool Arith Lia Sorted.
From Verif Require Import Base Fp Loader SpecLoader LoaderProofs ZkEval Program SpecCompiler Compiler CompilerMaps CompilerRead CompilerLevels.
Import ListNotations.
Open Scope Z_scope.

(** ** Reading *)
Definition outs_inv (l : list stmt) (m : dag) : Prop := forall k o,
  In o (dg_outs (dget m k)) <-> exists s a t, k = kV a /\ o = kV t /\ In s l /\ target s = [t] /\ uses s a.
Lemma push_outs_iff : forall m k o x y, In y (dg_outs (dget (push_out m k o) x)) <-> (x = k /\ y = o) \/ In y (dg_outs (dget m x)).
Proof.
  intros m k o x y. rewrite dget_push. destruct (key_eqb_spec x k) as [->|N]; [|tauto]. cbn [dg_outs]. rewrite in_app_iff. cbn [In]. split.
  - intros [H|[H|[]]]; [tauto|]. left. split; [reflexivity|symmetry; exact H].
  - intros [[_ ->]|H]; tauto.
Qed.
Definition fits (s : stmt) : Prop :=
  match s with
  | Op _ t a b => is_int t /\ is_int a /\ is_int b
  | Sum t a b => is_int t /\ is_int a /\ is_int b /\ a <= b /\ b + 1 < 2 ^ 31
  | SIn t i => is_int t /\ is_int i
  | _ => False
  end.
Lemma set_outs : forall m t ty a b k o, In o (dg_outs (dget (mset m (kV t) (DG (kV t) ty a b [])) k)) <-> k <> kV t /\ In o (dg_outs (dget m k)).
Proof.
  intros. unfold dget at 1. rewrite mget_mset. destruct (key_eqb_spec k (kV t)) as [->|N]; [cbn [dg_outs In]; tauto|]. unfold dget. tauto.
Qed.
Lemma read_outs : forall s t m ic, target s = [t] -> fits s -> 0 <= ic -> ic + 1 < 2 ^ 31 ->
  exists m', read_stmt s (m, ic) = Ok (m', ic + Z.of_nat (length (input_var s))) /\
  forall k o, In o (dg_outs (dget m' k)) <-> (exists a, k = kV a /\ o = kV t /\ uses s a) \/ (k <> kV t /\ In o (dg_outs (dget m k))).
Proof.
  intros s t m ic Ht F H0 H1. destruct s as [o t' a b|t' a b|t' i|o a|]; try discriminate Ht; injection Ht as ->; cbn [fits] in F; unfold is_int in F; cbn [read_stmt input_var length uses].
  - destruct F as (F1 & F2 & F3). unfold read_int. rewrite int_op_ok, !read_ll_ok by lia. cbn [bind]. cbv zeta. rewrite !cast_int_id by lia.
    eexists. split; [rewrite Z.add_0_r; reflexivity|]. intros k y. rewrite !push_outs_iff, set_outs. split.
    + intros [[-> ->]|[[-> ->]|H]]; [left; exists b; tauto|left; exists a; tauto|tauto].
    + intros [(x & -> & -> & [->| ->])|H]; tauto.
  - destruct F as (F1 & F2 & F3 & F4 & F5). unfold read_int. rewrite int_op_ok, !read_ll_ok by lia. cbn [bind]. cbv zeta. rewrite !cast_int_id by lia.
    destruct (returns_forz dag a (b + 1) (fun i m => int_op (i + 1) ;;; Ok (push_out m (kV i) (kV t)))
      (fun i m1 => forall k o, In o (dg_outs (dget m1 k)) <-> (exists x, k = kV x /\ o = kV t /\ a <= x < i) \/ (k <> kV t /\ In o (dg_outs (dget m k))))
      (mset m (kV t) (DG (kV t) 12 (kV a) (kV b) []))) as (m' & E & H).
    + lia.
    + intros k o. rewrite set_outs. split; [tauto|]. intros [(x & _ & _ & H)|H]; [lia|exact H].
    + intros i m1 Hi H. rewrite int_op_ok by lia. cbn [bind]. apply returns_ok. intros k o. rewrite push_outs_iff, H. split.
      * intros [[-> ->]|[(x & -> & -> & Hx)|Q]]; [left; exists i; split; [reflexivity|]; split; [reflexivity|lia]|left; exists x; split; [reflexivity|]; split; [reflexivity|lia]|tauto].
      * intros [(x & -> & -> & Hx)|Q]; [|tauto]. destruct (Z.eq_dec x i) as [->|]; [tauto|]. right. left. exists x. split; [reflexivity|]. split; [reflexivity|lia].
    + exists m'. rewrite E. cbn [bind]. split; [rewrite Z.add_0_r; reflexivity|]. intros k o. rewrite H. split.
      * intros [(x & -> & -> & Hx)|Q]; [|tauto]. left. exists x. split; [reflexivity|]. split; [reflexivity|lia].
      * intros [(x & -> & -> & Hx)|Q]; [|tauto]. left. exists x. split; [reflexivity|]. split; [reflexivity|lia].
  - destruct F as (F1 & F2). unfold read_int. rewrite int_op_ok, read_ll_ok by lia. cbn [bind]. rewrite int_op_ok by lia. cbn [bind]. eexists. split; [reflexivity|].
    intros k o. rewrite set_outs. split; [tauto|]. intros [(x & _ & _ & [])|H]. exact H.
Qed.
Lemma targets_inputs : forall p, (length (inputs p) <= length (targets p))%nat.
Proof.
  induction p as [|s p IH]; [reflexivity|]. unfold inputs, targets. cbn [flat_map]. rewrite !app_length. unfold inputs, targets in IH. destruct s; cbn [input_var target length]; lia.
Qed.
Lemma read_total : forall p lev, prog_ok p -> ordered p -> regular p lev -> Z.of_nat (length (targets p)) < 2 ^ 31 - 1 ->
  exists m, read_prog p = Ok (m, Z.of_nat (length (inputs p))) /\ outs_inv p m.
Proof.
  intros p lev [ND PO] OR RG BD. unfold read_prog.
  destruct (each_ok _ _ read_stmt (fun l st => snd st = Z.of_nat (length (inputs l)) /\ outs_inv l (fst st)) p ([], 0)) as ([m ic] & E & H1 & H2).
  - cbn [fst snd]. split; [reflexivity|]. intros k o. cbn. split; [intros []|]. intros (s & a & t & _ & _ & [] & _).
  - intros l1 s l2 [m1 ic1] El [Hic Ho]. cbn [fst snd] in *.
    assert (Hs : In s p) by (rewrite El; apply in_app_iff; right; left; reflexivity). pose proof (PO s Hs) as P1. pose proof (RG s Hs) as R1. destruct (OR l1 s l2 El) as [O1 O2].
    assert (IN : length (inputs (l1 ++ [s])) = (length (inputs l1) + length (input_var s))%nat).
    { unfold inputs. rewrite flat_map_app, app_length. cbn [flat_map]. rewrite app_nil_r. reflexivity. }
    assert (IB : Z.of_nat (length (inputs l1)) + 1 < 2 ^ 31).
    { pose proof (targets_inputs l1). assert (length (targets l1) <= length (targets p))%nat by (rewrite El, targets_app, app_length; lia). lia. }
    destruct (target_nil s) as [Ht|(t & Ht)].
    + destruct s as [o t a b|t a b|t i|o a|]; try discriminate Ht; [|contradiction]. cbn [read_stmt]. unfold is_int in R1. unfold read_int. rewrite int_op_ok, read_ll_ok by lia. cbn [bind]. cbv zeta.
      apply returns_ok. cbn [fst snd]. split; [rewrite IN; cbn [input_var length]; lia|]. rewrite cast_int_id by lia.
      intros k x. assert (G : dget (mset m1 (kV a) (dget m1 (kV a))) k = dget m1 k) by (unfold dget at 1; rewrite mget_mset; destruct (key_eqb_spec k (kV a)) as [->|]; reflexivity).
      rewrite G, (Ho k x). split; intros (s & a' & t & H1 & H2 & H3 & H4 & H5); exists s, a', t; (split; [exact H1|]); (split; [exact H2|]); (split; [|split; assumption]).
      * apply in_app_iff. left. exact H3.
      * apply in_app_iff in H3. destruct H3 as [H3|[<-|[]]]; [exact H3|discriminate H4].
    + assert (Ft : fits s).
      { unfold is_int in *. destruct s as [o t' a b|t' a b|t' i|o a|]; try discriminate Ht; cbn [fits] in *; unfold is_int; try tauto.
        destruct R1 as (R1 & R2 & _). destruct (O1 b ltac:(cbn; lia)) as [_ Q]. specialize (Q t' eq_refl). lia. }
      destruct (read_outs s t m1 ic1 Ht Ft ltac:(lia) ltac:(lia)) as (m2 & E2 & H2). rewrite E2. apply returns_ok. cbn [fst snd]. split; [rewrite IN; lia|].
      assert (Nt : forall s' , In s' l1 -> ~ uses s' t).
      { intros s' Hs' Hu. apply in_split in Hs'. destruct Hs' as (q1 & q2 & ->). destruct (OR q1 s' (q2 ++ s :: l2)) as [Q _]; [rewrite El, <- app_assoc; reflexivity|]. destruct (Q t Hu) as [Q1 _].
        rewrite El in ND. rewrite !targets_app in ND. cbn [targets flat_map] in ND. rewrite Ht in ND. fold (targets l2) in ND. cbn [app] in ND. apply NoDup_remove_2 in ND. apply ND. rewrite !in_app_iff. tauto. }
      intros k x. rewrite H2, (Ho k x). split.
      * intros [(a & -> & -> & Hu)|(N & s' & a & t' & -> & -> & Hs' & Ht' & Hu)].
        -- exists s, a, t. split; [reflexivity|]. split; [reflexivity|]. split; [apply in_app_iff; right; left; reflexivity|]. split; assumption.
        -- exists s', a, t'. split; [reflexivity|]. split; [reflexivity|]. split; [apply in_app_iff; left; exact Hs'|]. split; assumption.
      * intros (s' & a & t' & -> & -> & Hs' & Ht' & Hu). apply in_app_iff in Hs'. destruct Hs' as [Hs'|[<-|[]]].
        -- right. split; [intro Q; apply kV_inj in Q; subst a; exact (Nt s' Hs' Hu)|]. exists s', a, t'. split; [reflexivity|]. split; [reflexivity|]. split; [exact Hs'|]. split; assumption.
        -- left. exists a. rewrite Ht in Ht'. injection Ht' as <-. split; [reflexivity|]. split; [reflexivity|exact Hu].
  - cbn [fst snd] in *. exists m. rewrite E, H1. split; [reflexivity|exact H2].
Qed.

(** ** The queue is emptied *)
Definition open_nodes (deg : key -> Z) (ks : list key) : nat := length (filter (fun k => 0 <? deg k) ks).
Lemma open_step : forall deg x ks, (open_nodes (fset deg x (deg x - 1)) ks <= open_nodes deg ks)%nat /\
  (In x ks -> deg x = 1 -> (open_nodes (fset deg x (deg x - 1)) ks < open_nodes deg ks)%nat).
Proof.
  intros deg x. unfold open_nodes. induction ks as [|k ks [IH1 IH2]]; [split; [reflexivity|intros []]|]. cbn [filter]. destruct (key_eqb_spec k x) as [->|N].
  - rewrite fset_same. split; [|intros _ D]; destruct (Z.ltb_spec 0 (deg x - 1)), (Z.ltb_spec 0 (deg x)); cbn [length]; lia.
  - rewrite (fset_other _ _ _ k N). split; [destruct (0 <? deg k); cbn [length]; lia|]. intros [Q|H] D; [subst k; contradiction|]. specialize (IH2 H D). destruct (0 <? deg k); cbn [length]; lia.
Qed.
Definition pot (m : dag) (s : lstate) : nat := (length (ls_q s) + open_nodes (ls_deg s) (keys m))%nat.
Lemma pot_out : forall m cur x s, In x (keys m) -> (pot m (visit_out cur x s) <= pot m s)%nat.
Proof.
  intros m cur x s Hx. unfold pot, visit_out. cbn [ls_q ls_deg]. destruct (open_step (ls_deg s) x (keys m)) as [A B]. rewrite fset_same.
  destruct (Z.eqb_spec (ls_deg s x - 1) 0) as [Q|Q]; [|lia]. specialize (B Hx ltac:(lia)). rewrite app_length. cbn [length]. lia.
Qed.
Lemma pot_fold : forall m cur l s, (forall x, In x l -> In x (keys m)) -> (pot m (fold_left (fun s x => visit_out cur x s) l s) <= pot m s)%nat.
Proof.
  intros m cur. induction l as [|x l IH]; intros s Hl; [reflexivity|]. cbn [fold_left]. etransitivity; [apply IH; intros y Hy; apply Hl; right; exact Hy|].
  apply pot_out. apply Hl. left. reflexivity.
Qed.
Lemma bfs_total : forall m, (forall k x, In x (dg_outs (dget m k)) -> In x (keys m)) -> forall fuel s, (pot m s <= fuel)%nat -> exists s', bfs fuel m s = Ok s'.
Proof.
  intros m HO. induction fuel as [|f IH]; intros s H; cbn [bfs]; destruct (ls_q s) as [|cur q] eqn:Q.
  - exists s. reflexivity.
  - unfold pot in H. rewrite Q in H. cbn [length] in H. lia.
  - exists s. reflexivity.
  - apply IH. unfold visit. cbv zeta. cbn [ls_q ls_deg ls_lvl ls_max].
    pose proof (pot_fold m cur (dg_outs (dget m cur)) (LS q (ls_deg s) (ls_lvl s) (Z.max (ls_max s) (ls_lvl s cur))) (HO cur)) as P. unfold pot in *. cbn [ls_q ls_deg] in P. rewrite Q in H. cbn [length] in H. lia.
Qed.
(** The levels are found, or an assertion on the sources fails. *)
Lemma levels_total : forall p m, read_inv p m -> (exists s, levels m = Ok s) \/ levels m = AssertFail.
Proof.
  intros p m RI. unfold levels. cbv zeta. assert (CS : forall l, each (fun e (_ : unit) => assert_ (negb (in_degrees m (fst e) =? 0) || (dg_ty (snd e) =? 3))) l tt = Ok tt \/
     each (fun e (_ : unit) => assert_ (negb (in_degrees m (fst e) =? 0) || (dg_ty (snd e) =? 3))) l tt = AssertFail).
  { induction l as [|e l IH]; [left; reflexivity|]. cbn [each]. unfold assert_ at 1 3. destruct (_ || _); [exact IH|right; reflexivity]. }
  unfold check_sources. destruct (CS m) as [->| ->]; [left|right; reflexivity]. cbn [bind]. apply bfs_total; [exact (read_outs_keys p m RI)|].
  unfold pot. cbn [ls_q ls_deg]. rewrite map_length. assert (Q : (open_nodes (in_degrees m) (keys m) <= length (keys m))%nat) by (unfold open_nodes; clear; induction (keys m) as [|k l IH]; [reflexivity|]; cbn [filter]; destruct (0 <? _); cbn [length]; lia).
  assert (L : length (keys m) = length m) by (apply map_length). lia.
Qed.

(** ** The levels of a graph whose numbers are in order *)
Record ranked (m : dag) (lev : Z -> nat) : Prop := {
  rk_sorted : sorted m;
  rk_keys : forall k, In k (keys m) -> exists t, k = kV t;
  rk_edge : forall k x, In x (dg_outs (dget m k)) -> exists a t, k = kV a /\ x = kV t /\ In x (keys m) /\ In k (keys m) /\ (lev a < lev t)%nat /\ a < t;
  rk_pred : forall t, In (kV t) (keys m) -> lev t = 0%nat \/ exists a, In (kV t) (dg_outs (dget m (kV a))) /\ lev t = S (lev a) }.
Definition under (m : dag) (lev : Z -> nat) (lvl : key -> Z) : Prop := (forall k, 0 <= lvl k) /\ forall t, In (kV t) (keys m) -> lvl (kV t) <= Z.of_nat (lev t).
Lemma visit_levels : forall m lev cur s, ranked m lev -> In cur (keys m) -> under m lev (ls_lvl s) ->
  let s' := visit m cur s in under m lev (ls_lvl s') /\ (forall k, ls_lvl s k <= ls_lvl s' k) /\
  (forall x, In x (dg_outs (dget m cur)) -> ls_lvl s cur + 1 <= ls_lvl s' x) /\ ls_max s' = Z.max (ls_max s) (ls_lvl s cur) /\
  exists r, ls_q s' = ls_q s ++ r /\ forall k, In k r -> In k (keys m).
Proof.
  intros m lev cur s RK Hc U. cbv zeta. unfold visit. cbv zeta. set (mx := Z.max (ls_max s) (ls_lvl s cur)).
  assert (G : forall l s1, (forall x, In x l -> In x (dg_outs (dget m cur))) -> under m lev (ls_lvl s1) -> let s' := fold_left (fun s x => visit_out cur x s) l s1 in
     under m lev (ls_lvl s') /\ (forall k, ls_lvl s1 k <= ls_lvl s' k) /\ (forall x, In x l -> ls_lvl s1 cur + 1 <= ls_lvl s' x) /\ ls_max s' = ls_max s1 /\
     exists r, ls_q s' = ls_q s1 ++ r /\ forall k, In k r -> In k (keys m)).
  { induction l as [|x l IH]; intros s1 Hl U1; cbv zeta; cbn [fold_left].
    - split; [exact U1|]. split; [intro; lia|]. split; [intros x []|]. split; [reflexivity|]. exists []. split; [symmetry; apply app_nil_r|intros k []].
    - pose proof (Hl x ltac:(left; reflexivity)) as Hx. destruct (rk_edge _ _ RK _ _ Hx) as (a & t & -> & -> & Kx & Kc & L1 & L2). destruct U1 as [U0 U1].
      assert (NC : kV a <> kV t) by (intro Q; apply kV_inj in Q; lia).
      assert (U2 : under m lev (ls_lvl (visit_out (kV a) (kV t) s1))).
      { unfold visit_out. cbn [ls_lvl]. split; [intro k; unfold fset; destruct (key_eqb k (kV t)); [pose proof (U0 (kV t)); lia|apply U0]|].
        intros t' Ht'. destruct (Z.eq_dec t' t) as [->|N]; [rewrite fset_same; pose proof (U1 a Kc); pose proof (U1 t Kx); lia|]. rewrite fset_other by (intro Q; apply N, kV_inj, Q). apply U1, Ht'. }
      destruct (IH (visit_out (kV a) (kV t) s1) ltac:(intros y Hy; apply Hl; right; exact Hy) U2) as (A & B & C & D & r & E & F).
      assert (MO : forall k, ls_lvl s1 k <= ls_lvl (visit_out (kV a) (kV t) s1) k).
      { intro k. unfold visit_out. cbn [ls_lvl]. unfold fset. destruct (key_eqb_spec k (kV t)) as [->|]; lia. }
      assert (SC : ls_lvl (visit_out (kV a) (kV t) s1) (kV a) = ls_lvl s1 (kV a)) by (unfold visit_out; cbn [ls_lvl]; apply fset_other, NC).
      split; [exact A|]. split; [intro k; specialize (B k); specialize (MO k); lia|]. split; [|split; [exact D|]].
      + intros y [<-|Hy].
        * specialize (B (kV t)). unfold visit_out in B at 1. cbn [ls_lvl] in B. rewrite fset_same in B. lia.
        * specialize (C y Hy). rewrite SC in C. exact C.
      + assert (EV : exists r0, ls_q (visit_out (kV a) (kV t) s1) = ls_q s1 ++ r0 /\ forall k, In k r0 -> k = kV t).
        { unfold visit_out. cbn [ls_q]. destruct (_ =? 0); [exists [kV t]; split; [reflexivity|intros k [<-|[]]; reflexivity]|exists []; split; [symmetry; apply app_nil_r|intros k []]]. }
        destruct EV as (r0 & E0 & E1). exists (r0 ++ r). split; [rewrite E, E0, <- app_assoc; reflexivity|]. intros k Hk. apply in_app_iff in Hk. destruct Hk as [Hk|Hk]; [rewrite (E1 k Hk); exact Kx|apply F, Hk]. }
  exact (G (dg_outs (dget m cur)) (LS (ls_q s) (ls_deg s) (ls_lvl s) mx) (fun x H => H) U).
Qed.
(** Part [m1] of the map has been visited. *)
Definition walked (m : dag) (lev : Z -> nat) (s : lstate) : Prop := exists m1 m2 r, m = m1 ++ m2 /\ ls_q s = keys m2 ++ r /\ (forall k, In k r -> In k (keys m)) /\
  under m lev (ls_lvl s) /\ (forall a x, In (kV a) (keys m1) -> In x (dg_outs (dget m (kV a))) -> Z.of_nat (lev a) + 1 <= ls_lvl s x) /\
  (forall a, In (kV a) (keys m1) -> Z.of_nat (lev a) <= ls_max s).
Lemma walk_step : forall m lev s cur q, ranked m lev -> walked m lev s -> ls_q s = cur :: q -> walked m lev (visit m cur (LS q (ls_deg s) (ls_lvl s) (ls_max s))).
Proof.
  intros m lev s cur q RK (m1 & m2 & r & EM & EQ & Hr & U & HL & HX) Q. rewrite EQ in Q.
  assert (Hc : In cur (keys m)).
  { assert (Hin : In cur (keys m2 ++ r)) by (rewrite Q; left; reflexivity). apply in_app_iff in Hin. destruct Hin as [Hin|Hin]; [rewrite EM; unfold keys; rewrite map_app; apply in_app_iff; right; exact Hin|apply Hr, Hin]. }
  destruct (visit_levels m lev cur (LS q (ls_deg s) (ls_lvl s) (ls_max s)) RK Hc U) as (A & B & C & D & r' & E & F). cbn [ls_q ls_lvl ls_max] in *.
  destruct m2 as [|[k g] m2].
  - exists m1, [], (q ++ r'). split; [exact EM|]. split; [exact E|]. split; [|split; [exact A|split]].
    + intros k Hk. apply in_app_iff in Hk. destruct Hk as [Hk|Hk]; [apply Hr; cbn [keys map app] in Q; rewrite Q; right; exact Hk|apply F, Hk].
    + intros a x Ha Hx. specialize (HL a x Ha Hx). specialize (B x). lia.
    + intros a Ha. specialize (HX a Ha). lia.
  - cbn [keys map app fst] in Q. injection Q as -> Q. fold (keys m2) in Q. subst q. destruct (rk_keys _ _ RK _ Hc) as (t & ->).
    assert (LT : Z.of_nat (lev t) <= ls_lvl s (kV t)).
    { destruct (rk_pred _ _ RK t Hc) as [->|(a & Ha & ->)]; [apply (proj1 U)|]. destruct (rk_edge _ _ RK _ _ Ha) as (a' & t' & Q1 & Q2 & _ & Ka & _ & L2). apply kV_inj in Q1, Q2. subst a' t'.
      assert (Ka1 : In (kV a) (keys m1)).
      { pose proof (rk_sorted _ _ RK) as SO. rewrite EM in SO, Ka. destruct (sorted_split _ _ _ _ SO) as [_ SS]. unfold keys in Ka. rewrite map_app in Ka. apply in_app_iff in Ka. destruct Ka as [Ka|[Ka|Ka]]; [exact Ka| |]; exfalso.
        - apply kV_inj in Ka. lia.
        - specialize (SS _ Ka). unfold key_lt, kV in SS. cbn [fst snd] in SS. lia. }
      specialize (HL a (kV t) Ka1 Ha). lia. }
    exists (m1 ++ [(kV t, g)]), m2, (r ++ r'). split; [rewrite EM, <- app_assoc; reflexivity|]. split; [rewrite E, app_assoc; reflexivity|]. split; [|split; [exact A|split]].
    + intros k Hk. apply in_app_iff in Hk. destruct Hk as [Hk|Hk]; [apply Hr, Hk|apply F, Hk].
    + intros a x Ha Hx. unfold keys in Ha. rewrite map_app in Ha. apply in_app_iff in Ha. destruct Ha as [Ha|[Ha|[]]]; [specialize (HL a x Ha Hx); specialize (B x); lia|].
      cbn [fst] in Ha. apply kV_inj in Ha. subst a. specialize (C x Hx). lia.
    + intros a Ha. unfold keys in Ha. rewrite map_app in Ha. apply in_app_iff in Ha. destruct Ha as [Ha|[Ha|[]]]; [specialize (HX a Ha); lia|]. cbn [fst] in Ha. apply kV_inj in Ha. subst a. lia.
Qed.
Lemma walk_end : forall m lev, ranked m lev -> forall fuel s s', walked m lev s -> bfs fuel m s = Ok s' -> walked m lev s' /\ ls_q s' = [].
Proof.
  intros m lev RK. induction fuel as [|f IH]; intros s s' W E; cbn [bfs] in E; destruct (ls_q s) as [|cur q] eqn:Q; try discriminate.
  - injection E as <-. split; assumption.
  - injection E as <-. split; assumption.
  - apply IH in E; [exact E|]. apply walk_step; assumption.
Qed.
Lemma ranked_levels : forall m lev s, ranked m lev -> levels m = Ok s ->
  (forall t, In (kV t) (keys m) -> ls_lvl s (kV t) = Z.of_nat (lev t) /\ Z.of_nat (lev t) <= ls_max s).
Proof.
  intros m lev s RK E t Ht. unfold levels in E. cbv zeta in E. apply bind_inv in E. destruct E as (? & _ & E). apply (walk_end m lev RK) in E.
  - destruct E as [(m1 & m2 & r & EM & EQ & _ & U & HL & HX) Q]. rewrite Q in EQ. destruct m2 as [|e m2]; [|discriminate EQ]. rewrite app_nil_r in EM. subst m1. split; [|apply HX, Ht].
    apply Z.le_antisymm; [apply U, Ht|]. destruct (rk_pred _ _ RK t Ht) as [->|(a & Ha & ->)]; [apply (proj1 U)|]. destruct (rk_edge _ _ RK _ _ Ha) as (a' & t' & Q1 & Q2 & _ & Ka & _). apply kV_inj in Q1, Q2. subst a' t'.
    specialize (HL a (kV t) Ka Ha). lia.
  - exists [], m, []. cbn [ls_q ls_lvl ls_max]. split; [reflexivity|]. split; [symmetry; apply app_nil_r|]. split; [intros k []|]. split; [split; intros; lia|]. split; intros a; intros; contradiction.
Qed.

(** ** Programs in order *)
Lemma order_keys : forall p m ic lev, prog_ok p -> ordered p -> regular p lev -> read_prog p = Ok (m, ic) -> forall k, In k (keys m) -> exists t, k = kV t /\ In t (targets p).
Proof.
  intros p m ic lev [ND PO] OR RG E. unfold read_prog in E.
  apply (each_inv _ _ _ (fun l st => forall k, In k (keys (fst st)) -> exists t, k = kV t /\ In t (targets l)) _ _ _ E); [intros k []|].
  intros l1 s l2 [m1 ic1] [m2 ic2] El IH Es. cbn [fst] in *. destruct (OR l1 s l2 El) as [O1 O2]. assert (Hs : In s p) by (rewrite El; apply in_app_iff; right; left; reflexivity).
  intros k Hk. rewrite targets_app. destruct (target_nil s) as [Ht|(t & Ht)].
  - pose proof (RG s Hs) as R1. destruct s as [o t a b|t a b|t i|o a|]; try discriminate Ht; [|contradiction]. unfold is_int in R1. cbn [read_stmt] in Es.
    apply bind_inv in Es. destruct Es as (o1 & _ & Es). apply bind_inv in Es. destruct Es as (a1 & E1 & Es). apply read_ll_inv in E1. destruct E1 as [-> _]. injection Es as <- <-.
    rewrite cast_int_id in Hk by lia. apply keys_mset in Hk. destruct Hk as [->|Hk].
    + exists a. split; [reflexivity|]. apply in_app_iff. left. apply (O2 o a eq_refl).
    + destruct (IH k Hk) as (t & -> & Ht'). exists t. split; [reflexivity|]. apply in_app_iff. left. exact Ht'.
  - pose proof (read_after s t m1 ic1 m2 ic2 Ht (PO s Hs) Es) as [_ B _ _ _]. apply B in Hk. destruct Hk as [->|[Hk|(a & -> & Ha)]].
    + exists t. split; [reflexivity|]. apply in_app_iff. right. cbn [targets flat_map]. rewrite Ht. left. reflexivity.
    + destruct (IH k Hk) as (t' & -> & Ht'). exists t'. split; [reflexivity|]. apply in_app_iff. left. exact Ht'.
    + exists a. split; [reflexivity|]. apply in_app_iff. left. apply (O1 a Ha).
Qed.
Lemma target_stmt : forall p t, In t (targets p) -> exists s, In s p /\ target s = [t].
Proof.
  intros p t H. unfold targets in H. apply in_flat_map in H. destruct H as (s & Hs & Ht). exists s. split; [exact Hs|]. destruct (target_nil s) as [Q|(t' & Q)]; rewrite Q in Ht; [destruct Ht|]. destruct Ht as [<-|[]]. exact Q.
Qed.
Lemma order_uses : forall p s a, ordered p -> In s p -> uses s a -> In a (targets p) /\ forall t, target s = [t] -> a < t.
Proof.
  intros p s a OR Hs Hu. apply in_split in Hs. destruct Hs as (p1 & p2 & ->). destruct (OR p1 s p2 eq_refl) as [Q _]. destruct (Q a Hu) as [Q1 Q2]. split; [|exact Q2]. rewrite targets_app. apply in_app_iff. left. exact Q1.
Qed.
Lemma order_ranked : forall p m ic lev, prog_ok p -> ordered p -> levels_of p lev -> regular p lev -> read_prog p = Ok (m, ic) -> read_inv p m -> outs_inv p m -> ranked m lev.
Proof.
  intros p m ic lev PO OR LV RG E RI OI. pose proof (order_keys p m ic lev PO OR RG E) as KS. pose proof RI as [S K D U O R]. constructor.
  - exact S.
  - exact K.
  - intros k x Hx. apply OI in Hx. destruct Hx as (s & a & t & -> & -> & Hs & Ht & Hu). exists a, t. split; [reflexivity|]. split; [reflexivity|]. split; [apply (D s t Hs Ht)|]. split; [apply (R s a Hs Hu)|].
    split; [apply (LV s t Hs Ht), Hu|]. apply (order_uses p s a OR Hs Hu), Ht.
  - intros t Ht. destruct (KS _ Ht) as (t' & Q & Hin). apply kV_inj in Q. subst t'. destruct (target_stmt p t Hin) as (s & Hs & Hts). destruct (LV s t Hs Hts) as [_ [L|(a & Ha & L)]]; [left; exact L|]. right. exists a. split; [|exact L].
    apply OI. exists s, a, t. split; [reflexivity|]. split; [reflexivity|]. split; [exact Hs|]. split; assumption.
Qed.
(** Operands of a statement that is no input. *)
Lemma stmt_uses : forall s t, target s = [t] -> (exists i, s = SIn t i) \/ (exists o a b, s = Op o t a b) \/ exists a b, s = Sum t a b.
Proof. intros [o t' a b|t' a b|t' i|o a|] t H; try discriminate H; injection H as ->; [right; left; eauto|right; right; eauto|left; eauto]. Qed.
Lemma order_levels : forall p m ic lev, prog_ok p -> ordered p -> levels_of p lev -> regular p lev -> read_prog p = Ok (m, ic) -> read_inv p m -> outs_inv p m ->
  exists s, levels m = Ok s /\ (forall t, In t (targets p) -> ls_lvl s (kV t) = Z.of_nat (lev t) /\ Z.of_nat (lev t) <= ls_max s) /\
  (ls_max s = -1 \/ exists t, In t (targets p) /\ ls_max s = Z.of_nat (lev t)).
Proof.
  intros p m ic lev PO OR LV RG E RI OI. pose proof (order_keys p m ic lev PO OR RG E) as KS. pose proof (order_ranked p m ic lev PO OR LV RG E RI OI) as RK. pose proof RI as [S K D U O R].
  assert (CS : check_sources m (in_degrees m) = Ok tt).
  { unfold check_sources. destruct (each_ok _ _ (fun e (_ : unit) => assert_ (negb (in_degrees m (fst e) =? 0) || (dg_ty (snd e) =? 3))) (fun _ _ => True) m tt I) as ([] & Q & _); [|exact Q].
    intros l1 [k g] l2 [] El _. cbn [fst snd]. apply returns_assert. 2: exact I.
    assert (Hin : In (k, g) m) by (rewrite El; apply in_app_iff; right; left; reflexivity). assert (Hk : In k (keys m)) by (apply in_map_iff; exists (k, g); split; [reflexivity|exact Hin]).
    pose proof (mget_in _ dg_zero _ _ _ (sorted_nodup _ _ S) Hin) as EG. fold (dget m k) in EG. destruct (KS k Hk) as (t & -> & Ht). destruct (target_stmt p t Ht) as (s & Hs & Hts).
    destruct (D s t Hs Hts) as [_ D2]. injection D2 as _ D2. apply (f_equal (fun x => fst (fst x))) in D2. cbn [fst] in D2. rewrite EG in D2.
    assert (HU : (exists a, uses s a) -> negb (in_degrees m (kV t) =? 0) = true).
    { intros (a & Ha). apply negb_true_iff, Z.eqb_neq. rewrite in_degrees_occ. apply occ_in. unfold edges. apply in_flat_map. exists (kV a, dget m (kV a)). split; [apply in_mget, (R s a Hs Ha)|]. cbn [snd].
      apply OI. exists s, a, t. split; [reflexivity|]. split; [reflexivity|]. split; [exact Hs|]. split; assumption. }
    destruct (stmt_uses s t Hts) as [(i & ->)|[(o & a & b & ->)|(a & b & ->)]].
    - cbn [stmt_gate fst] in D2. rewrite D2. apply orb_true_r.
    - rewrite HU by (exists a; left; reflexivity). reflexivity.
    - rewrite HU; [reflexivity|]. exists a. cbn. destruct (RG _ Hs) as (_ & Q & _). lia. }
  assert (EL : exists s, levels m = Ok s).
  { destruct (levels_total p m RI) as [Q|Q]; [exact Q|]. exfalso. unfold levels in Q. cbv zeta in Q. rewrite CS in Q. cbn [bind] in Q. clear - Q. revert Q. generalize (LS (map fst m) (in_degrees m) (fun _ => 0) (-1)). generalize (2 * length m)%nat.
    induction n as [|n IH]; intros s Q; cbn [bfs] in Q; destruct (ls_q s); try discriminate Q. exact (IH _ Q). }
  destruct EL as (s & EL). exists s. split; [exact EL|]. pose proof (ranked_levels m lev s RK EL) as RL. split.
  - intros t Ht. apply RL. destruct (target_stmt p t Ht) as (st & Hs & Hts). apply (D st t Hs Hts).
  - destruct (levels_inv p m s RI EL) as [_ _ [B|(k & Hk & B)]]; [left; exact B|]. right. destruct (KS k Hk) as (t & -> & Ht). exists t. split; [exact Ht|]. destruct (RL t Hk). lia.
Qed.
