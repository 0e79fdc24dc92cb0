(** * The compiler finishes on programs in order *)
From Coq Require Import ZArith List Bool Arith Lia Sorted.
From Verif Require Import Base Fp Loader SpecLoader LoaderProofs ZkEval Program SpecCompiler Compiler CompilerMaps CompilerRead CompilerLevels CompilerLayers CompilerShape CompilerOrder.
Import ListNotations.
Open Scope Z_scope.

(** ** Relays *)
(** Not a relay still to be made. *)
Definition old (s : rstate) (k : key) : Prop := forall c, k = kR c -> c < rs_cnt s.
Record tight (B : Z) (s : rstate) : Prop := {
  tg_cnt : 0 <= rs_cnt s;
  tg_relay : forall c, 0 <= c < rs_cnt s -> dg_ty (dget (rs_m s) (kR c)) = 10 /\ rs_lvl s (dg_in0 (dget (rs_m s) (kR c))) + 1 = rs_lvl s (kR c) /\
     old s (dg_in0 (dget (rs_m s) (kR c))) /\ 0 <= rs_lvl s (kR c) <= B }.
Lemma old_var : forall s t, old s (kV t).
Proof. intros s t c Q. discriminate Q. Qed.
Lemma relays_total : forall B n i pre s, tight B s -> old s pre -> rs_lvl s pre + 1 = i -> 0 <= i -> i + Z.of_nat n <= B + 1 -> rs_cnt s + Z.of_nat n < 2 ^ 31 ->
  exists pre' s', relays n i pre s = Ok (pre', s') /\ tight B s' /\ old s' pre' /\ rs_lvl s' pre' + 1 = i + Z.of_nat n /\ rs_cnt s' = rs_cnt s + Z.of_nat n /\
  forall k, old s k -> rs_lvl s' k = rs_lvl s k /\ dget (rs_m s') k = dget (rs_m s) k.
Proof.
  intro B. induction n as [|n IH]; intros i pre s T Hp Hl Hi Hb Hc; cbn [relays]; cbv zeta.
  - exists pre, s. split; [reflexivity|]. split; [exact T|]. split; [exact Hp|]. split; [lia|]. split; [lia|]. intros; split; reflexivity.
  - pose proof T as [T0 T1]. rewrite int_op_ok by lia. cbn [bind]. set (c := rs_cnt s) in *. set (g := DG (kR c) 10 pre (kN 0) []). set (s1 := RS (mset (rs_m s) (kR c) g) (fset (rs_lvl s) (kR c) i) (c + 1)).
    assert (ON : forall k, old s k -> k <> kR c) by (intros k Ho Q; specialize (Ho c Q); unfold c in *; lia).
    assert (KP : forall k, old s k -> rs_lvl s1 k = rs_lvl s k /\ dget (rs_m s1) k = dget (rs_m s) k).
    { intros k Ho. specialize (ON k Ho). unfold s1. cbn [rs_lvl rs_m]. split; [apply fset_other, ON|]. unfold dget. apply mget_other, ON. }
    assert (OO : forall k, old s k -> old s1 k) by (intros k Ho c' Q; specialize (Ho c' Q); unfold s1; cbn [rs_cnt]; fold c in Ho; lia).
    destruct (IH (i + 1) (kR c) s1) as (pre' & s' & E & A1 & A2 & A3 & A4 & A5).
    + constructor; [unfold s1; cbn [rs_cnt]; lia|]. intros c1 Hc1. unfold s1 in Hc1. cbn [rs_cnt] in Hc1. destruct (Z.eq_dec c1 c) as [->|N].
      * assert (G : dget (rs_m s1) (kR c) = g) by (unfold s1, dget; cbn [rs_m]; apply mget_same). rewrite G. cbn [g dg_ty dg_in0]. split; [reflexivity|]. destruct (KP pre Hp) as [-> _].
        assert (L : rs_lvl s1 (kR c) = i) by (unfold s1; cbn [rs_lvl]; apply fset_same). rewrite L. split; [exact Hl|]. split; [apply OO, Hp|lia].
      * assert (Oc : old s (kR c1)) by (intros c2 Q; injection Q as <-; fold c; lia). destruct (KP _ Oc) as [-> ->]. destruct (T1 c1 ltac:(lia)) as (R1 & R2 & R3 & R4). destruct (KP _ R3) as [-> _].
        split; [exact R1|]. split; [exact R2|]. split; [apply OO, R3|exact R4].
    + intros c2 Q. injection Q as <-. unfold s1. cbn [rs_cnt]. lia.
    + unfold s1. cbn [rs_lvl]. rewrite fset_same. reflexivity.
    + lia.
    + lia.
    + unfold s1. cbn [rs_cnt]. lia.
    + exists pre', s'. split; [exact E|]. split; [exact A1|]. split; [exact A2|]. split; [lia|]. split; [rewrite A4; unfold s1; cbn [rs_cnt]; lia|].
      intros k Ho. destruct (A5 k (OO k Ho)) as [-> ->]. apply KP, Ho.
Qed.
Definition in_ (right : bool) (g : dgate) : key := if right then dg_in1 g else dg_in0 g.
Lemma add_total : forall B m t a (right : bool) s, tight B s -> dg_id (dget m (kV t)) = kV t -> dg_id (dget m (kV a)) = kV a ->
  0 <= rs_lvl s (kV a) < rs_lvl s (kV t) -> rs_lvl s (kV t) <= B -> let n := rs_lvl s (kV t) - rs_lvl s (kV a) - 1 in rs_cnt s + n < 2 ^ 31 ->
  in_ right (dget (rs_m s) (kV t)) = kV a ->
  exists s', add_relay m (kV t) (kV a) right s = Ok s' /\ tight B s' /\ rs_cnt s' = rs_cnt s + n /\
  (forall k, old s k -> rs_lvl s' k = rs_lvl s k /\ (k <> kV t -> dget (rs_m s') k = dget (rs_m s) k)) /\
  let g := dget (rs_m s) (kV t) in let g' := dget (rs_m s') (kV t) in dg_ty g' = dg_ty g /\ in_ (negb right) g' = in_ (negb right) g /\
  old s' (in_ right g') /\ rs_lvl s' (in_ right g') + 1 = rs_lvl s' (kV t).
Proof.
  intros B m t a right s T It Ia Ha Ht n Hc Hin. unfold add_relay. destruct (Z.eqb_spec (rs_lvl s (kV t)) (rs_lvl s (kV a) + 1)) as [Q|Q].
  - exists s. split; [reflexivity|]. split; [exact T|]. split; [unfold n; lia|]. split; [intros; split; [reflexivity|intros _; reflexivity]|]. cbv zeta. split; [reflexivity|]. split; [reflexivity|]. rewrite Hin. split; [apply old_var|lia].
  - rewrite Ia, It. destruct (relays_total B (Z.to_nat (rs_lvl s (kV t) - (rs_lvl s (kV a) + 1))) (rs_lvl s (kV a) + 1) (kV a) s T (old_var s a) eq_refl) as (pre & s1 & E & A1 & A2 & A3 & A4 & A5); [lia|lia|lia|].
    rewrite E. cbn [bind]. eexists. split; [reflexivity|]. set (m1 := if right then set_in1 (rs_m s1) (kV t) pre else set_in0 (rs_m s1) (kV t) pre).
    assert (GO : forall k, k <> kV t -> dget m1 k = dget (rs_m s1) k).
    { intros k N. unfold m1. destruct right; unfold set_in0, set_in1, dget at 1; cbv zeta; rewrite mget_other by exact N; reflexivity. }
    assert (GT : dget m1 (kV t) = let g := dget (rs_m s1) (kV t) in
       if right then DG (dg_id g) (dg_ty g) (dg_in0 g) pre (dg_outs g) else DG (dg_id g) (dg_ty g) pre (dg_in1 g) (dg_outs g)).
    { unfold m1. destruct right; unfold set_in0, set_in1, dget at 1; cbv zeta; rewrite mget_same; reflexivity. }
    destruct (A5 _ (old_var s t)) as [L1 G1]. split; [|split; [|split]].
    + destruct A1 as [T0 T1]. constructor; cbn [rs_cnt rs_m rs_lvl]; [exact T0|]. intros c Hc1. rewrite GO by discriminate. exact (T1 c Hc1).
    + cbn [rs_cnt]. rewrite A4. unfold n. lia.
    + intros k Ho. cbn [rs_m rs_lvl]. destruct (A5 k Ho) as [L2 G2]. split; [exact L2|]. intro N. rewrite GO by exact N. exact G2.
    + cbv zeta. cbn [rs_m rs_lvl rs_cnt]. rewrite GT, G1. cbv zeta. rewrite L1. destruct right; cbn [in_ negb dg_ty dg_in0 dg_in1]; (split; [reflexivity|]); (split; [reflexivity|]); (split; [exact A2|lia]).
Qed.
Definition fine (s : rstate) (k : key) : Prop := let g := dget (rs_m s) k in old s (dg_in0 g) /\ old s (dg_in1 g) /\ emit_facts (rs_lvl s) (k, g).
Definition keeps (t : Z) (s s' : rstate) : Prop := rs_cnt s <= rs_cnt s' /\ forall k, old s k -> rs_lvl s' k = rs_lvl s k /\ (k <> kV t -> dget (rs_m s') k = dget (rs_m s) k).
Lemma keeps_refl : forall t s, keeps t s s.
Proof. intros t s. split; [lia|]. intros; split; [reflexivity|intros _; reflexivity]. Qed.
Lemma keeps_old : forall t s s' k, keeps t s s' -> old s k -> old s' k.
Proof. intros t s s' k [C _] Ho c Q. specialize (Ho c Q). lia. Qed.
Lemma keeps_trans : forall t s1 s2 s3, keeps t s1 s2 -> keeps t s2 s3 -> keeps t s1 s3.
Proof.
  intros t s1 s2 s3 K1 K2. destruct K1 as [C1 K1], K2 as [C2 K2]. split; [lia|]. intros k Ho. destruct (K1 k Ho) as [L1 G1]. destruct (K2 k ltac:(apply keeps_old with (t := t) (s := s1); [split; assumption|exact Ho])) as [L2 G2].
  split; [congruence|]. intro N. rewrite (G2 N). apply G1, N.
Qed.
Lemma keeps_fine : forall t s s' k, keeps t s s' -> old s k -> k <> kV t -> fine s k -> fine s' k.
Proof.
  intros t s s' k K Ho N (F1 & F2 & F3 & F4). pose proof (fun x => keeps_old t s s' x K) as KO. destruct K as [C K]. destruct (K k Ho) as [L G]. unfold fine. cbv zeta. rewrite (G N).
  split; [apply KO, F1|]. split; [apply KO, F2|]. unfold emit_facts in *. cbn [fst snd] in *. destruct (K _ F1) as [-> _]. destruct (K _ F2) as [-> _]. rewrite L. split; assumption.
Qed.
Section Insert.
Variables (p : list stmt) (m : dag) (lev : Z -> nat) (lvl : key -> Z) (B : Z) (G : Z -> nat).
Hypothesis RI : read_inv p m.
Hypothesis LV : levels_of p lev.
Hypothesis RG : regular p lev.
Hypothesis OR : ordered p.
Hypothesis KS : forall k, In k (keys m) -> exists t, k = kV t /\ In t (targets p).
Hypothesis EV : forall t, In t (targets p) -> lvl (kV t) = Z.of_nat (lev t) /\ Z.of_nat (lev t) <= B.
Hypothesis EG : forall s t, In s p -> target s = [t] -> G t = gaps lev s.
Let weight (l : dag) : Z := Z.of_nat (list_sum (map (fun e : key * dgate => G (snd (fst e))) l)).
Hypothesis SZ : weight m < 2 ^ 31.

Lemma weight_snoc : forall l e, weight (l ++ [e]) = weight l + Z.of_nat (G (snd (fst e))).
Proof. intros l e. unfold weight. rewrite map_app, list_sum_app. cbn [map]. unfold list_sum at 2. cbn [fold_right]. rewrite Nat.add_0_r, Nat2Z.inj_add. reflexivity. Qed.
Lemma weight_prefix : forall l1 e l2, m = l1 ++ e :: l2 -> weight l1 + Z.of_nat (G (snd (fst e))) < 2 ^ 31.
Proof.
  intros l1 e l2 E. rewrite E in SZ. unfold weight in *. rewrite map_app, list_sum_app in SZ. cbn [map] in SZ. change (list_sum (?x :: ?l)) with (x + list_sum l)%nat in SZ. lia.
Qed.
Definition sofar (l : dag) (s : rstate) : Prop := tight B s /\ rs_cnt s <= weight l /\ (forall t, rs_lvl s (kV t) = lvl (kV t)) /\
  (forall k, In k (keys m) -> ~ In k (keys l) -> dget (rs_m s) k = dget m k) /\ forall k, In k (keys l) -> fine s k.
Lemma insert_step : forall l1 e l2 s, m = l1 ++ e :: l2 -> sofar l1 s -> returns (relay_gate m e s) (sofar (l1 ++ [e])).
Proof.
  intros l1 [k g] l2 s Em (T & C & L & U & F). pose proof RI as [S K D _ _ R].
  assert (Hin : In (k, g) m) by (rewrite Em; apply in_app_iff; right; left; reflexivity). assert (Hk : In k (keys m)) by (apply in_map_iff; exists (k, g); split; [reflexivity|exact Hin]).
  pose proof (mget_in _ dg_zero _ _ _ (sorted_nodup _ _ S) Hin) as Hg. fold (dget m k) in Hg. destruct (KS k Hk) as (t & -> & Ht). destruct (target_stmt p t Ht) as (st & Hst & Htg).
  destruct (D st t Hst Htg) as [_ D2]. rewrite Hg in D2. injection D2 as _ D2.
  assert (ID : forall x, In x (targets p) -> dg_id (dget m (kV x)) = kV x).
  { intros x Hx. destruct (target_stmt p x Hx) as (sx & Hsx & Htx). destruct (D sx x Hsx Htx) as [_ Dx]. injection Dx as Dx _. exact Dx. }
  assert (NI : ~ In (kV t) (keys l1)).
  { pose proof (sorted_nodup _ _ S) as ND. rewrite Em in ND. unfold keys in ND. rewrite map_app in ND. cbn [map fst] in ND. apply NoDup_remove_2 in ND. intro Q. apply ND. apply in_app_iff. left. exact Q. }
  pose proof (U _ Hk NI) as Gt. rewrite Hg in Gt. pose proof (weight_prefix _ _ _ Em) as WB. cbn [fst snd kV] in WB. rewrite (EG st t Hst Htg) in WB.
  assert (KL : forall k', In k' (keys l1) -> In k' (keys m) /\ k' <> kV t).
  { intros k' Hk'. split; [rewrite Em; unfold keys; rewrite map_app; apply in_app_iff; left; exact Hk'|]. intros ->. contradiction. }
  assert (FIN : forall s', tight B s' -> keeps t s s' -> rs_cnt s' <= rs_cnt s + Z.of_nat (gaps lev st) -> fine s' (kV t) -> sofar (l1 ++ [(kV t, g)]) s').
  { intros s' T' KK C' F'. pose proof KK as [_ K2]. split; [exact T'|]. split; [rewrite weight_snoc; cbn [fst snd kV]; rewrite (EG st t Hst Htg); lia|]. split; [intro x; destruct (K2 _ (old_var s x)) as [-> _]; apply L|]. split.
    - intros k' Hk' N. unfold keys in N. rewrite map_app in N. rewrite in_app_iff in N. cbn [map fst In] in N. destruct (KS k' Hk') as (x & -> & _). destruct (K2 _ (old_var s x)) as [_ ->]; [|intro Q; apply N; right; left; symmetry; exact Q].
      apply U; [exact Hk'|]. intro Q. apply N. left. exact Q.
    - intros k' Hk'. unfold keys in Hk'. rewrite map_app in Hk'. apply in_app_iff in Hk'. destruct Hk' as [Hk'|[<-|[]]]; [|exact F'].
      destruct (KL k' Hk') as [K1 K3]. destruct (KS k' K1) as (x & -> & _). apply (keeps_fine t s s' (kV x) KK (old_var s x) K3). apply F, Hk'. }
  assert (LT : rs_lvl s (kV t) = Z.of_nat (lev t) /\ Z.of_nat (lev t) <= B) by (rewrite L; apply EV, Ht).
  assert (OP : forall a, uses st a -> In a (targets p) /\ rs_lvl s (kV a) = Z.of_nat (lev a) /\ (lev a < lev t)%nat).
  { intros a Ha. destruct (order_uses p st a OR Hst Ha) as [Q1 _]. split; [exact Q1|]. split; [rewrite L; apply EV, Q1|]. apply (LV st t Hst Htg), Ha. }
  assert (ADD : forall a right u, tight B u -> keeps t s u -> uses st a -> rs_cnt u + Z.of_nat (lev t - lev a - 1) < 2 ^ 31 -> in_ right (dget (rs_m u) (kV t)) = kV a ->
     exists u', add_relay m (kV t) (kV a) right u = Ok u' /\ tight B u' /\ keeps t u u' /\ rs_cnt u' = rs_cnt u + Z.of_nat (lev t - lev a - 1) /\
     dg_ty (dget (rs_m u') (kV t)) = dg_ty (dget (rs_m u) (kV t)) /\ in_ (negb right) (dget (rs_m u') (kV t)) = in_ (negb right) (dget (rs_m u) (kV t)) /\
     old u' (in_ right (dget (rs_m u') (kV t))) /\ rs_lvl u' (in_ right (dget (rs_m u') (kV t))) + 1 = rs_lvl u' (kV t)).
  { intros a right u Tu [Cu Ku] Ha Bu Hq. destruct (OP a Ha) as (Ta & La & LL). destruct (Ku _ (old_var s t)) as [Lt _]. destruct (Ku _ (old_var s a)) as [La' _]. rewrite (proj1 LT) in Lt. rewrite La in La'.
    destruct (add_total B m t a right u Tu (ID t Ht) (ID a Ta)) as (u' & E & A1 & A2 & A3 & A4); [lia|lia|rewrite Lt, La'; lia|exact Hq|]. cbv zeta in A4. destruct A4 as (A4 & A5 & A6 & A7).
    exists u'. split; [exact E|]. split; [exact A1|]. rewrite Lt, La' in A2. split; [split; [lia|exact A3]|]. split; [lia|]. split; [exact A4|]. split; [exact A5|]. split; [exact A6|exact A7]. }
  destruct (stmt_uses st t Htg) as [(i & ->)|[(o & a & b & ->)|(a & b & ->)]]; cbn [stmt_gate] in D2; injection D2 as D0 D1 D2.
  - unfold relay_gate. rewrite D0. destruct (LV _ t Hst Htg) as [_ [Z0|(x & [] & _)]]. destruct LT as [LT _]. rewrite LT, Z0. cbn [bind]. apply returns_ok.
    apply FIN; [exact T|apply keeps_refl|cbn [gaps]; lia|]. unfold fine. cbv zeta. rewrite Gt, D1, D2. split; [intros c Q; discriminate Q|]. split; [intros c Q; discriminate Q|]. unfold emit_facts. cbn [fst snd]. rewrite D0. split; intro; contradiction.
  - destruct (OP a ltac:(left; reflexivity)) as (Ta & La & LLa). destruct (OP b ltac:(right; reflexivity)) as (Tb & Lb & LLb). cbn [gaps] in WB.
    assert (TWO : match o with ONot | OBit => False | _ => True end -> returns (s1 <- add_relay m (kV t) (kV a) false s ;; add_relay m (kV t) (kV b) true s1) (sofar (l1 ++ [(kV t, g)]))).
    { intro Ho. assert (GA : gaps lev (Op o t a b) = ((lev t - lev a - 1) + (lev t - lev b - 1))%nat) by (destruct o; try contradiction; reflexivity). cbn [gaps] in GA. rewrite GA in WB.
      destruct (ADD a false s T (keeps_refl t s) ltac:(left; reflexivity)) as (u & E1 & T1 & K1 & C1 & Y1 & I1 & O1 & V1); [lia|rewrite Gt; exact D1|]. rewrite E1. cbn [bind].
      cbn [in_ negb] in I1, O1, V1. rewrite Gt in I1, Y1. rewrite D2 in I1.
      destruct (ADD b true u T1 K1 ltac:(right; reflexivity)) as (u' & E2 & T2 & K2 & C2 & Y2 & I2 & O2 & V2); [lia|exact I1|]. rewrite E2. apply returns_ok. cbn [in_ negb] in I2, O2, V2.
      apply FIN; [exact T2|exact (keeps_trans _ _ _ _ K1 K2)|cbn [gaps]; rewrite GA; lia|]. unfold fine. cbv zeta. split; [rewrite I2; exact (keeps_old _ _ _ _ K2 O1)|]. split; [exact O2|]. unfold emit_facts. cbn [fst snd]. split.
      - intros _. rewrite I2. destruct K2 as [_ K2]. destruct (K2 _ O1) as [-> _]. destruct (K2 _ (old_var u t)) as [-> _]. exact V1.
      - intros _ _ _. exact V2. }
    assert (ONE : match o with ONot => True | OBit => a = b | _ => False end -> returns (add_relay m (kV t) (kV a) false s) (sofar (l1 ++ [(kV t, g)]))).
    { intro Ho. assert (GA : (lev t - lev a - 1 <= gaps lev (Op o t a b))%nat) by (cbn [gaps]; lia).
      destruct (ADD a false s T (keeps_refl t s) ltac:(left; reflexivity)) as (u & E1 & T1 & K1 & C1 & Y1 & I1 & O1 & V1); [cbn [gaps] in GA; lia|rewrite Gt; exact D1|]. rewrite E1. apply returns_ok.
      cbn [in_ negb] in I1, O1, V1. rewrite Gt in I1, Y1. rewrite D2 in I1. apply FIN; [exact T1|exact K1|lia|]. unfold fine. cbv zeta. split; [exact O1|]. split; [rewrite I1; apply old_var|]. unfold emit_facts. cbn [fst snd]. split.
      - intros _. exact V1.
      - intros _ _ N6. rewrite Y1, D0 in N6. destruct o; try contradiction. rewrite I1. destruct K1 as [_ K1]. destruct (K1 _ (old_var s b)) as [-> _]. destruct (K1 _ (old_var s t)) as [-> _].
        destruct (LV _ t Hst Htg) as [_ [Z0|(x & Hx & Lx)]]; [lia|]. rewrite Lb, (proj1 LT). destruct Hx as [->| ->]; subst; lia. }
    unfold relay_gate. rewrite D0, D1, D2. destruct o; cbn [op_ty]; try (apply TWO; exact I).
    + apply ONE. exact I.
    + assert (a = b) as <- by (apply (RG _ Hst); reflexivity). rewrite key_eqb_refl. cbn [assert_ bind]. apply ONE. reflexivity.
  - destruct (RG _ Hst) as (_ & AB & RL). unfold relay_gate. rewrite D0, D1, D2. cbn [snd kV].
    assert (LI : forall i, a <= i <= b -> rs_lvl s (kV i) + 1 = rs_lvl s (kV t)).
    { intros i Hi. destruct (OP i Hi) as (_ & Li & LLi). rewrite Li, (proj1 LT). destruct (LV _ t Hst Htg) as [_ [Z0|(x & Hx & Lx)]]; [lia|]. cbn [uses] in Hx. rewrite (RL x Hx) in Lx. rewrite (RL i Hi). lia. }
    destruct (returns_forz rstate a (b + 1) (fun i s => assert_ (rs_lvl s (kV i) + 1 =? rs_lvl s (kV t)) ;;; Ok s) (fun _ u => u = s) s ltac:(lia) eq_refl) as (u & E & ->).
    { intros i u Hi ->. rewrite LI by lia. rewrite Z.eqb_refl. cbn [assert_ bind]. apply returns_ok. reflexivity. }
    rewrite E. apply returns_ok. apply FIN; [exact T|apply keeps_refl|cbn [gaps]; lia|]. unfold fine. cbv zeta. rewrite Gt, D1, D2. split; [apply old_var|]. split; [apply old_var|]. unfold emit_facts. cbn [fst snd]. rewrite D1, D2.
    split; intros; apply LI; lia.
Qed.
Lemma insert_total : returns (insert_relays m lvl) (sofar m).
Proof.
  unfold insert_relays. apply each_ok; [|intros l1 e l2 s Em H; apply (insert_step l1 e l2 s Em H)]. split; [constructor; cbn [rs_cnt]; [lia|intros; lia]|]. split; [unfold weight; cbn; lia|]. split; [reflexivity|]. split; [reflexivity|intros k []].
Qed.
End Insert.

(** ** Layers *)
Lemma halve_total : forall fuel c full bits, 0 <= c < 2 ^ Z.of_nat fuel -> 1 <= full -> full * 2 * c < 2 ^ 31 -> exists r, halve fuel c full bits = Ok r.
Proof.
  induction fuel as [|f IH]; intros c full bits Hc Hf Hb; cbn [halve]; destruct (Z.eqb_spec c 0) as [->|N]; try (eexists; reflexivity).
  - change (2 ^ Z.of_nat 0) with 1 in Hc. lia.
  - assert (full * 2 <= full * 2 * c) by nia. rewrite int_op_ok by lia. cbn [bind]. pose proof (Z.div_mod c 2 ltac:(lia)). pose proof (Z.mod_pos_bound c 2 ltac:(lia)).
    rewrite Nat2Z.inj_succ, Z.pow_succ_r in Hc by lia. apply IH; nia.
Qed.
Lemma halve_one_total : forall c, 0 <= c < 2 ^ 30 -> exists full bits, halve 32 c 1 0 = Ok (full, bits) /\ full <= 2 * c + 1.
Proof.
  intros c Hc. destruct (halve_total 32 c 1 0) as ([full bits] & E); [change (2 ^ Z.of_nat 32) with (2 ^ 32); lia|lia|lia|]. exists full, bits. split; [exact E|].
  destruct (Z.eq_dec c 0) as [->|N]; [rewrite halve_zero in E; injection E as <- <-; lia|]. apply halve_one in E; [|lia]. destruct E as (_ & _ & _ & Q). destruct Q; lia.
Qed.
Lemma at_level_length : forall lvl l m, (length (at_level lvl l m) <= length m)%nat.
Proof. intros lvl l m. unfold at_level. induction m as [|e m IH]; [reflexivity|]. cbn [filter]. destruct (_ =? _); cbn [length]; lia. Qed.
Lemma sizes_nth : forall lvl m n i, (i < n)%nat -> nth_error (level_sizes lvl m n) i = Some (Z.of_nat (length (at_level lvl (Z.of_nat i) m))).
Proof. intros. exact (nth_map_seq _ (fun i => Z.of_nat (length (at_level lvl (Z.of_nat i) m))) n i H). Qed.
Lemma layers_total : forall m lvl mx, (forall e, In e m -> 0 <= lvl (fst e) <= mx) -> (forall e, In e m -> emit_facts lvl e) -> Z.of_nat (length m) < 2 ^ 30 ->
  exists L, layers_of m lvl mx = Ok L /\ forall S, In S L -> Z.of_nat (length (sl_gates S)) <= 2 * Z.of_nat (length m) + 1.
Proof.
  intros m lvl mx HL HE HB. unfold layers_of. cbv zeta. set (n := Z.to_nat (mx + 1)).
  assert (PR : forall l1 (e : key * dgate) l2, m = l1 ++ e :: l2 -> In e m /\ (length l1 < length m)%nat).
  { intros l1 e l2 ->. split; [apply in_app_iff; right; left; reflexivity|]. rewrite app_length. cbn [length]. lia. }
  assert (IX : forall e, In e m -> idx (lvl (fst e)) = Ok (Z.to_nat (lvl (fst e))) /\ (Z.to_nat (lvl (fst e)) < n)%nat).
  { intros e He. specialize (HL e He). unfold idx. destruct (Z.ltb_spec (lvl (fst e)) 0); [lia|]. split; [reflexivity|]. unfold n. lia. }
  assert (SLN : forall l, length (level_sizes lvl l n) = n) by (intro; unfold level_sizes; rewrite map_length, seq_length; reflexivity).
  assert (RD : forall l e, In e m -> rd (level_sizes lvl l n) (Z.to_nat (lvl (fst e))) = Ok (Z.of_nat (length (at_level lvl (lvl (fst e)) l)))).
  { intros l e He. destruct (IX e He) as [_ Hi]. unfold rd. rewrite sizes_nth by exact Hi. rewrite Z2Nat.id by (apply HL, He). reflexivity. }
  assert (E1 : count_levels m lvl n = Ok (level_sizes lvl m n)).
  { unfold count_levels. destruct (each_ok _ _ (fun e c => l <- idx (lvl (fst e)) ;; x <- rd c l ;; x <- int_op (x + 1) ;; wr c l x) (fun l c => c = level_sizes lvl l n) m (repeat 0 n)) as (c & E & ->).
    - symmetry. apply sizes_nil.
    - intros l1 e l2 c El ->. destruct (PR _ _ _ El) as [He Hl]. destruct (IX e He) as [I1 I2]. rewrite I1. cbn [bind]. rewrite (RD l1 e He). cbn [bind]. pose proof (at_level_length lvl (lvl (fst e)) l1).
      rewrite int_op_ok by lia. cbn [bind]. apply returns_wr; [rewrite SLN; exact I2|]. apply (level_sizes_snoc _ _ _ _ _ _ I1 (RD l1 e He)).
    - exact E. }
  rewrite E1. cbn [bind].
  assert (E2 : exists ps, pad_levels (level_sizes lvl m n) = Ok ps).
  { assert (G : forall c, (forall x, In x c -> 0 <= x < 2 ^ 30) -> exists ps, pad_levels c = Ok ps).
    { induction c as [|x c IH]; intro H; [exists []; reflexivity|]. cbn [pad_levels]. destruct (halve_one_total x (H x ltac:(left; reflexivity))) as (full & bits & E & _). unfold pad_level. rewrite E. cbn [bind].
      destruct IH as (ps & ->); [intros y Hy; apply H; right; exact Hy|]. cbn [bind]. eexists. reflexivity. }
    destruct (G (level_sizes lvl m n)) as (ps & E); [|exists ps; exact E].
    intros x Hx. unfold level_sizes in Hx. apply in_map_iff in Hx. destruct Hx as (i & <- & _). pose proof (at_level_length lvl (Z.of_nat i) m). lia. }
  destruct E2 as (ps & E2). rewrite E2. cbn [bind]. destruct (pad_levels_nth _ _ E2) as [LP NP].
  assert (E3 : exists pos, number_levels m lvl n = Ok (level_sizes lvl m n, pos)).
  { unfold number_levels. destruct (each_ok _ _ (fun e (s : list Z * (key -> Z)) => let '(c, pos) := s in l <- idx (lvl (fst e)) ;; x <- rd c l ;; x' <- int_op (x + 1) ;; c <- wr c l x' ;; Ok (c, fset pos (fst e) x))
       (fun l c => fst c = level_sizes lvl l n) m (repeat 0 n, fun _ => 0)) as ([c pos] & E & H).
    - symmetry. apply sizes_nil.
    - intros l1 e l2 [c pos] El H. cbn [fst] in H. subst c. destruct (PR _ _ _ El) as [He Hl]. destruct (IX e He) as [I1 I2]. rewrite I1. cbn [bind]. rewrite (RD l1 e He). cbn [bind]. pose proof (at_level_length lvl (lvl (fst e)) l1).
      rewrite int_op_ok by lia. cbn [bind]. eapply returns_bind; [apply returns_wr with (Q := fun c => c = level_sizes lvl (l1 ++ [e]) n); [rewrite SLN; exact I2|apply (level_sizes_snoc _ _ _ _ _ _ I1 (RD l1 e He))]|].
      intros c ->. apply returns_ok. reflexivity.
    - cbn [fst] in H. exists pos. rewrite <- H. exact E. }
  destruct E3 as (pos & E3). rewrite E3. cbn [bind].
  destruct (each_ok _ _ (emit_gate lvl pos) (fun _ ls => length ls = n) m (repeat [] n)) as (ls & E4 & LL).
  - apply repeat_length.
  - intros l1 [k g] l2 ls El Hl. destruct (PR _ _ _ El) as [He _]. destruct (IX _ He) as [I1 I2]. cbn [fst] in *. unfold emit_gate. cbv zeta. rewrite I1. cbn [bind].
    destruct (nth_error ls (Z.to_nat (lvl k))) as [row|] eqn:Q; [|apply nth_error_None in Q; lia].
    unfold rd. rewrite Q. cbn [bind]. eapply returns_bind; [apply returns_wr with (Q := fun ls => length ls = n); [rewrite Hl; exact I2|rewrite upd_length; exact Hl]|].
      intros ls' Hl'. destruct (HE _ He) as [F1 F2]. cbn [fst snd] in F1, F2.
      assert (A1 : ((lvl (dg_in0 g) + 1 =? lvl k) || (dg_ty g =? 3)) = true).
      { destruct (Z.eqb_spec (dg_ty g) 3) as [|N3]; [apply orb_true_r|]. rewrite (F1 N3), Z.eqb_refl. reflexivity. }
      assert (A2 : ((lvl (dg_in1 g) + 1 =? lvl k) || (dg_ty g =? 10) || (dg_ty g =? 6) || (dg_ty g =? 3)) = true).
      { destruct (Z.eqb_spec (dg_ty g) 3) as [|N3]; [apply orb_true_r|]. destruct (Z.eqb_spec (dg_ty g) 6) as [|N6]; [rewrite !orb_true_r; reflexivity|]. destruct (Z.eqb_spec (dg_ty g) 10) as [|N10]; [rewrite !orb_true_r; reflexivity|].
        rewrite (F2 N3 N10 N6), Z.eqb_refl. reflexivity. }
      rewrite A1, A2. cbn [assert_ bind]. apply returns_ok. exact Hl'.
  - rewrite E4. cbn [bind]. eexists. split; [reflexivity|]. apply emit_inv in E4. destruct E4 as [-> _].
    assert (LM : length (map (fun l => map (emitted pos) (at_level lvl (Z.of_nat l) m)) (seq 0 n)) = n) by (rewrite map_length, seq_length; reflexivity).
    destruct (pad_layers_nth (map (fun l => map (emitted pos) (at_level lvl (Z.of_nat l) m)) (seq 0 n)) (level_sizes lvl m n) ps) as [A B]; [rewrite SLN; lia|rewrite LP, SLN; lia|].
    intros S HS. apply In_nth_error in HS. destruct HS as (l & HS). assert (Hl : (l < n)%nat) by (rewrite <- LM, <- A; apply nth_error_Some; rewrite HS; discriminate).
    pose proof (sizes_nth lvl m n l Hl) as NC. destruct (NP _ _ NC) as ([pad bits] & Np & PL).
    pose proof (nth_map_seq _ (fun i => map (emitted pos) (at_level lvl (Z.of_nat i) m)) n l Hl) as NM. rewrite (B _ _ _ _ _ NM NC Np) in HS. injection HS as <-. cbn [sl_gates].
    rewrite app_length, map_length, pad_gates_length. pose proof (at_level_length lvl (Z.of_nat l) m) as AL. set (c := length (at_level lvl (Z.of_nat l) m)) in *.
    unfold pad_level in PL. destruct (halve_one_total (Z.of_nat c)) as (full & bits' & EH & HF); [lia|]. rewrite EH in PL. cbn [bind] in PL. injection PL as PL _. lia.
Qed.

(** ** The program *)
Definition gap_at (p : list stmt) (lev : Z -> nat) (t : Z) : nat := list_sum (map (fun s => if existsb (Z.eqb t) (target s) then gaps lev s else 0%nat) p).
Lemma list_sum_cons : forall x l, list_sum (x :: l) = (x + list_sum l)%nat.
Proof. reflexivity. Qed.
Lemma gap_at_none : forall p lev t, ~ In t (targets p) -> gap_at p lev t = 0%nat.
Proof.
  intros p lev t. unfold gap_at. induction p as [|s p IH]; intro H; [reflexivity|]. cbn [map]. rewrite list_sum_cons. unfold targets in H. cbn [flat_map] in H. rewrite in_app_iff in H. rewrite IH by (intro Q; apply H; right; exact Q).
  destruct (existsb (Z.eqb t) (target s)) eqn:E; [|reflexivity]. exfalso. apply H. left. apply existsb_exists in E. destruct E as (x & Hx & Q). apply Z.eqb_eq in Q. subst x. exact Hx.
Qed.
Lemma gap_at_stmt : forall p lev s t, NoDup (targets p) -> In s p -> target s = [t] -> gap_at p lev t = gaps lev s.
Proof.
  intros p lev s t ND Hs Ht. apply in_split in Hs. destruct Hs as (p1 & p2 & ->). unfold gap_at. rewrite map_app, list_sum_app. cbn [map]. rewrite list_sum_cons.
  rewrite targets_app in ND. unfold targets in ND at 2. cbn [flat_map] in ND. fold (targets p2) in ND. rewrite Ht in ND. cbn [app] in ND. apply NoDup_remove_2 in ND. rewrite in_app_iff in ND.
  pose proof (gap_at_none p1 lev t ltac:(tauto)) as Q1. pose proof (gap_at_none p2 lev t ltac:(tauto)) as Q2. unfold gap_at in Q1, Q2. rewrite Q1, Q2, Ht. cbn [existsb]. rewrite Z.eqb_refl. cbn [orb]. lia.
Qed.
Lemma gap_sum : forall p lev l, NoDup l -> (list_sum (map (gap_at p lev) l) <= list_sum (map (gaps lev) p))%nat.
Proof.
  intros p lev l ND. induction p as [|s p IH].
  - assert (Q : list_sum (map (gap_at [] lev) l) = 0%nat) by (clear; induction l as [|x l IH]; [reflexivity|cbn [map]; rewrite list_sum_cons, IH; reflexivity]). rewrite Q. apply Nat.le_0_l.
  - assert (Q : forall l, list_sum (map (gap_at (s :: p) lev) l) = (list_sum (map (fun t => if existsb (Z.eqb t) (target s) then gaps lev s else 0%nat) l) + list_sum (map (gap_at p lev) l))%nat).
    { clear. induction l as [|x l IH]; [reflexivity|]. cbn [map]. rewrite !list_sum_cons, IH. unfold gap_at at 1. cbn [map]. rewrite list_sum_cons. fold (gap_at p lev x). lia. }
    rewrite Q. cbn [map]. rewrite list_sum_cons. apply Nat.add_le_mono; [|exact IH].
    assert (Z0 : forall l, (forall t, In t (target s) -> ~ In t l) -> list_sum (map (fun t => if existsb (Z.eqb t) (target s) then gaps lev s else 0%nat) l) = 0%nat).
    { clear. induction l as [|x l IH]; intro H; [reflexivity|]. cbn [map]. rewrite list_sum_cons, IH by (intros t Ht Q; apply (H t Ht); right; exact Q). destruct (existsb (Z.eqb x) (target s)) eqn:E; [|reflexivity].
      exfalso. apply existsb_exists in E. destruct E as (y & Hy & Q). apply Z.eqb_eq in Q. subst y. apply (H x Hy). left. reflexivity. }
    clear - ND Z0. induction l as [|x l IH]; [apply Nat.le_0_l|]. inversion ND as [|? ? N1 N2]; subst. cbn [map]. rewrite list_sum_cons. destruct (existsb (Z.eqb x) (target s)) eqn:E; [|apply IH, N2].
    rewrite Z0; [lia|]. apply existsb_exists in E. destruct E as (y & Hy & Q). apply Z.eqb_eq in Q. subst y. intros t Ht. destruct (target_nil s) as [Q|(t' & Q)]; rewrite Q in Hy, Ht; [destruct Hy|]. destruct Hy as [->|[]]. destruct Ht as [->|[]]. exact N1.
Qed.
Lemma var_nodup : forall (m : dag), NoDup (keys m) -> (forall k, In k (keys m) -> exists t, k = kV t) -> NoDup (map (fun e => snd (fst e)) m).
Proof.
  induction m as [|[k g] m IH]; intros ND K; [constructor|]. cbn [keys map fst] in *. inversion ND as [|? ? N1 N2]; subst. constructor; [|apply IH; [exact N2|intros k' H; apply K; right; exact H]].
  intro Q. apply in_map_iff in Q. destruct Q as ([k' g'] & Q & Hin). cbn [fst snd] in Q. destruct (K k ltac:(left; reflexivity)) as (t & ->). assert (Hk : In k' (map fst m)) by (apply in_map_iff; exists (k', g'); split; [reflexivity|exact Hin]).
  destruct (K k' ltac:(right; exact Hk)) as (t' & ->). cbn [kV snd] in Q. subst t'. apply N1. exact Hk.
Qed.
Lemma dag_total : forall p m ic lev, prog_ok p -> ordered p -> levels_of p lev -> regular p lev -> inputs p <> [] -> Z.of_nat (gate_count p lev) < 2 ^ 30 ->
  read_prog p = Ok (m, ic) -> outs_inv p m ->
  exists L, dag_to_layered m = Ok L /\ (forall S, In S L -> Z.of_nat (length (sl_gates S)) <= 2 * Z.of_nat (gate_count p lev) + 1) /\
  exists t, In t (targets p) /\ length L = S (lev t).
Proof.
  intros p m ic lev PO OR LV RG NI SZ E OI. pose proof (order_keys p m ic lev PO OR RG E) as KS. destruct (read_inv_prog p m ic (proj1 PO) (proj2 PO) E) as [RI _].
  destruct (order_levels p m ic lev PO OR LV RG E RI OI) as (s & EL & EV & EM). unfold dag_to_layered. rewrite EL. cbn [bind]. pose proof RI as [S K D _ _ R].
  assert (NT : exists t0, In t0 (targets p)).
  { destruct (inputs p) as [|t0 l] eqn:EI; [contradiction|]. exists t0. assert (Hin : In t0 (inputs p)) by (rewrite EI; left; reflexivity). unfold inputs in Hin. apply in_flat_map in Hin. destruct Hin as (st & Hs & Ht). apply in_flat_map. exists st. split; [exact Hs|]. destruct st; try (destruct Ht; fail). exact Ht. }
  destruct NT as (t0 & Ht0). destruct EM as [EM|(tm & Htm & EM)]; [exfalso; destruct (EV t0 Ht0); lia|].
  pose proof (gap_sum p lev (map (fun e => snd (fst e)) m) (var_nodup m (sorted_nodup _ _ S) K)) as GS. rewrite map_map in GS. unfold gate_count in SZ.
  destruct (insert_total p m lev (ls_lvl s) (ls_max s) (gap_at p lev) RI LV RG OR KS EV (fun st t H1 H2 => gap_at_stmt p lev st t (proj1 PO) H1 H2)) as (r & ER & (T & C & LR & _ & F)); [eapply Z.le_lt_trans; [apply inj_le; exact GS|lia]|]. apply inj_le in GS. assert (C' : rs_cnt r <= Z.of_nat (list_sum (map (gaps lev) p))) by (eapply Z.le_trans; [exact C|exact GS]). clear C. rewrite ER. cbn [bind].
  assert (AS : forall k, In k (keys m) -> exists t s, k = kV t /\ In s p /\ target s = [t]).
  { intros k Hk. destruct (KS k Hk) as (t & -> & Ht). destruct (target_stmt p t Ht) as (st & Hs & Hts). exists t, st. split; [reflexivity|]. split; assumption. }
  destruct (insert_relays_inv p m (ls_lvl s) r RI AS ER) as (f & [R1 R2 R3 R4 R5 R6] & _). destruct T as [T0 T1].
  assert (LM : (length (rs_m r) <= gate_count p lev)%nat).
  { assert (Q : (length (keys (rs_m r)) <= length (map kV (targets p) ++ map (fun i => kR (Z.of_nat i)) (seq 0 (Z.to_nat (rs_cnt r)))))%nat).
    { apply NoDup_incl_length; [apply sorted_nodup, R1|]. intros k Hk. apply R3 in Hk. apply in_app_iff. destruct Hk as [Hk|(c & -> & Hc)].
      - left. destruct (KS k Hk) as (t & -> & Ht). apply in_map, Ht.
      - right. apply in_map_iff. exists (Z.to_nat c). split; [rewrite Z2Nat.id by lia; reflexivity|apply in_seq; lia]. }
    rewrite app_length, !map_length, seq_length in Q. unfold keys in Q. rewrite map_length in Q. unfold gate_count. lia. }
  destruct (layers_total (rs_m r) (rs_lvl r) (ls_max s)) as (L & E2 & HS).
  - intros [k g] He. cbn [fst]. assert (Hk : In k (keys (rs_m r))) by (apply in_map_iff; exists (k, g); split; [reflexivity|exact He]). apply R3 in Hk. destruct Hk as [Hk|(c & -> & Hc)]; [|apply (T1 c Hc)].
    destruct (KS k Hk) as (t & -> & Ht). rewrite LR. destruct (EV t Ht). lia.
  - intros [k g] He. assert (Hk : In k (keys (rs_m r))) by (apply in_map_iff; exists (k, g); split; [reflexivity|exact He]). pose proof (mget_in _ dg_zero _ _ _ (sorted_nodup _ _ R1) He) as EG. fold (dget (rs_m r) k) in EG. rewrite <- EG.
    apply R3 in Hk. destruct Hk as [Hk|(c & -> & Hc)]; [apply (F k Hk)|]. destruct (T1 c Hc) as (T2 & T3 & _). unfold emit_facts. cbn [fst snd]. rewrite T2. split; [intros _; exact T3|]. intros _ Q. contradiction.
  - unfold gate_count in LM. lia.
  - exists L. split; [exact E2|]. split; [intros S0 HS0; specialize (HS S0 HS0); unfold gate_count in *; lia|]. exists tm. split; [exact Htm|].
    destruct (layers_of_inv _ _ _ _ R1 E2) as (pos & [Y1 _ _ _ _]). rewrite Y1. lia.
Qed.
