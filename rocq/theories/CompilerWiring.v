(** * The two layers that the compiler makes of the wiring file *)
From Coq Require Import ZArith List Bool Arith Lia Sorted.
From Verif Require Import Base Fp Loader SpecLoader LoaderProofs ZkEval Program SpecCompiler Compiler CompilerMaps CompilerLayers CompilerShape.
Import ListNotations.
Open Scope Z_scope.

(** ** Reading *)
Definition rg0 : rgate := RG false 0.
Record rinv (rnd : nat -> Z) (w : list rstmt) (s : rread) : Prop := {
  rv_sorted : sorted (rr_m s);
  rv_keys : forall k, In k (keys (rr_m s)) <-> exists t, k = kV t /\ In t (flat_map rtarget w);
  rv_pass : forall t a b, In (RPass t a b) w -> mget rg0 (rr_m s) (kV t) = RG true a;
  rv_src : forall t x, source rnd w t x -> mget rg0 (rr_m s) (kV t) = RG false x;
  rv_out : forall o a, In (ROut o a) w -> rr_out s (kV a) = o;
  rv_min : (forall y, In y (out_nums w) -> rr_min s <= y) /\ (rr_min s = 1061109567 \/ In (rr_min s) (out_nums w));
  rv_cnt : rr_cnt s = Z.of_nat (length (out_nums w));
  rv_rnd : rr_rnd s = rins w }.

Lemma source_snoc : forall rnd w s t x, source rnd (w ++ [s]) t x ->
  source rnd w t x \/ s = RConst t x \/ exists i, s = RIn t i /\ x = rnd (rins w).
Proof.
  intros rnd w s t x [(w1 & w2 & E)|(i & w1 & w2 & E & ->)].
  - destruct w2 as [|y w2 _] using rev_ind; [apply app_inj_tail in E; right; left; symmetry; symmetry; tauto|].
    rewrite app_comm_cons, app_assoc in E. apply app_inj_tail in E. destruct E as [-> _]. left. left. exists w1, w2. reflexivity.
  - destruct w2 as [|y w2 _] using rev_ind; [apply app_inj_tail in E; destruct E as [-> ->]; right; right; exists i; split; reflexivity|].
    rewrite app_comm_cons, app_assoc in E. apply app_inj_tail in E. destruct E as [-> _]. left. right. exists i, w1, w2. split; reflexivity.
Qed.
Lemma source_target : forall rnd w t x, source rnd w t x -> In t (flat_map rtarget w) /\ In t (sources w).
Proof.
  intros rnd w t x [(w1 & w2 & ->)|(i & w1 & w2 & -> & _)]; unfold sources; rewrite !flat_map_app; split; apply in_app_iff; right; left; reflexivity.
Qed.
Lemma pass_target : forall w t a b, In (RPass t a b) w -> In t (flat_map rtarget w).
Proof. intros w t a b H. apply in_flat_map. exists (RPass t a b). split; [exact H|left; reflexivity]. Qed.
Lemma sources_source : forall rnd w t, In t (sources w) -> exists x, source rnd w t x.
Proof.
  intros rnd w t H. unfold sources in H. apply in_flat_map in H. destruct H as (s & Hs & Ht). apply in_split in Hs. destruct Hs as (w1 & w2 & ->).
  destruct s as [t' c|t' i|o a|t' a b|]; try (destruct Ht; fail); destruct Ht as [->|[]].
  - exists c. left. exists w1, w2. reflexivity.
  - exists (rnd (rins w1)). right. exists i, w1, w2. split; reflexivity.
Qed.
Lemma rtarget_cases : forall rnd w t, In t (flat_map rtarget w) -> (exists a b, In (RPass t a b) w) \/ (exists x, source rnd w t x).
Proof.
  intros rnd w t H. apply in_flat_map in H. destruct H as (s & Hs & Ht).
  destruct s as [t' c|t' i|o a|t' a b|]; try (destruct Ht; fail); destruct Ht as [->|[]].
  - right. apply sources_source. unfold sources. apply in_flat_map. exists (RConst t c). split; [exact Hs|left; reflexivity].
  - right. apply sources_source. unfold sources. apply in_flat_map. exists (RIn t i). split; [exact Hs|left; reflexivity].
  - left. exists a, b. exact Hs.
Qed.
Lemma nodup_app_l : forall A (l1 l2 : list A), NoDup (l1 ++ l2) -> NoDup l1.
Proof. intros A l1. induction l1 as [|x l1 IH]; intros l2 H; [constructor|]. inversion H; subst. constructor; [rewrite in_app_iff in *; tauto|eapply IH; eassumption]. Qed.
Lemma nodup_snoc : forall A (l : list A) x, NoDup (l ++ [x]) -> ~ In x l.
Proof. intros A l x H. apply NoDup_remove_2 in H. rewrite app_nil_r in H. exact H. Qed.

(** A new entry for a variable that is not a target so far. *)
Lemma rinv_set : forall rnd w s st t g n, rinv rnd w st -> rtarget s = [t] -> ~ In t (flat_map rtarget w) ->
  (forall a b, s = RPass t a b -> g = RG true a) ->
  (forall x, s = RConst t x \/ (exists i, s = RIn t i /\ x = rnd (rins w)) -> g = RG false x) ->
  n = rins (w ++ [s]) ->
  rinv rnd (w ++ [s]) (RR (mset (rr_m st) (kV t) g) (rr_out st) (rr_min st) (rr_cnt st) n).
Proof.
  intros rnd w s st t g n [S K P Sr O M C R] T N GP GS En.
  assert (ON : out_nums (w ++ [s]) = out_nums w) by (unfold out_nums; rewrite flat_map_app; destruct s; try discriminate T; cbn [flat_map]; apply app_nil_r).
  constructor; cbn [rr_m rr_out rr_min rr_cnt rr_rnd].
  - apply sorted_mset, S.
  - intro k. rewrite keys_mset, K, flat_map_app. cbn [flat_map]. rewrite app_nil_r, T. split.
    + intros [->|(t' & -> & H)]; [exists t|exists t']; rewrite in_app_iff; (split; [reflexivity|]); [right; left; reflexivity|left; exact H].
    + intros (t' & -> & H). apply in_app_iff in H. destruct H as [H|[->|[]]]; [right; exists t'; split; [reflexivity|exact H]|left; reflexivity].
  - intros t' a b H. apply in_app_iff in H. destruct H as [H|[->|[]]].
    + rewrite mget_other; [apply (P t' a b H)|]. intro Q. apply kV_inj in Q. subst t'. apply N. eapply pass_target, H.
    + injection T as ->. rewrite mget_same. apply (GP a b eq_refl).
  - intros t' x H. apply source_snoc in H. destruct H as [H|H].
    + rewrite mget_other; [apply (Sr t' x H)|]. intro Q. apply kV_inj in Q. subst t'. apply N. eapply source_target, H.
    + assert (t' = t) as -> by (destruct H as [->|(i & -> & _)]; injection T as ->; reflexivity). rewrite mget_same. apply GS, H.
  - intros o a H. apply in_app_iff in H. destruct H as [H|[->|[]]]; [apply O, H|discriminate T].
  - rewrite ON. exact M.
  - rewrite ON. exact C.
  - exact En.
Qed.
Lemma rins_snoc : forall w s, rins (w ++ [s]) = (rins w + match s with RIn _ _ => 1 | _ => 0 end)%nat.
Proof. intros w s. unfold rins. rewrite flat_map_app, app_length. destruct s; reflexivity. Qed.

Lemma read_rstmts_inv : forall rnd w s, wiring_ok w -> read_rstmts rnd w = Ok s -> rinv rnd w s.
Proof.
  intros rnd w s (N1 & N2 & N3 & W) E. unfold read_rstmts in E. apply (each_inv _ _ _ (rinv rnd) _ _ _ E).
  - constructor; cbn [rr_m rr_out rr_min rr_cnt rr_rnd].
    + constructor.
    + intro k. split; [intros []|intros (t & _ & [])].
    + intros t a b [].
    + intros t x [([|? ?] & ? & Q)|(i & [|? ?] & ? & Q & _)]; discriminate Q.
    + intros o a [].
    + split; [intros y []|left; reflexivity].
    + reflexivity.
    + reflexivity.
  - intros w1 x w2 s1 s2 EW I E2.
    assert (EW' : w = (w1 ++ [x]) ++ w2) by (rewrite <- app_assoc; exact EW).
    assert (T1 : forall t, rtarget x = [t] -> ~ In t (flat_map rtarget w1)).
    { intros t T. rewrite EW', flat_map_app in N1. apply nodup_app_l in N1. rewrite flat_map_app in N1. cbn [flat_map] in N1. rewrite app_nil_r, T in N1. apply nodup_snoc, N1. }
    assert (Hx : In x w) by (rewrite EW; apply in_app_iff; right; left; reflexivity). specialize (W x Hx).
    destruct x as [t c|t i|o a|t a b|]; cbn [read_rstmt] in E2.
    + apply bind_inv in E2. destruct E2 as (t' & Q & E2). apply int_op_inv in Q. destruct Q as [-> _]. apply bind_inv in E2. destruct E2 as (c' & Q & E2). apply read_ll_inv in Q. destruct Q as [-> _].
      apply Ok_inj in E2. subst s2. apply rinv_set; try assumption; try reflexivity; [apply T1; reflexivity|discriminate| |].
      * intros x [Q|(i & Q & _)]; [injection Q as ->; reflexivity|discriminate Q].
      * rewrite rins_snoc, Nat.add_0_r. apply I.
    + apply bind_inv in E2. destruct E2 as (t' & Q & E2). apply int_op_inv in Q. destruct Q as [-> _]. apply bind_inv in E2. destruct E2 as (c' & Q & E2).
      apply Ok_inj in E2. subst s2. apply rinv_set; try assumption; try reflexivity; [apply T1; reflexivity|discriminate| |].
      * intros x [Q'|(i' & Q' & ->)]; [discriminate Q'|]. f_equal. f_equal. apply I.
      * rewrite rins_snoc, Nat.add_1_r. f_equal. apply I.
    + apply bind_inv in E2. destruct E2 as (c & Q & E2). apply int_op_inv in Q. destruct Q as [-> _]. apply bind_inv in E2. destruct E2 as (o' & Q & E2). apply int_op_inv in Q. destruct Q as [-> _].
      apply bind_inv in E2. destruct E2 as (a' & Q & E2). apply read_ll_inv in Q. destruct Q as [-> _]. destruct W as [Wo Wa]. rewrite (cast_int_id a Wa) in E2.
      apply Ok_inj in E2. subst s2. destruct I as [S K P Sr O M C R]. constructor; cbn [rr_m rr_out rr_min rr_cnt rr_rnd].
      * exact S.
      * intro k. rewrite K, flat_map_app. cbn [flat_map rtarget]. rewrite !app_nil_r. reflexivity.
      * intros t a' b' H. apply in_app_iff in H. destruct H as [H|[Q|[]]]; [apply (P t a' b' H)|discriminate Q].
      * intros t x H. apply source_snoc in H. destruct H as [H|[Q|(i & Q & _)]]; [apply (Sr t x H)|discriminate Q|discriminate Q].
      * intros o' a' H. apply in_app_iff in H. destruct H as [H|[Q|[]]].
        -- rewrite fset_other; [apply O, H|]. intro Q. apply kV_inj in Q. subst a'.
           rewrite EW' in N3. unfold out_vars in N3. rewrite flat_map_app in N3. apply nodup_app_l in N3. rewrite flat_map_app in N3. cbn [flat_map] in N3. rewrite app_nil_r in N3.
           apply nodup_snoc in N3. apply N3. apply in_flat_map. exists (ROut o' a). split; [exact H|left; reflexivity].
        -- injection Q as -> ->. apply fset_same.
      * destruct M as [M1 M2]. unfold out_nums. rewrite flat_map_app. cbn [flat_map app]. fold (out_nums w1). split.
        -- intros y Hy. apply in_app_iff in Hy. destruct Hy as [Hy|[->|[]]]; [specialize (M1 y Hy); lia|lia].
        -- rewrite in_app_iff. destruct (Z.min_spec (rr_min s1) o) as [[_ ->]|[_ ->]]; [destruct M2 as [M2|M2]; [left|right; left]; exact M2|right; right; left; reflexivity].
      * unfold out_nums. rewrite flat_map_app, app_length. cbn [flat_map app length]. rewrite C. unfold out_nums. lia.
      * rewrite rins_snoc, Nat.add_0_r. exact R.
    + apply bind_inv in E2. destruct E2 as (t' & Q & E2). apply int_op_inv in Q. destruct Q as [-> _]. apply bind_inv in E2. destruct E2 as (a' & Q & E2). apply read_ll_inv in Q. destruct Q as [-> _].
      apply bind_inv in E2. destruct E2 as (b' & Q & E2).
      apply Ok_inj in E2. subst s2. apply rinv_set; try assumption; try reflexivity; [apply T1; reflexivity| | |].
      * intros a' b'' Q'. injection Q' as -> ->. reflexivity.
      * intros x [Q'|(i & Q' & _)]; discriminate Q'.
      * rewrite rins_snoc, Nat.add_0_r. apply I.
    + discriminate E2.
Qed.

(** ** Positions *)
Definition nonpass (e : key * rgate) : bool := negb (rg_pass (snd e)).
Definition out_pos (s : rread) (ic : Z) (n0 : nat) (k : key) : Z :=
  let x := rr_out s (kV (snd k)) - rr_min s in cast_int (Z.quot x ic * Z.of_nat n0 + Z.rem x ic).
Lemma number_rdl_inv : forall s ic n0 c pos, sorted (rr_m s) -> number_rdl s ic n0 = Ok (c, pos) ->
  forall m1 e m2, rr_m s = m1 ++ e :: m2 -> pos (fst e) = if rg_pass (snd e) then out_pos s ic n0 (fst e) else Z.of_nat (length (filter nonpass m1)).
Proof.
  intros s ic n0 c pos S E. unfold number_rdl in E.
  set (I := fun (m : kmap rgate) (st : Z * (key -> Z)) => fst st = Z.of_nat (length (filter nonpass m)) /\
     forall m1 e m2, m = m1 ++ e :: m2 -> snd st (fst e) = if rg_pass (snd e) then out_pos s ic n0 (fst e) else Z.of_nat (length (filter nonpass m1))).
  enough (G : I (rr_m s) (c, pos)) by (intros m1 e m2 Q; apply (proj2 G m1 e m2 Q)).
  apply (each_inv _ _ _ I _ _ _ E).
  - split; [reflexivity|]. intros [|? ?] e m2 Q; discriminate Q.
  - intros m1 e m2 [c1 p1] [c2 p2] EM [J1 J2] E2. cbn [fst snd] in J1, J2.
    assert (FR : forall m1' e' m2', m1 = m1' ++ e' :: m2' -> fst e' <> fst e).
    { intros m1' e' m2' -> Q. rewrite EM in S. apply sorted_split in S. destruct S as [S _]. apply (key_lt_irrefl (fst e)). rewrite <- Q at 1. apply S.
      unfold keys. rewrite map_app. apply in_app_iff. right. left. reflexivity. }
    assert (SN : forall p, (forall m1' e' m2', m1 = m1' ++ e' :: m2' -> p (fst e') = p1 (fst e')) ->
       p (fst e) = (if rg_pass (snd e) then out_pos s ic n0 (fst e) else Z.of_nat (length (filter nonpass m1))) ->
       forall m1' e' m2', m1 ++ [e] = m1' ++ e' :: m2' -> p (fst e') = if rg_pass (snd e') then out_pos s ic n0 (fst e') else Z.of_nat (length (filter nonpass m1'))).
    { intros p P1 P2 m1' e' m2' Q. destruct m2' as [|y m2' _] using rev_ind; [apply app_inj_tail in Q; destruct Q as [-> ->]; exact P2|].
      rewrite app_comm_cons, app_assoc in Q. apply app_inj_tail in Q. destruct Q as [Q _]. rewrite (P1 _ _ _ Q). apply (J2 _ _ _ Q). }
    unfold I. cbn [fst snd]. rewrite filter_app, app_length. cbn [filter]. unfold nonpass at 2. destruct e as [ke ge]. cbn [fst snd] in *. destruct (rg_pass ge) eqn:EP; cbn [negb length].
    + apply bind_inv in E2. destruct E2 as (x & Q & E2). apply int_op_inv in Q. destruct Q as [-> _]. apply Ok_inj in E2. injection E2 as <- <-. split; [lia|].
      apply SN; [intros m1' e' m2' Q; apply fset_other, (FR _ _ _ Q)|]. apply fset_same.
    + apply bind_inv in E2. destruct E2 as (x & Q & E2). apply int_op_inv in Q. destruct Q as [-> _]. apply Ok_inj in E2. injection E2 as <- <-. split; [lia|].
      apply SN; [intros m1' e' m2' Q; apply fset_other, (FR _ _ _ Q)|]. rewrite fset_same. exact J1.
Qed.

(** ** The layer of inputs *)
Definition first_gates (s : rread) (pos : key -> Z) : list sgate := map (fun e => SG 3 (pos (fst e)) (rg_in (snd e)) 0) (filter nonpass (rr_m s)).
Lemma first_nth : forall s pos ic n0 c m1 e m2, sorted (rr_m s) -> number_rdl s ic n0 = Ok (c, pos) -> rr_m s = m1 ++ e :: m2 -> rg_pass (snd e) = false ->
  nth_error (first_gates s pos) (length (filter nonpass m1)) = Some (SG 3 (Z.of_nat (length (filter nonpass m1))) (rg_in (snd e)) 0).
Proof.
  intros s pos ic n0 c m1 e m2 S E EM EP. pose proof (number_rdl_inv _ _ _ _ _ S E _ _ _ EM) as PE. rewrite EP in PE. unfold first_gates. rewrite EM.
  rewrite filter_app, map_app. rewrite nth_error_app2 by (rewrite map_length; lia). rewrite map_length, Nat.sub_diag. cbn [filter]. unfold nonpass at 1. rewrite EP. cbn [negb map nth_error].
  rewrite PE. reflexivity.
Qed.
(** Each entry of a filtered list comes from a split of the list. *)
Lemma filter_nth_split : forall A (P : A -> bool) l j x, nth_error (filter P l) j = Some x ->
  exists l1 l2, l = l1 ++ x :: l2 /\ P x = true /\ length (filter P l1) = j.
Proof.
  intros A P. induction l as [|y l IH]; intros j x H; [destruct j; discriminate H|]. cbn [filter] in H. destruct (P y) eqn:E.
  - destruct j as [|j]; [injection H as <-; exists [], l; split; [reflexivity|]; split; [exact E|reflexivity]|].
    destruct (IH j x H) as (l1 & l2 & -> & Q & L). exists (y :: l1), l2. split; [reflexivity|]. split; [exact Q|]. cbn [filter]. rewrite E. cbn [length]. f_equal. exact L.
  - destruct (IH j x H) as (l1 & l2 & -> & Q & L). exists (y :: l1), l2. split; [reflexivity|]. split; [exact Q|]. cbn [filter]. rewrite E. exact L.
Qed.
Lemma first_all : forall s pos ic n0 c j g, sorted (rr_m s) -> number_rdl s ic n0 = Ok (c, pos) -> nth_error (first_gates s pos) j = Some g ->
  exists e, In e (rr_m s) /\ rg_pass (snd e) = false /\ g = SG 3 (Z.of_nat j) (rg_in (snd e)) 0.
Proof.
  intros s pos ic n0 c j g S E H. unfold first_gates in H. rewrite nth_error_map in H. destruct (nth_error (filter nonpass (rr_m s)) j) as [e|] eqn:Q; [|discriminate H]. injection H as <-.
  apply filter_nth_split in Q. destruct Q as (m1 & m2 & EM & EP & <-). unfold nonpass in EP. apply negb_true_iff in EP. exists e. split; [rewrite EM; apply in_app_iff; right; left; reflexivity|].
  split; [exact EP|]. f_equal. pose proof (number_rdl_inv _ _ _ _ _ S E _ _ _ EM) as PE. rewrite EP in PE. exact PE.
Qed.

Lemma nth_error_upd : forall A (l : list A) i x j, (i < length l)%nat -> nth_error (upd l i x) j = if Nat.eqb j i then Some x else nth_error l j.
Proof. intros A l i x j H. destruct (Nat.eqb_spec j i) as [->|N]; [apply nth_upd_same, H|apply nth_upd_other; congruence]. Qed.
(** Loops that keep an invariant. *)
Lemma for_inv : forall S (body : nat -> S -> outcome S) (I : nat -> S -> Prop) n st s r, for_ n st body s = Ok r -> I st s ->
  (forall k s1 s2, (st <= k < st + n)%nat -> I k s1 -> body k s1 = Ok s2 -> I (Datatypes.S k) s2) -> I (st + n)%nat r.
Proof.
  intros S body I. induction n as [|n IH]; intros st s r E I0 HS; [injection E as <-; rewrite Nat.add_0_r; exact I0|].
  cbn [for_] in E. apply bind_inv in E. destruct E as (s1 & E1 & E). rewrite Nat.add_succ_r, <- Nat.add_succ_l. apply (IH _ s1 r E); [apply (HS st s s1); [lia|exact I0|exact E1]|].
  intros k a b Hk. apply HS. lia.
Qed.

(** ** The layer of relays *)
Definition pass_cell (s : rread) (pos : key -> Z) (i : nat) (g : sgate) : Prop :=
  exists e, In e (rr_m s) /\ rg_pass (snd e) = true /\ pos (fst e) = Z.of_nat i /\ g = SG 10 (Z.of_nat i) (pos (kV (rg_in (snd e)))) 0.
Lemma rdl_relays_inv : forall s pos ic rep n0 pad l1, 0 <= ic -> 0 <= pad -> Z.of_nat n0 = ic + pad -> Z.of_nat n0 * rep < 2 ^ 31 -> 0 <= rep ->
  rdl_relays s pos ic rep n0 pad = Ok l1 ->
  length l1 = (n0 * Z.to_nat rep)%nat /\
  forall r j g, (r < Z.to_nat rep)%nat -> (j < n0)%nat -> nth_error l1 (r * n0 + j) = Some (Some g) ->
    (Z.of_nat j < ic /\ pass_cell s pos (r * n0 + j) g) \/ (ic <= Z.of_nat j /\ g = SG 2 (Z.of_nat (r * n0 + j)) 0 0).
Proof.
  intros s pos ic rep n0 pad l1 Hic Hpad Hn Hs Hrep E. unfold rdl_relays in E. apply bind_inv in E. destruct E as (row & E1 & E2).
  assert (A : length row = (n0 * Z.to_nat rep)%nat /\ forall i g, nth_error row i = Some (Some g) -> pass_cell s pos i g).
  { apply (each_inv _ _ _ (fun m r => length r = (n0 * Z.to_nat rep)%nat /\ forall i g, nth_error r i = Some (Some g) -> pass_cell s pos i g) _ _ _ E1).
    - rewrite repeat_length. split; [reflexivity|]. intros i g H. apply nth_error_In, repeat_spec in H. discriminate H.
    - intros m1 e m2 r1 r2 EM [J1 J2] E. destruct (rg_pass (snd e)) eqn:EP; [|apply Ok_inj in E; subst r2; split; assumption].
      apply bind_inv in E. destruct E as (i & Q & E). apply idx_inv in Q. destruct Q as [Q0 ->]. apply wr_inv in E. destruct E as [Hi ->].
      split; [rewrite upd_length; exact J1|]. intros i g H. rewrite nth_error_upd in H by exact Hi. destruct (Nat.eqb_spec i (Z.to_nat (pos (fst e)))) as [->|N].
      + injection H as <-. exists e. split; [rewrite EM; apply in_app_iff; right; left; reflexivity|]. split; [exact EP|]. rewrite Z2Nat.id by exact Q0. split; reflexivity.
      + apply J2, H. }
  destruct A as [A1 A2].
  set (cell := fun (i jj : nat) (l : list (option sgate)) => length l = (n0 * Z.to_nat rep)%nat /\
     forall r j g, (j < n0)%nat -> nth_error l (r * n0 + j) = Some (Some g) ->
     (pass_cell s pos (r * n0 + j) g /\ (Z.of_nat j < ic \/ (i < r)%nat \/ (r = i /\ ic + Z.of_nat jj <= Z.of_nat j))) \/
     (ic <= Z.of_nat j /\ g = SG 2 (Z.of_nat (r * n0 + j)) 0 0)).
  assert (NX : forall i jj l, Z.of_nat jj = pad -> cell i jj l -> cell (S i) 0%nat l).
  { intros i jj l Hj [J1 J2]. split; [exact J1|]. intros r j g Hj' H. destruct (J2 r j g Hj' H) as [[P1 P2]|P]; [|right; exact P]. left. split; [exact P1|]. lia. }
  assert (G : cell (0 + Z.to_nat rep)%nat 0%nat l1).
  { apply (for_inv _ _ (fun i l => cell i 0%nat l) _ _ _ _ E2).
    - split; [exact A1|]. intros r j g Hj H. left. split; [apply A2, H|]. lia.
    - intros i l l' Hi C E. apply (NX i (0 + Z.to_nat pad)%nat); [lia|].
      apply (for_inv _ _ (fun jj l => cell i jj l) _ _ _ _ E); [exact C|]. intros jj r1 r2 Hjj [J1 J2] EB.
      cbv zeta in EB. apply bind_inv in EB. destruct EB as (k & Q & EB). apply idx_inv in Q. apply wr_inv in EB. destruct EB as [Hk ->]. destruct Q as [Q0 Qk].
      assert (LE : Z.of_nat i * Z.of_nat n0 + Z.of_nat n0 <= Z.of_nat n0 * rep).
      { replace (Z.of_nat i * Z.of_nat n0 + Z.of_nat n0) with (Z.of_nat n0 * (Z.of_nat i + 1)) by ring. apply Z.mul_le_mono_nonneg_l; lia. }
      assert (LE0 : 0 <= Z.of_nat i * Z.of_nat n0) by (apply Z.mul_nonneg_nonneg; lia).
      rewrite cast_int_id in * by lia. set (d := Z.of_nat i * Z.of_nat n0 + Z.of_nat jj + ic) in *.
      assert (Ek : k = (i * n0 + (jj + Z.to_nat ic))%nat) by (rewrite Qk; unfold d; rewrite <- Nat2Z.inj_mul; lia).
      split; [rewrite upd_length; exact J1|]. intros r j g Hj H. rewrite nth_error_upd in H by exact Hk. destruct (Nat.eqb_spec (r * n0 + j) k) as [Q|N].
      + right. injection H as <-. assert (r = i /\ j = (jj + Z.to_nat ic)%nat) as [-> ->].
        { rewrite Ek in Q. assert (r = i) by nia. subst r. lia. }
        split; [lia|]. f_equal. unfold d. lia.
      + destruct (J2 r j g Hj H) as [[P1 P2]|P]; [|right; exact P]. left. split; [exact P1|].
        destruct P2 as [P2|[P2|[-> P2]]]; [left; exact P2|right; left; exact P2|]. right. right. split; [reflexivity|].
        assert (j <> (jj + Z.to_nat ic)%nat) by (intros ->; apply N; lia). lia. }
  destruct G as [G1 G2]. split; [exact G1|]. intros r j g Hr Hj H. destruct (G2 r j g Hj H) as [[P1 P2]|P]; [|right; exact P]. left. split; [lia|exact P1].
Qed.

(** ** Both layers *)
Record wired (rnd : nat -> Z) (w : list rstmt) (ic rep : Z) (n0 : nat) (l0 : list sgate) (l1 : list (option sgate)) : Prop := {
  wd_rep : Z.of_nat (length (out_nums w)) = ic * rep;
  wd_size : exists b, length l0 = (2 ^ b)%nat /\ (b < 31)%nat;
  wd_l0 : forall j g, nth_error l0 j = Some g -> sg_g g = Z.of_nat j /\ sg_v g = 0 /\ is_ll (sg_u g);
  wd_len : length l1 = (n0 * Z.to_nat rep)%nat;
  wd_cell : forall r j g, (r < Z.to_nat rep)%nat -> (j < n0)%nat -> nth_error l1 (r * n0 + j) = Some (Some g) ->
    (Z.of_nat j < ic /\ exists u gu, g = SG 10 (Z.of_nat (r * n0 + j)) (Z.of_nat u) 0 /\ nth_error l0 u = Some gu /\
       feeds rnd w (Z.of_nat r * ic + Z.of_nat j) (sg_u gu)) \/
    (ic <= Z.of_nat j /\ g = SG 2 (Z.of_nat (r * n0 + j)) 0 0) }.

Lemma out_pos_div : forall s ic n0 o v m, rr_out s (kV v) = o -> rr_min s = m -> 0 <= m <= o -> o <= 1061109567 -> 0 < ic -> ic <= Z.of_nat n0 <= 2 * ic ->
  out_pos s ic n0 (kV v) = (o - m) / ic * Z.of_nat n0 + (o - m) mod ic.
Proof.
  intros s ic n0 o v m Ho Hm H1 H2 H3 H4. unfold out_pos. cbn [kV snd]. fold (kV v). rewrite Ho, Hm. rewrite Z.quot_div_nonneg, Z.rem_mod_nonneg by lia. apply cast_int_id.
  pose proof (Z.div_mod (o - m) ic ltac:(lia)). pose proof (Z.mod_pos_bound (o - m) ic ltac:(lia)). pose proof (Z.div_pos (o - m) ic ltac:(lia) ltac:(lia)).
  assert ((o - m) / ic * Z.of_nat n0 <= (o - m) / ic * (2 * ic)) by (apply Z.mul_le_mono_nonneg_l; lia).
  assert (0 <= (o - m) / ic * Z.of_nat n0) by (apply Z.mul_nonneg_nonneg; lia). lia.
Qed.
Lemma read_rdl_inv : forall rnd w p K lv ps var L l0 l1 rep S0, (forall i, 0 <= rnd i < 2 ^ 31) -> wiring_ok w -> shape p K lv ps var L -> nth_error L 0 = Some S0 ->
  read_rdl rnd w (Z.of_nat (length (inputs p))) L = Ok (l0, l1, rep) -> Z.of_nat (length (sl_gates S0)) * rep < 2 ^ 31 ->
  (0 < length (inputs p))%nat /\ wired rnd w (Z.of_nat (length (inputs p))) rep (length (sl_gates S0)) l0 l1.
Proof.
  intros rnd w p K lv ps var L l0 l1 rep S0 RND W SH N0 E SZ. unfold read_rdl in E. apply bind_inv in E. destruct E as (s & E1 & E). pose proof (read_rstmts_inv rnd w s W E1) as RI.
  apply bind_inv in E. destruct E as (S0' & Q & E). apply rd_inv in Q. rewrite N0 in Q. injection Q as <-.
  set (ic := Z.of_nat (length (inputs p))) in *. apply bind_inv in E. destruct E as (x & Q & E). destruct (Z.eqb_spec ic 0) as [|NZ]; [discriminate Q|]. clear x Q.
  cbv zeta in E. apply bind_inv in E. destruct E as (x & Q & E). apply assert_inv in Q. apply Z.eqb_eq in Q. clear x.
  apply bind_inv in E. destruct E as ([c pos] & EN & E). apply bind_inv in E. destruct E as (l0' & EI & E). apply bind_inv in E. destruct E as (l1' & ER & E).
  apply Ok_inj in E. injection E as -> -> Hrep. rewrite Hrep in *.
  assert (ICP : 0 < ic) by (unfold ic in *; lia). split; [unfold ic in *; lia|].
  destruct RI as [RS RK RP RSr RO RM RC RR]. destruct W as (N1 & N2 & N3 & W).
  destruct (sh_layer _ _ _ _ _ _ SH 0%nat) as (S0' & b0 & Q0 & B0 & B1 & B2 & B3 & B4); [apply nth_error_Some; rewrite N0; discriminate|].
  rewrite N0 in Q0. injection Q0 as <-. destruct (B4 eq_refl) as (B5 & B6 & B7). set (n0 := length (sl_gates S0)) in *.
  assert (N0Z : Z.of_nat n0 = 2 ^ Z.of_nat b0) by (rewrite B2, Nat2Z.inj_pow; reflexivity).
  assert (REP0 : 0 <= rep) by (rewrite <- Hrep; apply Z.quot_pos; lia).
  (* the first layer *)
  unfold rdl_inputs in EI. cbv zeta in EI. change (map _ _) with (first_gates s pos) in EI. apply bind_inv in EI. destruct EI as ([full bits] & EH & EI). apply Ok_inj in EI. subst l0.
  apply halve_one in EH; [|lia]. destruct EH as (H1 & H2 & H3 & _).
  assert (L0 : forall j g, nth_error (first_gates s pos ++ pad_gates (Z.of_nat (length (first_gates s pos))) (full - Z.of_nat (length (first_gates s pos)))) j = Some g ->
     sg_g g = Z.of_nat j /\ sg_v g = 0 /\ is_ll (sg_u g)).
  { intros j g H. destruct (Nat.lt_ge_cases j (length (first_gates s pos))) as [Hj|Hj].
    - rewrite nth_error_app1 in H by exact Hj. destruct (first_all _ _ _ _ _ _ _ RS EN H) as ([k rg] & He & Hp & ->). cbn [sg_g sg_v sg_u snd] in *. split; [reflexivity|]. split; [reflexivity|].
      assert (Hk : In k (keys (rr_m s))) by (apply in_map_iff; exists (k, rg); split; [reflexivity|exact He]). apply RK in Hk. destruct Hk as (t & -> & Ht).
      pose proof (mget_in _ rg0 _ _ _ (sorted_nodup _ _ RS) He) as EG. destruct (rtarget_cases rnd w t Ht) as [(a & b & Hpass)|(x & Hsrc)].
      + rewrite (RP t a b Hpass) in EG. subst rg. discriminate Hp.
      + rewrite (RSr t x Hsrc) in EG. subst rg. cbn [rg_in]. destruct Hsrc as [(w1 & w2 & EW)|(i & w1 & w2 & EW & ->)]; [|unfold is_ll; specialize (RND (rins w1)); lia].
        apply (W (RConst t x)). rewrite EW. apply in_app_iff. right. left. reflexivity.
    - rewrite nth_error_app2 in H by exact Hj. apply pad_gates_nth in H. subst g. cbn [sg_g sg_v sg_u]. unfold is_ll. lia. }
  destruct (rdl_relays_inv s pos ic rep n0 (sl_pad S0) l1) as [R1 R2]; [lia|exact B6|lia|exact SZ|exact REP0|exact ER|].
  constructor.
  - rewrite <- RC. symmetry. exact Q.
  - exists (Z.to_nat bits). split; [|lia]. rewrite app_length, pad_gates_length. apply Nat2Z.inj. rewrite Nat2Z.inj_pow, Nat2Z.inj_add, !Z2Nat.id by lia. change (Z.of_nat 2) with 2. lia.
  - exact L0.
  - exact R1.
  - intros r j g Hr Hj Hg. destruct (R2 r j g Hr Hj Hg) as [[P1 P2]|P]; [|right; exact P]. left. split; [exact P1|].
    destruct P2 as ([k rg] & He & Hp & Hpos & ->). cbn [fst snd] in *.
    assert (Hk : In k (keys (rr_m s))) by (apply in_map_iff; exists (k, rg); split; [reflexivity|exact He]). apply RK in Hk. destruct Hk as (v & -> & Ht).
    pose proof (mget_in _ rg0 _ _ _ (sorted_nodup _ _ RS) He) as EG. destruct (rtarget_cases rnd w v Ht) as [(a & b & Hpass)|(x & Hsrc)]; [|rewrite (RSr v x Hsrc) in EG; subst rg; discriminate Hp].
    rewrite (RP v a b Hpass) in EG. subst rg. cbn [rg_in] in *. destruct (W _ Hpass) as [Wv Wa].
    unfold out_vars in Wv. apply in_flat_map in Wv. destruct Wv as (st & Hst & Hv). destruct st as [| |o v'| |]; try (destruct Hv; fail). destruct Hv as [->|[]].
    pose proof (RO o v Hst) as Ho. destruct (W _ Hst) as [Wo _].
    assert (Hon : In o (out_nums w)) by (apply in_flat_map; exists (ROut o v); split; [exact Hst|left; reflexivity]).
    destruct RM as [RM1 RM2]. assert (RM3 : In (rr_min s) (out_nums w)).
    { destruct RM2 as [RM2|RM2]; [|exact RM2]. specialize (RM1 o Hon). replace (rr_min s) with o by lia. exact Hon. }
    assert (MN : 0 <= rr_min s).
    { unfold out_nums in RM3. apply in_flat_map in RM3. destruct RM3 as (st & Hst' & Hm). destruct st as [| |o' v'| |]; try (destruct Hm; fail). destruct Hm as [<-|[]]. apply (W _ Hst'). }
    pose proof He as He'. apply in_split in He'. destruct He' as (m1 & m2 & EM). pose proof (number_rdl_inv _ _ _ _ _ RS EN _ _ _ EM) as PE. cbn [fst snd rg_pass] in PE.
    rewrite (out_pos_div s ic n0 o v (rr_min s) Ho eq_refl) in PE by (try (split; [exact MN|apply RM1, Hon]); lia). rewrite Hpos in PE.
    assert (QR : o - rr_min s = Z.of_nat r * ic + Z.of_nat j).
    { pose proof (Z.div_mod (o - rr_min s) ic ltac:(lia)) as DM. pose proof (Z.mod_pos_bound (o - rr_min s) ic ltac:(lia)) as MB. set (q := (o - rr_min s) / ic) in *. set (d := (o - rr_min s) mod ic) in *.
      rewrite Nat2Z.inj_add, Nat2Z.inj_mul in PE. assert (q = Z.of_nat r) by nia. subst q. nia. }
    destruct (sources_source rnd w a Wa) as (x & Hsrc). pose proof (RSr a x Hsrc) as Ga.
    assert (Hka : In (kV a) (keys (rr_m s))) by (apply RK; exists a; split; [reflexivity|eapply source_target, Hsrc]). apply (in_mget _ rg0) in Hka. rewrite Ga in Hka.
    apply in_split in Hka. destruct Hka as (m1' & m2' & EM'). pose proof (number_rdl_inv _ _ _ _ _ RS EN _ _ _ EM') as PA. cbn [fst snd rg_pass] in PA.
    pose proof (first_nth _ _ _ _ _ _ _ _ RS EN EM' eq_refl) as FN. cbn [snd rg_in] in FN.
    exists (length (filter nonpass m1')), (SG 3 (Z.of_nat (length (filter nonpass m1'))) x 0). split; [rewrite PA; reflexivity|]. split.
    + rewrite nth_error_app1; [exact FN|]. apply nth_error_Some. rewrite FN. discriminate.
    + cbn [sg_u]. exists (rr_min s), o, v, a, b. split; [split; [exact RM3|exact RM1]|]. split; [exact Hst|]. split; [exact QR|]. split; [exact Hpass|exact Hsrc].
Qed.

(** At most one value is routed to an output. *)
Lemma nodup_flat : forall A B (f : A -> list B) w x y t, NoDup (flat_map f w) -> In x w -> In y w -> In t (f x) -> In t (f y) -> x = y.
Proof.
  intros A B f. induction w as [|z w IH]; intros x y t ND Hx Hy Tx Ty; [destruct Hx|]. cbn [flat_map] in ND.
  assert (C : forall t' , In t' (f z) -> ~ In t' (flat_map f w)).
  { intros t' H1 H2. apply in_split in H1. destruct H1 as (l1 & l2 & Q). rewrite Q, <- app_assoc in ND. apply NoDup_remove_2 in ND. apply ND. rewrite !in_app_iff. tauto. }
  assert (ND' : NoDup (flat_map f w)) by (clear - ND; induction (f z) as [|a l IH]; [exact ND|inversion ND; auto]).
  destruct Hx as [->|Hx]; destruct Hy as [->|Hy]; [reflexivity| | |apply (IH x y t); assumption]; exfalso.
  - apply (C t Tx). apply in_flat_map. exists y. split; assumption.
  - apply (C t Ty). apply in_flat_map. exists x. split; assumption.
Qed.
Lemma nodup_split : forall A B (f : A -> list B) w1 x w2 w1' y w2' t, NoDup (flat_map f (w1 ++ x :: w2)) -> w1 ++ x :: w2 = w1' ++ y :: w2' -> In t (f x) -> In t (f y) -> w1 = w1' /\ x = y.
Proof.
  intros A B f. induction w1 as [|z w1 IH]; intros x w2 w1' y w2' t ND E Tx Ty.
  - destruct w1' as [|z' w1']; [injection E as -> _; split; reflexivity|]. injection E as -> ->. exfalso. cbn [app flat_map] in ND.
    apply in_split in Tx. destruct Tx as (l1 & l2 & Q). rewrite Q, <- app_assoc in ND. apply NoDup_remove_2 in ND. apply ND. rewrite flat_map_app. cbn [flat_map]. rewrite !in_app_iff. tauto.
  - destruct w1' as [|z' w1'].
    + injection E as -> E. exfalso. cbn [app flat_map] in ND. apply in_split in Ty. destruct Ty as (l1 & l2 & Q). rewrite Q, <- app_assoc in ND. apply NoDup_remove_2 in ND. apply ND.
      rewrite flat_map_app. cbn [flat_map]. rewrite !in_app_iff. tauto.
    + injection E as -> E. cbn [app flat_map] in ND. assert (ND' : NoDup (flat_map f (w1 ++ x :: w2))) by (clear - ND; induction (f z') as [|a l IH]; [exact ND|inversion ND; auto]).
      destruct (IH x w2 w1' y w2' t ND' E Tx Ty) as [-> ->]. split; reflexivity.
Qed.
Lemma source_fun : forall rnd w t x y, NoDup (flat_map rtarget w) -> source rnd w t x -> source rnd w t y -> x = y.
Proof.
  intros rnd w t x y ND [(w1 & w2 & E)|(i & w1 & w2 & E & ->)] [(w1' & w2' & E')|(i' & w1' & w2' & E' & ->)]; subst w.
  - destruct (nodup_split _ _ rtarget _ _ _ _ _ _ t ND E' ltac:(left; reflexivity) ltac:(left; reflexivity)) as [_ Q]. injection Q as ->. reflexivity.
  - destruct (nodup_split _ _ rtarget _ _ _ _ _ _ t ND E' ltac:(left; reflexivity) ltac:(left; reflexivity)) as [_ Q]. discriminate Q.
  - destruct (nodup_split _ _ rtarget _ _ _ _ _ _ t ND E' ltac:(left; reflexivity) ltac:(left; reflexivity)) as [_ Q]. discriminate Q.
  - destruct (nodup_split _ _ rtarget _ _ _ _ _ _ t ND E' ltac:(left; reflexivity) ltac:(left; reflexivity)) as [-> Q]. reflexivity.
Qed.
Lemma feeds_fun : forall rnd w q x y, wiring_ok w -> feeds rnd w q x -> feeds rnd w q y -> x = y.
Proof.
  intros rnd w q x y (N1 & N2 & N3 & W) (m & o & v & s & b & (M1 & M2) & H1 & H2 & H3 & H4) (m' & o' & v' & s' & b' & (M1' & M2') & H1' & H2' & H3' & H4').
  assert (m = m') as <- by (pose proof (M2 m' M1'); pose proof (M2' m M1); lia). assert (o = o') as <- by lia.
  pose proof (nodup_flat _ _ _ _ _ _ o N2 H1 H1' ltac:(left; reflexivity) ltac:(left; reflexivity)) as Q. injection Q as <-.
  pose proof (nodup_flat _ _ _ _ _ _ v N1 H3 H3' ltac:(left; reflexivity) ltac:(left; reflexivity)) as Q. injection Q as <- <-.
  apply (source_fun rnd w s x y N1 H4 H4').
Qed.
