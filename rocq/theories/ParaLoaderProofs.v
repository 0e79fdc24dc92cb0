(** * The loader of the multi-threaded track: which files it takes, and the gate lists it builds *)
From Coq Require Import ZArith List Bool Arith Lia Permutation.
From Verif Require Import Limbs Field Base Circuit Conc ParaProver Loader SpecLoader LoaderProofs FastLoader SpecFastLoader FastLoaderProofs FastLoadedProofs
  TradProver TradVerifier TradLoader SpecTradLoader TradLoaderProofs ParaVerifier SpecParaLoader.
Import ListNotations.
Open Scope Z_scope.

Definition upush (e : entry) : Z * (Z * nat * Z) := (f_u (snd e), (f_ty (snd e), fst e, f_v (snd e))).
Definition vpush (e : entry) : Z * (Z * nat * Z) := (f_v (snd e), (f_ty (snd e), fst e, f_u (snd e))).
Lemma pload_gate_iff : forall t a us vs p st, pload_gate (t, a, (us, vs), p) = Ok st <->
  exists e t', t = [f_ty (snd e); Z.of_nat (fst e); f_u (snd e); f_v (snd e)] ++ t' /\ int_gate (snd e) /\
    (fst e < length a)%nat /\ is_int (Z.of_nat (fst e)) /\ st = (t', upd a (fst e) (Some (tcell e)), (us ++ [upush e], vs ++ [vpush e]), Z.of_nat (fst e)).
Proof.
  intros t a us vs p st. split.
  - intro H. unfold pload_gate in H.
    apply bind_inv in H. destruct H as ([ty t1] & E1 & H). apply scan_int_iff in E1. destruct E1 as [-> I1].
    apply bind_inv in H. destruct H as ([g t2] & E2 & H). apply scan_int_iff in E2. destruct E2 as [-> I2].
    apply bind_inv in H. destruct H as ([u t3] & E3 & H). apply scan_int_iff in E3. destruct E3 as [-> I3].
    apply bind_inv in H. destruct H as ([v t4] & E4 & H). apply scan_int_iff in E4. destruct E4 as [-> I4].
    apply bind_inv in H. destruct H as (k & E5 & H). unfold idx in E5. destruct (Z.ltb_spec g 0); [discriminate|]. apply Ok_inj in E5. subst k.
    apply bind_inv in H. destruct H as (a' & E6 & H). apply wr_iff in E6. destruct E6 as [Lt ->]. apply Ok_inj in H. subst st.
    exists (Z.to_nat g, FGate ty u v), t4. unfold upush, vpush. cbn [fst snd f_ty f_u f_v]. rewrite Z2Nat.id by assumption.
    split; [reflexivity|]. split; [exact (conj I1 (conj I3 I4))|]. split; [exact Lt|]. split; [exact I2|reflexivity].
  - intros ([k [ty u v]] & t' & -> & (I1 & I3 & I4) & Lt & I2 & ->). cbn [fst snd f_ty f_u f_v] in *.
    unfold pload_gate. cbn [app].
    rewrite (proj2 (scan_int_iff _ _ _) (conj eq_refl I1)), bind_ok.
    rewrite (proj2 (scan_int_iff _ _ _) (conj eq_refl I2)), bind_ok.
    rewrite (proj2 (scan_int_iff _ _ _) (conj eq_refl I3)), bind_ok.
    rewrite (proj2 (scan_int_iff _ _ _) (conj eq_refl I4)), bind_ok.
    unfold idx. destruct (Z.ltb_spec (Z.of_nat k) 0); [lia|]. rewrite Nat2Z.id, bind_ok.
    rewrite (proj2 (wr_iff _ a k _ _) (conj Lt eq_refl)), bind_ok. reflexivity.
Qed.
Lemma pload_gates_iff : forall n s t a us vs p st, for_ n s (fun _ => pload_gate) (t, a, (us, vs), p) = Ok st <->
  exists l t', length l = n /\ t = entry_tokens l ++ t' /\ Forall (fun e : entry => int_gate (snd e)) l /\ fits (length a) l /\
    st = (t', puts tcell l a, (us ++ map upush l, vs ++ map vpush l), end_id p l).
Proof.
  induction n; intros s t a us vs p st.
  - cbn [for_]. split.
    + intro E. apply Ok_inj in E. subst st. exists [], t. split; [reflexivity|]. split; [reflexivity|]. split; [constructor|]. split; [constructor|]. cbn [map]. rewrite !app_nil_r. reflexivity.
    + intros (l & t' & L & -> & _ & _ & ->). destruct l; [|discriminate]. cbn [map]. rewrite !app_nil_r. reflexivity.
  - rewrite for_S. split.
    + intro H. apply bind_inv in H. destruct H as (st1 & E & H). apply pload_gate_iff in E.
      destruct E as (e & t1 & -> & Oe & Le & Ie & ->). apply IHn in H.
      destruct H as (l & t' & L & -> & F & Fi & ->). exists (e :: l), t'. split; [cbn [length]; rewrite L; reflexivity|].
      split; [unfold entry_tokens; cbn [map concat]; rewrite <- app_assoc; reflexivity|]. split; [constructor; assumption|].
      split; [constructor; [split; assumption|]|].
      { rewrite upd_length in Fi. exact Fi. }
      unfold puts, end_id. cbn [fold_left map]. rewrite last_cons, <- !app_assoc. reflexivity.
    + intros (l & t' & L & -> & F & Fi & ->). destruct l as [|e l]; [discriminate|]. injection L as L.
      inversion F; subst. inversion Fi as [|? ? [Le Ie] Fi']; subst.
      assert (G : pload_gate (entry_tokens (e :: l) ++ t', a, (us, vs), p) =
        Ok (entry_tokens l ++ t', upd a (fst e) (Some (tcell e)), (us ++ [upush e], vs ++ [vpush e]), Z.of_nat (fst e))).
      { apply pload_gate_iff. exists e, (entry_tokens l ++ t'). split; [unfold entry_tokens; cbn [map concat]; rewrite <- app_assoc; reflexivity|].
        split; [assumption|]. split; [exact Le|]. split; [exact Ie|]. reflexivity. }
      rewrite G, bind_ok. apply IHn. exists l, t'. split; [reflexivity|]. split; [reflexivity|]. split; [assumption|]. split; [rewrite upd_length; exact Fi'|].
      unfold puts, end_id. cbn [fold_left map]. rewrite last_cons, <- !app_assoc. reflexivity.
Qed.

Lemma pload_layer_iff : forall t ls ms mx st, pload_layer (t, (ls, ms), mx) = Ok st <->
  exists l t', t = flayer_tokens l ++ t' /\ tpre_ok l /\
    st = (t', (ls ++ [Raw (tcells l) (last_bits l)], ms ++ [(by_left l, by_right l)]), Z.max mx (Z.of_nat (last_bits l))).
Proof.
  intros t ls ms mx st.
  assert (MAIN : forall (l : list entry) t', (1 <= length l)%nat -> Z.of_nat (length l) < 2 ^ 31 -> Forall (fun e : entry => int_gate (snd e)) l -> fits (length l + pad (length l)) l ->
    pload_layer (flayer_tokens l ++ t', (ls, ms), mx) = Ok st <->
    Z.of_nat (last_id l) < 2 ^ 30 /\ (length l = 1%nat -> last_id l = 0%nat) /\
    st = (t', (ls ++ [Raw (tcells l) (last_bits l)], ms ++ [(by_left l, by_right l)]), Z.max mx (Z.of_nat (last_bits l)))).
  { intros l t' H1 H2 F Fi. unfold pload_layer, flayer_tokens. cbn [app].
    assert (In : is_int (Z.of_nat (length l))) by (unfold is_int; lia).
    rewrite (proj2 (scan_int_iff _ _ _) (conj eq_refl In)), bind_ok, new_gates_nat, !bind_ok, Nat2Z.id.
    assert (LP : for_ (length l) 0 (fun _ => pload_gate) (entry_tokens l ++ t', repeat None (length l + pad (length l)), ([], []), -1) =
      Ok (t', puts tcell l (repeat None (length l + pad (length l))), (map upush l, map vpush l), end_id (-1) l)).
    { apply pload_gates_iff. exists l, t'. rewrite repeat_length. repeat (split; [assumption || reflexivity|]). reflexivity. }
    rewrite LP, bind_ok, (end_last l (-1) H1). clear LP.
    pose proof (last_fits _ _ H1 Fi) as LF. rewrite (bits_of_last (length l) (last_id l) H1 H2 LF). clear In.
    set (A := repeat None (length l + pad (length l))) in *.
    assert (LA : length A = (length l + pad (length l))%nat) by apply repeat_length.
    destruct (Z.ltb_spec (Z.of_nat (last_id l)) (2 ^ 30)) as [G|G]; [|split; [discriminate|lia]].
    unfold tcells, raw_cells, last_bits, by_left, by_right. fold upush vpush. fold A.
    destruct (Z.eqb_spec (Z.of_nat (length l)) 1) as [E|E]; destruct (Nat.eqb_spec (length l) 1) as [E'|E']; try lia; rewrite ?app_nil_r.
    - unfold idx. destruct (Z.ltb_spec (2 ^ Z.of_nat (Nat.log2_up (S (last_id l)))) 0) as [X|X]; [pose proof (Z.pow_nonneg 2 (Z.of_nat (Nat.log2_up (S (last_id l))))); lia|].
      rewrite bind_ok. assert (LA2 : length A = 2%nat) by (rewrite LA, E'; reflexivity).
      assert (PI : length (puts tcell l A) = 2%nat) by (rewrite puts_length; exact LA2).
      assert (LI : (last_id l < 2)%nat) by (rewrite E' in LF; exact LF).
      destruct (last_id l) as [|[|q]] eqn:LQ; [| |lia].
      + change (2 ^ Z.of_nat (Nat.log2_up 1)) with 1. change (Z.of_nat (Nat.log2_up 1) + 1) with 1. change (Z.to_nat 1) with 1%nat.
        assert (W : forall x, wr (puts tcell l A) 1 x = Ok (upd (puts tcell l A) 1 x)) by (intro x; apply wr_iff; rewrite PI; split; [lia|reflexivity]).
        rewrite W, !bind_ok; split.
        * intro Q. apply Ok_inj in Q. subst st. split; [lia|]. split; [reflexivity|]. reflexivity.
        * intros (_ & _ & ->). reflexivity.
      + change (Z.to_nat (2 ^ Z.of_nat (Nat.log2_up 2))) with 2%nat.
        assert (W : forall x, wr (puts tcell l A) 2 x = UB) by (intro x; unfold wr; rewrite PI; reflexivity).
        split; [rewrite W; discriminate|]. intros (_ & Q & _). specialize (Q E'). discriminate.
    - rewrite bind_ok. replace (Z.of_nat (Nat.log2_up (S (last_id l))) + 1 - 1) with (Z.of_nat (Nat.log2_up (S (last_id l)))) by lia.
      rewrite Nat2Z.id. split.
      + intro Q. apply Ok_inj in Q. subst st. split; [exact G|]. split; [lia|reflexivity].
      + intros (_ & _ & ->). reflexivity. }
  split.
  - intro H. pose proof H as H0. unfold pload_layer in H.
    apply bind_inv in H. destruct H as ([n t1] & E1 & H). apply scan_int_iff in E1. destruct E1 as [-> I1].
    apply bind_inv in H. destruct H as (a & E2 & H).
    assert (Hn : 0 <= n). { unfold new_gates in E2. destruct (Z.ltb_spec n 0); [discriminate|assumption]. }
    destruct (Z_of_nat_complete n Hn) as (m & ->). rewrite new_gates_nat in E2. apply Ok_inj in E2. subst a.
    rewrite Nat2Z.id in H. apply bind_inv in H. destruct H as (s & E3 & H). apply pload_gates_iff in E3.
    destruct E3 as (l & t' & L & -> & F & Fi & ->). rewrite repeat_length in Fi.
    destruct m as [|m].
    { destruct l; [|discriminate]. unfold end_id in H. cbn [map last] in H. rewrite (count_shifts_neg 64 (-1) 0 ltac:(lia)) in H. discriminate. }
    exists l, t'. rewrite <- L in *. split; [reflexivity|]. assert (H1 : (1 <= length l)%nat) by lia.
    assert (H2 : Z.of_nat (length l) < 2 ^ 31) by (unfold is_int in I1; lia).
    change (Z.of_nat (length l) :: entry_tokens l ++ t') with (flayer_tokens l ++ t') in H0.
    apply MAIN in H0; try assumption. destruct H0 as (A & B & ->).
    split; [|reflexivity]. exact (conj H1 (conj H2 (conj F (conj Fi (conj A B))))).
  - intros (l & t' & -> & (H1 & H2 & F & Fi & A & B) & ->). apply MAIN; auto.
Qed.
Definition both (l : list entry) := (by_left l, by_right l).
Lemma players_iff : forall n i t ls ms mx st, for_ n i (fun _ => pload_layer) (t, (ls, ms), mx) = Ok st <->
  exists L t', length L = n /\ t = concat (map flayer_tokens L) ++ t' /\ Forall tpre_ok L /\
    st = (t', (ls ++ map traw L, ms ++ map both L), fold_left (fun m l => Z.max m (Z.of_nat (last_bits l))) L mx).
Proof.
  induction n; intros i t ls ms mx st.
  - cbn [for_]. split.
    + intro E. apply Ok_inj in E. subst st. exists [], t. cbn [map concat fold_left app]. rewrite !app_nil_r. auto.
    + intros (L & t' & E & -> & _ & ->). destruct L; [|discriminate]. cbn [map concat fold_left app]. rewrite !app_nil_r. reflexivity.
  - rewrite for_S. split.
    + intro H. apply bind_inv in H. destruct H as (st1 & E & H). apply pload_layer_iff in E. destruct E as (l & t1 & -> & O & ->).
      apply IHn in H. destruct H as (L & t' & E & -> & F & ->). exists (l :: L), t'.
      cbn [length map concat fold_left]. rewrite <- !app_assoc. split; [rewrite E; reflexivity|]. split; [reflexivity|]. split; [constructor; assumption|reflexivity].
    + intros (L & t' & E & -> & F & ->). destruct L as [|l L]; [discriminate|]. inversion F; subst.
      assert (G : pload_layer (concat (map flayer_tokens (l :: L)) ++ t', (ls, ms), mx) =
        Ok (concat (map flayer_tokens L) ++ t', (ls ++ [traw l], ms ++ [both l]), Z.max mx (Z.of_nat (last_bits l)))).
      { apply pload_layer_iff. exists l, (concat (map flayer_tokens L) ++ t'). cbn [map concat]. rewrite <- app_assoc.
        split; [reflexivity|]. split; [assumption|reflexivity]. }
      rewrite G, bind_ok. apply IHn. exists L, t'. injection E as E. cbn [map fold_left]. rewrite <- !app_assoc. auto.
Qed.
Theorem pread_circuit_iff : forall t C ms mx, pread_circuit t = Ok (C, ms, mx) <->
  exists L r, t = fcircuit_tokens L ++ r /\ tfile_ok L /\ Z.of_nat (length L) + 10 < 2 ^ 31 /\ tdenotes L C /\ ms = map both L /\ mx = Z.of_nat (fmax_bits L).
Proof.
  assert (FM : forall l L, fold_left (fun m l => Z.max m (Z.of_nat (last_bits l))) (l :: L) (-1) = Z.of_nat (fmax_bits (l :: L))).
  { intros l L. cbn [fold_left]. rewrite fmax_fold by lia. unfold fmax_bits. cbn [map fold_right]. lia. }
  intros t C ms mx. split.
  - intro H. unfold pread_circuit in H. apply bind_inv in H. destruct H as ([d t1] & E & H). apply scan_int_iff in E. destruct E as [-> Id].
    apply bind_inv in H. destruct H as ([] & E & H). destruct (Z.ltb_spec (d + 10) 0); [discriminate|]. destruct (Z.ltb_spec (d + 10) (2 ^ 31)); [|discriminate]. clear E.
    apply bind_inv in H. destruct H as ([[t2 [ls ms']] mb] & E1 & H).
    apply bind_inv in H. destruct H as (z & E3 & H). apply shl1_int_iff in E3. destruct E3 as [E3 _].
    apply bind_inv in H. destruct H as (ys & E4 & H). apply Ok_inj in H. injection H as <- <- <-.
    apply players_iff in E1. destruct E1 as (L & r & LL & -> & F & E1). injection E1 as -> -> -> ->. cbn [app] in E4.
    destruct L as [|l L]; [cbn [fold_left] in E3; lia|]. rewrite FM in *.
    apply (tplain_iff _ ys F) in E4. destruct E4 as [FL F2]. exists (l :: L), r.
    assert (DL : d = Z.of_nat (length (l :: L))) by (cbn [length] in *; lia).
    split; [unfold fcircuit_tokens; rewrite <- app_comm_cons, <- DL; reflexivity|]. split; [|split; [|split; [|split; reflexivity]]].
    + split; [discriminate|]. split; [exact FL|]. unfold is_int in Id. lia.
    + lia.
    + exists ys. split; [exact F2|]. rewrite LL. reflexivity.
  - intros (L & r & -> & (NE & FL & Ln) & L10 & (ys & F2 & ->) & -> & ->). destruct L as [|l L]; [contradiction|].
    assert (F : Forall tpre_ok (l :: L)) by (eapply Forall_impl; [|exact FL]; intros x Hx; apply tlayer_pre, Hx).
    unfold pread_circuit, fcircuit_tokens. cbn [app]. assert (In : is_int (Z.of_nat (length (l :: L)))) by (unfold is_int; lia).
    rewrite (proj2 (scan_int_iff _ _ _) (conj eq_refl In)), bind_ok.
    destruct (Z.ltb_spec (Z.of_nat (length (l :: L)) + 10) 0); [lia|]. destruct (Z.ltb_spec (Z.of_nat (length (l :: L)) + 10) (2 ^ 31)); [|lia]. rewrite bind_ok, Nat2Z.id.
    erewrite (proj2 (players_iff _ _ _ _ _ _ _)) by (exists (l :: L), r; split; [reflexivity|]; split; [reflexivity|]; split; [exact F|reflexivity]).
    rewrite bind_ok, FM. cbn [app]. pose proof (tmax_30 _ F).
    erewrite (proj2 (shl1_int_iff _ _)) by (split; [lia|reflexivity]). rewrite bind_ok.
    rewrite (proj2 (tplain_iff _ ys F) (conj FL F2)), bind_ok. reflexivity.
Qed.

(** ** The gate lists are those of the circuit, in the order of the file *)
Definition placed_entries (l : list entry) : list (nat * gate) :=
  map (fun e : entry => (fst e, tcell e)) l ++ (if Nat.eqb (length l) 1 then [(1%nat, Gate 2 0 0)] else []).
Lemma flat_map_app_ : forall A B (f : A -> list B) a b, flat_map f (a ++ b) = flat_map f a ++ flat_map f b.
Proof. intros A B f a b. induction a as [|x a IH]; cbn [flat_map app]; [reflexivity|]. rewrite IH, app_assoc. reflexivity. Qed.
Lemma lookup_left : forall l k, lookup (by_left l) (Z.of_nat k) =
  flat_map (fun gt : nat * gate => let '(g, x) := gt in if g_u x =? Z.of_nat k then [(g_ty x, g, g_v x)] else []) (placed_entries l).
Proof.
  intros l k. unfold lookup, by_left, placed_entries. rewrite filter_app, map_app, flat_map_app_. f_equal.
  - induction l as [|[g [ty u v]] l IH]; [reflexivity|]. cbn [map filter flat_map fst snd f_u f_v f_ty tcell trad_file_gate g_u g_v g_ty].
    unfold tcell, trad_file_gate at 1. cbn [fst snd f_u f_v f_ty g_u g_v g_ty].
    destruct (u =? Z.of_nat k); cbn [map app snd]; rewrite IH; reflexivity.
  - destruct (Nat.eqb (length l) 1); [|reflexivity]. cbn [filter fst flat_map g_u]. destruct (0 =? Z.of_nat k); reflexivity.
Qed.
Lemma lookup_right : forall l k, lookup (by_right l) (Z.of_nat k) =
  flat_map (fun gt : nat * gate => let '(g, x) := gt in if g_v x =? Z.of_nat k then [(g_ty x, g, g_u x)] else []) (placed_entries l).
Proof.
  intros l k. unfold lookup, by_right, placed_entries. rewrite filter_app, map_app, flat_map_app_. f_equal.
  - induction l as [|[g [ty u v]] l IH]; [reflexivity|]. cbn [map filter flat_map fst snd f_u f_v f_ty tcell trad_file_gate g_u g_v g_ty].
    unfold tcell, trad_file_gate at 1. cbn [fst snd f_u f_v f_ty g_u g_v g_ty].
    destruct (v =? Z.of_nat k); cbn [map app snd]; rewrite IH; reflexivity.
  - destruct (Nat.eqb (length l) 1); [|reflexivity]. cbn [filter fst flat_map g_v]. destruct (0 =? Z.of_nat k); reflexivity.
Qed.
Lemma in_combine_seq : forall A (l : list A) s g x, In (g, x) (combine (seq s (length l)) l) <-> (s <= g)%nat /\ nth_error l (g - s) = Some x.
Proof.
  intros A l. induction l as [|y l IH]; intros s g x; cbn [length seq combine].
  - split; [intros []|]. intros [_ H]. destruct (g - s)%nat; discriminate.
  - cbn [In]. rewrite IH. split.
    + intros [E|[H1 H2]]; [injection E as <- <-; split; [lia|]; rewrite Nat.sub_diag; reflexivity|].
      split; [lia|]. replace (g - s)%nat with (S (g - S s)) by lia. exact H2.
    + intros [H1 H2]. destruct (Nat.eq_dec g s) as [->|N].
      * left. rewrite Nat.sub_diag in H2. injection H2 as ->. reflexivity.
      * right. split; [lia|]. replace (g - s)%nat with (S (g - S s)) in H2 by lia. exact H2.
Qed.
Lemma placed_entries_perm : forall l gs, tlayer_ok l -> tplaced l gs -> Permutation (placed_entries l) (combine (seq 0 (length gs)) gs).
Proof.
  intros l gs (H1 & _ & PM & _) (LG & IN & D). apply NoDup_Permutation_bis.
  - apply (NoDup_map_inv fst). unfold placed_entries. rewrite map_app, map_map. cbn [fst].
    change (map (fun x : entry => fst x) l) with (map fst l).
    assert (ND : NoDup (map fst l)) by (eapply Permutation_NoDup; [symmetry; exact PM|apply seq_NoDup]).
    destruct (Nat.eqb_spec (length l) 1) as [E|E]; [|rewrite app_nil_r; exact ND].
    destruct l as [|e [|]]; try discriminate. cbn [map length seq app] in *. apply Permutation_sym, Permutation_length_1_inv in PM.
    injection PM as PM. rewrite PM. apply NoDup_cons; [intros [K|[]]; discriminate|]. apply NoDup_cons; [intros []|apply NoDup_nil].
  - rewrite combine_length, seq_length, Nat.min_id, LG. unfold placed_entries, pad. rewrite app_length, map_length.
    destruct (Nat.eqb (length l) 1); cbn [length]; lia.
  - intros [g x] I. apply in_combine_seq. split; [lia|]. rewrite Nat.sub_0_r. unfold placed_entries in I. apply in_app_or in I.
    destruct I as [I|I].
    + apply in_map_iff in I. destruct I as ([k f] & E & I). injection E as <- <-. apply IN, I.
    + destruct (Nat.eqb_spec (length l) 1) as [E|E]; [|destruct I]. destruct I as [I|[]]. injection I as <- <-. apply D, E.
Qed.
Lemma left_lists : forall l gs k, tlayer_ok l -> tplaced l gs -> Permutation (lookup (by_left l) (Z.of_nat k)) (u_gates gs k).
Proof. intros l gs k H1 H2. rewrite lookup_left. unfold u_gates. apply Permutation_flat_map, placed_entries_perm; assumption. Qed.
Lemma right_lists : forall l gs k, tlayer_ok l -> tplaced l gs -> Permutation (lookup (by_right l) (Z.of_nat k)) (v_gates gs k).
Proof. intros l gs k H1 H2. rewrite lookup_right. unfold v_gates. apply Permutation_flat_map, placed_entries_perm; assumption. Qed.
Lemma numbered_entries : forall l, placed_entries (numbered l) = combine (seq 0 (length (trad_gates l))) (trad_gates l).
Proof.
  intro l. unfold placed_entries. rewrite numbered_length, trad_gates_length. unfold trad_gates, pad, numbered.
  destruct (Nat.eqb_spec (length l) 1) as [E|E].
  - destruct l as [|f [|]]; try discriminate. reflexivity.
  - rewrite !app_nil_r, Nat.add_0_r. clear E. generalize 0%nat. induction l as [|f l IH]; intro s; [reflexivity|].
    cbn [length seq combine map fst snd]. rewrite IH. reflexivity.
Qed.
Lemma numbered_left : forall l k, lookup (by_left (numbered l)) (Z.of_nat k) = u_gates (trad_gates l) k.
Proof. intros l k. rewrite lookup_left, numbered_entries. reflexivity. Qed.
Lemma numbered_right : forall l k, lookup (by_right (numbered l)) (Z.of_nat k) = v_gates (trad_gates l) k.
Proof. intros l k. rewrite lookup_right, numbered_entries. reflexivity. Qed.
