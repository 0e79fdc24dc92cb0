(** * Exactly which files the loaders of src/traditional_gkr take, and as what *)
From Coq Require Import ZArith List Bool Arith Lia Permutation.
From Verif Require Import Limbs Field Base Circuit Loader SpecLoader LoaderProofs FastLoader SpecFastLoader FastLoaderProofs FastLoadedProofs
  TradProver TradVerifier BcProver BcVerifier TradLoader SpecTradLoader.
Import ListNotations.
Open Scope Z_scope.

(** ** The gate loop *)
Definition tcell (e : entry) : gate := trad_file_gate (snd e).
Lemma tload_gate_iff : forall t a p st, tload_gate (t, a, p) = Ok st <->
  exists e t', t = [f_ty (snd e); Z.of_nat (fst e); f_u (snd e); f_v (snd e)] ++ t' /\ int_gate (snd e) /\
    (fst e < length a)%nat /\ is_int (Z.of_nat (fst e)) /\ st = (t', upd a (fst e) (Some (tcell e)), Z.of_nat (fst e)).
Proof.
  intros t a p st. split.
  - intro H. unfold tload_gate in H.
    apply bind_inv in H. destruct H as ([ty t1] & E1 & H). apply scan_int_iff in E1. destruct E1 as [-> I1].
    apply bind_inv in H. destruct H as ([g t2] & E2 & H). apply scan_int_iff in E2. destruct E2 as [-> I2].
    apply bind_inv in H. destruct H as ([u t3] & E3 & H). apply scan_int_iff in E3. destruct E3 as [-> I3].
    apply bind_inv in H. destruct H as ([v t4] & E4 & H). apply scan_int_iff in E4. destruct E4 as [-> I4].
    apply bind_inv in H. destruct H as (k & E5 & H). unfold idx in E5. destruct (Z.ltb_spec g 0); [discriminate|]. apply Ok_inj in E5. subst k.
    apply bind_inv in H. destruct H as (a' & E6 & H). apply wr_iff in E6. destruct E6 as [Lt ->]. apply Ok_inj in H. subst st.
    exists (Z.to_nat g, FGate ty u v), t4. cbn [fst snd f_ty f_u f_v]. rewrite Z2Nat.id by assumption.
    split; [reflexivity|]. split; [exact (conj I1 (conj I3 I4))|]. split; [exact Lt|]. split; [exact I2|reflexivity].
  - intros ([k [ty u v]] & t' & -> & (I1 & I3 & I4) & Lt & I2 & ->). cbn [fst snd f_ty f_u f_v] in *.
    unfold tload_gate. cbn [app].
    rewrite (proj2 (scan_int_iff _ _ _) (conj eq_refl I1)), bind_ok.
    rewrite (proj2 (scan_int_iff _ _ _) (conj eq_refl I2)), bind_ok.
    rewrite (proj2 (scan_int_iff _ _ _) (conj eq_refl I3)), bind_ok.
    rewrite (proj2 (scan_int_iff _ _ _) (conj eq_refl I4)), bind_ok.
    unfold idx. destruct (Z.ltb_spec (Z.of_nat k) 0); [lia|]. rewrite Nat2Z.id, bind_ok.
    rewrite (proj2 (wr_iff _ a k _ _) (conj Lt eq_refl)), bind_ok. reflexivity.
Qed.
Lemma tload_gates_iff : forall n s t a p st, for_ n s (fun _ => tload_gate) (t, a, p) = Ok st <->
  exists l t', length l = n /\ t = entry_tokens l ++ t' /\ Forall (fun e : entry => int_gate (snd e)) l /\ fits (length a) l /\
    st = (t', puts tcell l a, end_id p l).
Proof.
  induction n; intros s t a p st.
  - cbn [for_]. split.
    + intro E. apply Ok_inj in E. subst st. exists [], t. split; [reflexivity|]. split; [reflexivity|]. split; [constructor|]. split; [constructor|]. reflexivity.
    + intros (l & t' & L & -> & _ & _ & ->). destruct l; [|discriminate]. reflexivity.
  - rewrite for_S. split.
    + intro H. apply bind_inv in H. destruct H as (st1 & E & H). apply tload_gate_iff in E.
      destruct E as (e & t1 & -> & Oe & Le & Ie & ->). apply IHn in H.
      destruct H as (l & t' & L & -> & F & Fi & ->). exists (e :: l), t'. split; [cbn [length]; rewrite L; reflexivity|].
      split; [unfold entry_tokens; cbn [map concat]; rewrite <- app_assoc; reflexivity|]. split; [constructor; assumption|].
      split; [constructor; [split; assumption|]|].
      { rewrite upd_length in Fi. exact Fi. }
      unfold puts, end_id. cbn [fold_left map]. rewrite last_cons. reflexivity.
    + intros (l & t' & L & -> & F & Fi & ->). destruct l as [|e l]; [discriminate|]. injection L as L.
      inversion F; subst. inversion Fi as [|? ? [Le Ie] Fi']; subst.
      assert (G : tload_gate (entry_tokens (e :: l) ++ t', a, p) =
        Ok (entry_tokens l ++ t', upd a (fst e) (Some (tcell e)), Z.of_nat (fst e))).
      { apply tload_gate_iff. exists e, (entry_tokens l ++ t'). split; [unfold entry_tokens; cbn [map concat]; rewrite <- app_assoc; reflexivity|].
        split; [assumption|]. split; [exact Le|]. split; [exact Ie|]. reflexivity. }
      rewrite G, bind_ok. apply IHn. exists l, t'. split; [reflexivity|]. split; [reflexivity|]. split; [assumption|]. split; [rewrite upd_length; exact Fi'|].
      unfold puts, end_id. cbn [fold_left map]. rewrite last_cons. reflexivity.
Qed.

(** ** One layer *)
Definition tcells (l : list entry) := raw_cells tcell (Gate 2 0 0) l.
Definition tpre_ok (l : list entry) : Prop :=
  (1 <= length l)%nat /\ Z.of_nat (length l) < 2 ^ 31 /\ Forall (fun e : entry => int_gate (snd e)) l /\
  fits (length l + pad (length l)) l /\ Z.of_nat (last_id l) < 2 ^ 30 /\ (length l = 1%nat -> last_id l = 0%nat).
Lemma bits_of_last : forall (n g : nat), (1 <= n)%nat -> Z.of_nat n < 2 ^ 31 -> (g < n + pad n)%nat ->
  forall B (c : Z -> Z -> outcome B),
  bind (count_shifts 64 (Z.of_nat g) 0) (fun cnt => bind (shl_times (Z.to_nat cnt) 1) (fun m => bind (count_shifts 64 m 0) (fun b => c m b))) =
  if Z.of_nat g <? 2 ^ 30 then c (2 ^ Z.of_nat (Nat.log2_up (S g))) (Z.of_nat (Nat.log2_up (S g)) + 1) else UB.
Proof.
  intros n g Hn Hn' Hg B c. destruct (pad_small n) as [P1 P2].
  assert (SG : Z.of_nat (S g) < 2 ^ 31) by (destruct (Nat.eq_dec n 1); [subst n; lia|]; specialize (P2 ltac:(assumption)); lia).
  pose proof (first_count (S g) ltac:(lia) SG) as FC. replace (Z.of_nat (S g) - 1) with (Z.of_nat g) in FC by lia.
  rewrite FC, bind_ok, Nat2Z.id. pose proof (log2_up_big (S g) ltac:(lia)) as LB. destruct (Z.ltb_spec (Z.of_nat g) (2 ^ 30)) as [G|G].
  - assert (L30 : (Nat.log2_up (S g) <= 30)%nat) by (apply LB; lia).
    pose proof (shl_times_ok (Nat.log2_up (S g)) 0 ltac:(lia)) as ST. change (2 ^ Z.of_nat 0) with 1 in ST.
    change (Z.of_nat 0 + Z.of_nat (Nat.log2_up (S g))) with (Z.of_nat (Nat.log2_up (S g))) in ST.
    rewrite ST, bind_ok, (second_count _ L30), bind_ok. reflexivity.
  - assert (L30 : 30 < Z.of_nat (Nat.log2_up (S g))) by lia.
    pose proof (shl_times_big (Nat.log2_up (S g)) 0 ltac:(lia) ltac:(lia)) as X. change (2 ^ Z.of_nat 0) with 1 in X. rewrite X. reflexivity.
Qed.
Lemma tload_layer_iff : forall t ls mx st, tload_layer (t, ls, mx) = Ok st <->
  exists l t', t = flayer_tokens l ++ t' /\ tpre_ok l /\
    st = (t', ls ++ [Raw (tcells l) (last_bits l)], Z.max mx (Z.of_nat (last_bits l))).
Proof.
  intros t ls mx st.
  assert (MAIN : forall (l : list entry) t', (1 <= length l)%nat -> Z.of_nat (length l) < 2 ^ 31 -> Forall (fun e : entry => int_gate (snd e)) l -> fits (length l + pad (length l)) l ->
    tload_layer (flayer_tokens l ++ t', ls, mx) = Ok st <->
    Z.of_nat (last_id l) < 2 ^ 30 /\ (length l = 1%nat -> last_id l = 0%nat) /\
    st = (t', ls ++ [Raw (tcells l) (last_bits l)], Z.max mx (Z.of_nat (last_bits l)))).
  { intros l t' H1 H2 F Fi. unfold tload_layer, flayer_tokens. cbn [app].
    assert (In : is_int (Z.of_nat (length l))) by (unfold is_int; lia).
    rewrite (proj2 (scan_int_iff _ _ _) (conj eq_refl In)), bind_ok, new_gates_nat, !bind_ok, Nat2Z.id.
    assert (LP : for_ (length l) 0 (fun _ => tload_gate) (entry_tokens l ++ t', repeat None (length l + pad (length l)), -1) =
      Ok (t', puts tcell l (repeat None (length l + pad (length l))), end_id (-1) l)).
    { apply tload_gates_iff. exists l, t'. rewrite repeat_length. repeat (split; [assumption || reflexivity|]). reflexivity. }
    rewrite LP, bind_ok, (end_last l (-1) H1). clear LP.
    pose proof (last_fits _ _ H1 Fi) as LF. rewrite (bits_of_last (length l) (last_id l) H1 H2 LF). clear In.
    set (A := repeat None (length l + pad (length l))) in *.
    assert (LA : length A = (length l + pad (length l))%nat) by apply repeat_length.
    destruct (Z.ltb_spec (Z.of_nat (last_id l)) (2 ^ 30)) as [G|G]; [|split; [discriminate|lia]].
    unfold tcells, raw_cells, last_bits. fold A.
    destruct (Z.eqb_spec (Z.of_nat (length l)) 1) as [E|E]; destruct (Nat.eqb_spec (length l) 1) as [E'|E']; try lia.
    - unfold idx. destruct (Z.ltb_spec (2 ^ Z.of_nat (Nat.log2_up (S (last_id l)))) 0) as [X|X]; [pose proof (Z.pow_nonneg 2 (Z.of_nat (Nat.log2_up (S (last_id l))))); lia|].
      rewrite bind_ok. assert (LA2 : length A = 2%nat) by (rewrite LA, E'; reflexivity).
      assert (PI : length (puts tcell l A) = 2%nat) by (rewrite puts_length; exact LA2).
      assert (LI : (last_id l < 2)%nat) by (rewrite E' in LF; exact LF).
      destruct (last_id l) as [|[|q]] eqn:LQ; [| |lia].
      + change (2 ^ Z.of_nat (Nat.log2_up 1)) with 1. change (Z.of_nat (Nat.log2_up 1) + 1) with 1. change (Z.to_nat 1) with 1%nat.
        assert (W : forall x, wr (puts tcell l A) 1 x = Ok (upd (puts tcell l A) 1 x)) by (intro x; apply wr_iff; rewrite PI; split; [lia|reflexivity]).
        rewrite W, !bind_ok; split.
        * intro Q. apply Ok_inj in Q. subst st. split; [lia|]. split; [reflexivity|]. reflexivity.
        * intros (_ & _ & ->). reflexivity.
      + change (Z.to_nat (2 ^ Z.of_nat (Nat.log2_up 2))) with 2%nat.
        assert (W : forall x, wr (puts tcell l A) 2 x = UB) by (intro x; unfold wr; rewrite PI; reflexivity).
        split; [rewrite W; discriminate|]. intros (_ & Q & _). specialize (Q E'). discriminate.
    - rewrite bind_ok. replace (Z.of_nat (Nat.log2_up (S (last_id l))) + 1 - 1) with (Z.of_nat (Nat.log2_up (S (last_id l)))) by lia.
      rewrite Nat2Z.id. split.
      + intro Q. apply Ok_inj in Q. subst st. split; [exact G|]. split; [lia|reflexivity].
      + intros (_ & _ & ->). reflexivity. }
  split.
  - intro H. pose proof H as H0. unfold tload_layer in H.
    apply bind_inv in H. destruct H as ([n t1] & E1 & H). apply scan_int_iff in E1. destruct E1 as [-> I1].
    apply bind_inv in H. destruct H as (a & E2 & H).
    assert (Hn : 0 <= n). { unfold new_gates in E2. destruct (Z.ltb_spec n 0); [discriminate|assumption]. }
    destruct (Z_of_nat_complete n Hn) as (m & ->). rewrite new_gates_nat in E2. apply Ok_inj in E2. subst a.
    rewrite Nat2Z.id in H. apply bind_inv in H. destruct H as (s & E3 & H). apply tload_gates_iff in E3.
    destruct E3 as (l & t' & L & -> & F & Fi & ->). rewrite repeat_length in Fi.
    destruct m as [|m].
    { destruct l; [|discriminate]. unfold end_id in H. cbn [map last] in H. rewrite (count_shifts_neg 64 (-1) 0 ltac:(lia)) in H. discriminate. }
    exists l, t'. rewrite <- L in *. split; [reflexivity|]. assert (H1 : (1 <= length l)%nat) by lia.
    assert (H2 : Z.of_nat (length l) < 2 ^ 31) by (unfold is_int in I1; lia).
    change (Z.of_nat (length l) :: entry_tokens l ++ t') with (flayer_tokens l ++ t') in H0.
    apply MAIN in H0; try assumption. destruct H0 as (A & B & ->).
    split; [|reflexivity]. exact (conj H1 (conj H2 (conj F (conj Fi (conj A B))))).
  - intros (l & t' & -> & (H1 & H2 & F & Fi & A & B) & ->). apply MAIN; auto.
Qed.

(** ** The whole file *)
Lemma tlayer_pre : forall l, tlayer_ok l <-> tpre_ok l /\ Permutation (map fst l) (seq 0 (length l)).
Proof.
  intro l. split.
  - intros (H1 & H2 & P & L & F). split; [|exact P].
    assert (IN : forall e, In e l -> (fst e < length l)%nat).
    { intros e He. assert (I : In (fst e) (map fst l)) by (apply in_map, He). apply (Permutation_in _ P) in I. apply in_seq in I. lia. }
    split; [exact H1|]. split; [exact H2|]. split; [exact F|]. split; [|split; [exact L|]].
    + unfold fits. apply Forall_forall. intros e He. specialize (IN e He). split; [lia|unfold is_int; lia].
    + intro E. destruct l as [|e [|]]; try discriminate. specialize (IN e (or_introl eq_refl)). unfold last_id. cbn [map last length] in *. lia.
  - intros ((H1 & H2 & F & _ & L & _) & P). exact (conj H1 (conj H2 (conj P (conj L F)))).
Qed.
Definition traw (l : list entry) : raw_layer := Raw (tcells l) (last_bits l).
Lemma tlayers_iff : forall n i t ls mx st, for_ n i (fun _ => tload_layer) (t, ls, mx) = Ok st <->
  exists L t', length L = n /\ t = concat (map flayer_tokens L) ++ t' /\ Forall tpre_ok L /\
    st = (t', ls ++ map traw L, fold_left (fun m l => Z.max m (Z.of_nat (last_bits l))) L mx).
Proof.
  induction n; intros i t ls mx st.
  - cbn [for_]. split.
    + intro E. apply Ok_inj in E. subst st. exists [], t. cbn [map concat fold_left app]. rewrite app_nil_r. auto.
    + intros (L & t' & E & -> & _ & ->). destruct L; [|discriminate]. cbn [map concat fold_left app]. rewrite app_nil_r. reflexivity.
  - rewrite for_S. split.
    + intro H. apply bind_inv in H. destruct H as (st1 & E & H). apply tload_layer_iff in E. destruct E as (l & t1 & -> & O & ->).
      apply IHn in H. destruct H as (L & t' & E & -> & F & ->). exists (l :: L), t'.
      cbn [length map concat fold_left]. rewrite <- !app_assoc. split; [rewrite E; reflexivity|]. split; [reflexivity|]. split; [constructor; assumption|reflexivity].
    + intros (L & t' & E & -> & F & ->). destruct L as [|l L]; [discriminate|]. inversion F; subst.
      assert (G : tload_layer (concat (map flayer_tokens (l :: L)) ++ t', ls, mx) =
        Ok (concat (map flayer_tokens L) ++ t', ls ++ [traw l], Z.max mx (Z.of_nat (last_bits l)))).
      { apply tload_layer_iff. exists l, (concat (map flayer_tokens L) ++ t'). cbn [map concat]. rewrite <- app_assoc.
        split; [reflexivity|]. split; [assumption|reflexivity]. }
      rewrite G, bind_ok. apply IHn. exists L, t'. injection E as E. cbn [map fold_left]. rewrite <- app_assoc. auto.
Qed.
Lemma filled_tplaced : forall l gs, filled tcell (Gate 2 0 0) l gs <-> tplaced l gs.
Proof.
  intros l gs. unfold filled, tplaced. split; intros (A & B & D); (split; [exact A|]); (split; [|exact D]).
  - intros k f I. exact (B (k, f) I).
  - intros [k f] I. apply B, I.
Qed.
Lemma tplain_iff : forall L ys, Forall tpre_ok L -> plain_layers (map traw L) = Ok ys <->
  Forall tlayer_ok L /\ Forall2 (fun l y => exists gs, tplaced l gs /\ y = plain_layer gs (last_bits l)) L ys.
Proof.
  induction L as [|l L IH]; intros ys F.
  - cbn [map plain_layers]. split; [intro E; apply Ok_inj in E; subst; split; constructor|]. intros [_ H]. inversion H. reflexivity.
  - inversion F as [|? ? O F']; subst. cbn [map plain_layers traw r_gates r_bits].
    pose proof O as (H1 & _ & _ & Fi & _ & L1).
    assert (CI : forall gs, initialised (tcells l) = Ok gs <-> tlayer_ok l /\ tplaced l gs).
    { intro gs. rewrite initialised_iff. unfold tcells. rewrite (cells_iff _ _ l gs H1 Fi L1), (filled_tplaced l gs).
      rewrite tlayer_pre. tauto. }
    split.
    + intro H. apply bind_inv in H. destruct H as (gs & E & H). apply CI in E. destruct E as [E1 E2].
      apply bind_inv in H. destruct H as (ls & E & H). apply IH in E; [|assumption]. destruct E as [E3 E4]. apply Ok_inj in H. subst ys.
      split; constructor; try assumption. exists gs. auto.
    + intros [A B]. inversion A; subst. inversion B as [|? y ? ys' (gs & PL & ->) B']; subst.
      rewrite (proj2 (CI gs)) by auto. rewrite bind_ok. rewrite (proj2 (IH ys' F')) by auto. reflexivity.
Qed.
Lemma tlast_bits_30 : forall l, tpre_ok l -> (last_bits l <= 30)%nat.
Proof.
  intros l (_ & _ & _ & _ & L & _). unfold last_bits. destruct (Nat.eqb (length l) 1); [lia|]. apply log2_up_big; lia.
Qed.
Lemma tmax_30 : forall L, Forall tpre_ok L -> (fmax_bits L <= 30)%nat.
Proof.
  intros L H. unfold fmax_bits. induction H; cbn [map fold_right]; [lia|]. apply Nat.max_lub; [apply tlast_bits_30; assumption|assumption].
Qed.
Theorem tread_circuit_iff : forall t C mx, tread_circuit t = Ok (C, mx) <->
  exists L r, t = fcircuit_tokens L ++ r /\ tfile_ok L /\ tdenotes L C /\ mx = Z.of_nat (fmax_bits L).
Proof.
  assert (FM : forall l L, fold_left (fun m l => Z.max m (Z.of_nat (last_bits l))) (l :: L) (-1) = Z.of_nat (fmax_bits (l :: L))).
  { intros l L. cbn [fold_left]. rewrite fmax_fold by lia. unfold fmax_bits. cbn [map fold_right]. lia. }
  intros t C mx. split.
  - intro H. unfold tread_circuit in H. apply bind_inv in H. destruct H as ([d t1] & E & H). apply scan_int_iff in E. destruct E as [-> Id].
    apply bind_inv in H. destruct H as ([] & E & H). destruct (Z.ltb_spec d 0); [discriminate|]. clear E.
    apply bind_inv in H. destruct H as ([[t2 ls] mb] & E1 & H).
    apply bind_inv in H. destruct H as (z & E3 & H). apply shl1_int_iff in E3. destruct E3 as [E3 _].
    apply bind_inv in H. destruct H as (ys & E4 & H). apply Ok_inj in H. injection H as <- <-.
    apply tlayers_iff in E1. destruct E1 as (L & r & LL & -> & F & E1). injection E1 as -> -> ->. cbn [app] in E4.
    destruct L as [|l L]; [cbn [fold_left] in E3; lia|]. rewrite FM in *.
    apply (tplain_iff _ ys F) in E4. destruct E4 as [FL F2]. exists (l :: L), r.
    assert (DL : d = Z.of_nat (length (l :: L))) by lia.
    split; [unfold fcircuit_tokens; rewrite <- app_comm_cons, <- DL; reflexivity|]. split; [|split; [|reflexivity]].
    + split; [discriminate|]. split; [exact FL|]. unfold is_int in Id. lia.
    + exists ys. split; [exact F2|]. rewrite LL. reflexivity.
  - intros (L & r & -> & (NE & FL & Ln) & (ys & F2 & ->) & ->). destruct L as [|l L]; [contradiction|].
    assert (F : Forall tpre_ok (l :: L)) by (eapply Forall_impl; [|exact FL]; intros x Hx; apply tlayer_pre, Hx).
    unfold tread_circuit, fcircuit_tokens. cbn [app]. assert (In : is_int (Z.of_nat (length (l :: L)))) by (unfold is_int; lia).
    rewrite (proj2 (scan_int_iff _ _ _) (conj eq_refl In)), bind_ok.
    destruct (Z.ltb_spec (Z.of_nat (length (l :: L))) 0); [lia|]. rewrite bind_ok, Nat2Z.id.
    erewrite (proj2 (tlayers_iff _ _ _ _ _ _)) by (exists (l :: L), r; split; [reflexivity|]; split; [reflexivity|]; split; [exact F|reflexivity]).
    rewrite bind_ok, FM. cbn [app]. pose proof (tmax_30 _ F).
    erewrite (proj2 (shl1_int_iff _ _)) by (split; [lia|reflexivity]). rewrite bind_ok.
    rewrite (proj2 (tplain_iff _ ys F) (conj FL F2)), bind_ok. reflexivity.
Qed.

(** ** Files in order *)
Lemma trad_gates_length : forall l, length (trad_gates l) = (length l + pad (length l))%nat.
Proof. intro l. unfold trad_gates, pad. rewrite app_length, map_length. destruct (Nat.eqb (length l) 1); reflexivity. Qed.
Lemma numbered_tplaced : forall l, tplaced (numbered l) (trad_gates l).
Proof.
  intro l. unfold tplaced. rewrite numbered_length. split; [apply trad_gates_length|]. split.
  - intros k f I. apply numbered_in in I. unfold trad_gates. assert (k < length l)%nat by (apply nth_error_Some; congruence).
    rewrite nth_error_app1 by (rewrite map_length; assumption). apply map_nth_error, I.
  - intro E. destruct l as [|f [|]]; try discriminate. reflexivity.
Qed.
Lemma trad_in_order : forall L r, L <> [] ->
  Forall (fun x => (1 <= length x)%nat /\ Z.of_nat (length x) <= 2 ^ 30 /\ Forall int_gate x) L -> Z.of_nat (length L) < 2 ^ 31 ->
  tread_circuit (fcircuit_tokens (in_order L) ++ r) = Ok (trad_file_circuit L, Z.of_nat (fast_bits L)).
Proof.
  intros L r NE F H. apply tread_circuit_iff. exists (in_order L), r. split; [reflexivity|].
  rewrite Forall_forall in F. split; [|split].
  - split; [destruct L; [contradiction|discriminate]|]. split; [|unfold in_order; rewrite map_length; exact H].
    apply Forall_forall. intros y I. apply in_map_iff in I. destruct I as (x & <- & I). destruct (F x I) as (H1 & H2 & D).
    unfold tlayer_ok. rewrite numbered_length, numbered_fst, numbered_last by exact H1.
    split; [exact H1|]. split; [lia|]. split; [apply Permutation_refl|]. split; [lia|].
    apply Forall_forall. intros [k f] J. apply numbered_in in J. rewrite Forall_forall in D. exact (D f (nth_error_In _ _ J)).
  - exists (map trad_file_layer L). split; [|unfold in_order; rewrite map_length; reflexivity].
    clear NE H. induction L as [|x L IH]; cbn [map in_order]; constructor; [|apply IH; intros y I; apply F; right; exact I].
    exists (trad_gates x). split; [apply numbered_tplaced|]. rewrite numbered_bits by (apply (F x (or_introl eq_refl))). reflexivity.
  - f_equal. unfold fast_bits, fmax_bits, in_order. rewrite map_map. f_equal. apply map_ext_in. intros x I. symmetry. apply numbered_bits, (F x I).
Qed.

(** ** The block loader reads the same circuit into every block *)
Lemma each_repeat : forall A B (f : A -> outcome B) x n, (1 <= n)%nat -> each f (repeat x n) = bind (f x) (fun y => Ok (repeat y n)).
Proof.
  intros A B f x n H. destruct n as [|n]; [lia|]. clear H. induction n; cbn [repeat each].
  - destruct (f x); reflexivity.
  - change (repeat x (S n)) with (x :: repeat x n) in IHn. cbn [each] in IHn |- *. rewrite IHn. destruct (f x); reflexivity.
Qed.
Section Copies.
Variable n : nat.
Hypothesis Hn : (1 <= n)%nat.
Lemma bload_gate_copies : forall t a p, bload_gate (t, repeat a n, p) =
  bind (tload_gate (t, a, p)) (fun st => let '(t, a, p) := st in Ok (t, repeat a n, p)).
Proof.
  intros t a p. unfold bload_gate, tload_gate.
  destruct (scan_int t) as [[ty t1]| | | | | |]; cbn [bind]; try reflexivity.
  destruct (scan_int t1) as [[g t2]| | | | | |]; cbn [bind]; try reflexivity.
  destruct (scan_int t2) as [[u t3]| | | | | |]; cbn [bind]; try reflexivity.
  destruct (scan_int t3) as [[v t4]| | | | | |]; cbn [bind]; try reflexivity.
  rewrite each_repeat by exact Hn. destruct (idx g) as [k| | | | | |]; cbn [bind]; try reflexivity.
  destruct (wr a k (Some (Gate ty u v))) as [a'| | | | | |]; cbn [bind]; reflexivity.
Qed.
Lemma bload_gates_copies : forall m s t a p, for_ m s (fun _ => bload_gate) (t, repeat a n, p) =
  bind (for_ m s (fun _ => tload_gate) (t, a, p)) (fun st => let '(t, a, p) := st in Ok (t, repeat a n, p)).
Proof.
  induction m; intros s t a p; [reflexivity|]. rewrite !for_S, bload_gate_copies.
  destruct (tload_gate (t, a, p)) as [[[t' a'] p']| | | | | |]; cbn [bind]; try reflexivity. apply IHm.
Qed.
Lemma combine_repeat : forall A B (x : A) (y : B) m, combine (repeat x m) (repeat y m) = repeat (x, y) m.
Proof. induction m; [reflexivity|]. cbn [repeat combine]. rewrite IHm. reflexivity. Qed.
Lemma map_repeat' : forall A B (f : A -> B) x m, map f (repeat x m) = repeat (f x) m.
Proof. induction m; [reflexivity|]. cbn [repeat map]. rewrite IHm. reflexivity. Qed.
Lemma fold_max_repeat : forall A (x : A) b m, fold_left (fun m _ => Z.max m b) (repeat x n) m = Z.max m b.
Proof.
  intros A x b. destruct n as [|q]; [lia|]. clear Hn. cbn [repeat fold_left]. intro m. generalize m. clear m. induction q; intro m; [reflexivity|].
  cbn [repeat fold_left]. replace (Z.max (Z.max m b) b) with (Z.max m b) by lia. apply IHq.
Qed.
Lemma bload_layer_copies : forall t ls mx, bload_layer (t, repeat ls n, mx) =
  bind (tload_layer (t, ls, mx)) (fun st => let '(t, ls, mx) := st in Ok (t, repeat ls n, mx)).
Proof.
  intros t ls mx. unfold bload_layer, tload_layer.
  destruct (scan_int t) as [[c t1]| | | | | |]; cbn [bind]; try reflexivity.
  rewrite each_repeat by exact Hn. destruct (new_gates c) as [a| | | | | |]; cbn [bind]; try reflexivity.
  rewrite bload_gates_copies. destruct (for_ (Z.to_nat c) 0 (fun _ => tload_gate) (t1, a, -1)) as [[[t2 a2] p2]| | | | | |]; cbn [bind]; try reflexivity.
  destruct (count_shifts 64 p2 0) as [z1| | | | | |]; cbn [bind]; try reflexivity.
  destruct (shl_times (Z.to_nat z1) 1) as [z2| | | | | |]; cbn [bind]; try reflexivity.
  destruct (count_shifts 64 z2 0) as [z3| | | | | |]; cbn [bind]; try reflexivity.
  destruct (c =? 1).
  - rewrite each_repeat by exact Hn. destruct (idx z2) as [k| | | | | |]; cbn [bind]; try reflexivity.
    destruct (wr a2 k (Some (Gate 2 0 0))) as [a3| | | | | |]; cbn [bind]; try reflexivity.
    rewrite fold_max_repeat, combine_repeat, map_repeat'. reflexivity.
  - cbn [bind]. rewrite fold_max_repeat, combine_repeat, map_repeat'. reflexivity.
Qed.
Lemma bload_layers_copies : forall m s t ls mx, for_ m s (fun _ => bload_layer) (t, repeat ls n, mx) =
  bind (for_ m s (fun _ => tload_layer) (t, ls, mx)) (fun st => let '(t, ls, mx) := st in Ok (t, repeat ls n, mx)).
Proof.
  induction m; intros s t ls mx; [reflexivity|]. rewrite !for_S, bload_layer_copies.
  destruct (tload_layer (t, ls, mx)) as [[[t' ls'] mx']| | | | | |]; cbn [bind]; try reflexivity. apply IHm.
Qed.
End Copies.
Lemma no_copies_max : forall m s t mx st, for_ m s (fun _ => bload_layer) (t, [], mx) = Ok st -> snd (fst st) = [] /\ snd st = mx.
Proof.
  induction m; intros s t mx st H.
  - cbn [for_] in H. apply Ok_inj in H. subst st. split; reflexivity.
  - rewrite for_S in H. apply bind_inv in H. destruct H as ([[t1 ls1] mx1] & E & H).
    assert (K : ls1 = [] /\ mx1 = mx).
    { unfold bload_layer in E. cbn [each] in E. apply bind_inv in E. destruct E as ([c t2] & _ & E). rewrite bind_ok in E.
      apply bind_inv in E. destruct E as ([[t3 bs] p3] & Eg & E).
      assert (B : bs = []).
      { revert Eg. generalize (Z.to_nat c), 0%nat, t2, (-1). clear. induction n; intros s t p H; cbn [for_] in H.
        - apply Ok_inj in H. injection H as _ <- _. reflexivity.
        - fold (@for_ (list Z * list (list (option gate)) * Z)) in H. apply bind_inv in H. destruct H as ([[t1 b1] p1] & E & H).
          unfold bload_gate in E. cbn [each] in E.
          apply bind_inv in E. destruct E as ([ty q1] & _ & E). apply bind_inv in E. destruct E as ([g q2] & _ & E).
          apply bind_inv in E. destruct E as ([u q3] & _ & E). apply bind_inv in E. destruct E as ([v q4] & _ & E).
          rewrite bind_ok in E. apply Ok_inj in E. injection E as _ <- _. eapply IHn, H. }
      subst bs. apply bind_inv in E. destruct E as (z1 & _ & E). apply bind_inv in E. destruct E as (z2 & _ & E).
      apply bind_inv in E. destruct E as (z3 & _ & E). apply bind_inv in E. destruct E as (bs & Eb & E).
      assert (bs = []) as -> by (destruct (c =? 1); apply Ok_inj in Eb; subst; reflexivity).
      apply Ok_inj in E. cbn [combine map fold_left] in E. injection E as _ <- <-. split; reflexivity. }
    destruct K as [-> ->]. eapply IHm, H.
Qed.
Theorem bread_circuit_iff : forall n k t B mx, bread_circuit n k t = Ok (B, mx) <->
  1 <= n /\ 0 <= k /\ k + mx < 31 /\ exists C, tread_circuit t = Ok (C, mx) /\ B = BcVerifier.copies C (Z.to_nat n) (Z.to_nat k).
Proof.
  assert (POS : forall n k t, 1 <= n -> bread_circuit n k t =
    bind (tread_circuit t) (fun x => bind (shl1_int k) (fun _ => bind (shl1_int (k + snd x)) (fun _ =>
      Ok (BcVerifier.copies (fst x) (Z.to_nat n) (Z.to_nat k), snd x)))) \/
    (forall y, bread_circuit n k t <> Ok y) /\ (forall C mx, tread_circuit t = Ok (C, mx) -> ~ (0 <= k /\ k + mx < 31))).
  { intros n k t Hn. assert (Hn' : (1 <= Z.to_nat n)%nat) by lia. unfold bread_circuit, tread_circuit.
    destruct (Z.ltb_spec n 0); [lia|]. cbn [bind].
    destruct (scan_int t) as [[d t1]| | | | | |]; cbn [bind]; try (left; reflexivity).
    rewrite each_repeat by exact Hn'. destruct (d <? 0); cbn [bind]; try (left; reflexivity).
    rewrite bload_layers_copies by exact Hn'.
    destruct (for_ (Z.to_nat d) 0 (fun _ => tload_layer) (t1, [], -1)) as [[[t2 ls] mx]| | | | | |]; cbn [bind]; try (left; reflexivity).
    destruct (shl1_int mx) as [z| | | | | |] eqn:Em; cbn [bind]; try (left; reflexivity).
    destruct (shl1_int k) as [z1| | | | | |] eqn:E1; cbn [bind].
    2-7: right; split; [discriminate|]; intros C mx' HC [K1 K2]; apply bind_inv in HC; destruct HC as (ls' & _ & HC); apply Ok_inj in HC; injection HC as _ <-;
      unfold shl1_int in E1, Em; destruct (Z.leb_spec 0 mx), (Z.ltb_spec mx 31), (Z.leb_spec 0 k), (Z.ltb_spec k 31); try discriminate; lia.
    destruct (shl1_int (k + mx)) as [z2| | | | | |] eqn:E2; cbn [bind].
    2-7: right; split; [discriminate|]; intros C mx' HC [K1 K2]; apply bind_inv in HC; destruct HC as (ls' & _ & HC); apply Ok_inj in HC; injection HC as _ <-;
      unfold shl1_int in E1, E2, Em; destruct (Z.leb_spec 0 mx), (Z.ltb_spec mx 31), (Z.leb_spec 0 k), (Z.ltb_spec k 31), (Z.leb_spec 0 (k + mx)), (Z.ltb_spec (k + mx) 31); try discriminate; lia.
    left. rewrite each_repeat by exact Hn'. destruct (plain_layers ls) as [ls'| | | | | |]; cbn [bind fst snd]; try reflexivity.
    rewrite E2. cbn [bind]. rewrite map_repeat'. reflexivity. }
  intros n k t B mx. split.
  - intro H. assert (Hn : 1 <= n).
    { unfold bread_circuit in H. destruct (Z.ltb_spec n 0); [discriminate|]. cbn [bind] in H.
      destruct (Z_le_gt_dec 1 n) as [G|G]; [exact G|exfalso]. replace (Z.to_nat n) with 0%nat in H by lia. cbn [repeat each] in H.
      apply bind_inv in H. destruct H as ([d t1] & _ & H). rewrite bind_ok in H.
      apply bind_inv in H. destruct H as ([[t2 ls] m2] & E & H). apply no_copies_max in E. destruct E as [_ E]. cbn [snd] in E. subst m2. discriminate. }
    split; [exact Hn|]. destruct (POS n k t Hn) as [E|[N _]]; [|destruct (N _ H)]. rewrite E in H. clear E.
    apply bind_inv in H. destruct H as ([C mx'] & E & H). cbn [fst snd] in H.
    apply bind_inv in H. destruct H as (z1 & E1 & H). apply bind_inv in H. destruct H as (z2 & E2 & H).
    apply Ok_inj in H. injection H as <- <-. apply shl1_int_iff in E1, E2. destruct E1 as [E1 _]. destruct E2 as [E2 _].
    split; [lia|]. split; [lia|]. exists C. auto.
  - intros (Hn & Hk & Hm & C & E & ->). destruct (POS n k t Hn) as [Q|[_ N]]; [|destruct (N _ _ E (conj Hk Hm))].
    rewrite Q, E, bind_ok. cbn [fst snd].
    assert (M0 : 0 <= mx). { apply tread_circuit_iff in E. destruct E as (L & r & _ & _ & _ & ->). lia. }
    erewrite (proj2 (shl1_int_iff k _)) by (split; [lia|reflexivity]). rewrite bind_ok.
    erewrite (proj2 (shl1_int_iff (k + mx) _)) by (split; [lia|reflexivity]). rewrite bind_ok. reflexivity.
Qed.
