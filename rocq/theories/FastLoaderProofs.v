(** * Exactly which files the fast-track loader takes, and as what *)
From Coq Require Import ZArith List Bool Arith Lia Permutation.
From Verif Require Import Limbs Field Base Circuit Loader SpecLoader LoaderProofs FastLoader SpecFastLoader FastVerifier.
Import ListNotations.
Open Scope Z_scope.

(** ** The gate loop *)
Definition puts (h : entry -> gate) (l : list entry) (a : list (option gate)) : list (option gate) :=
  fold_left (fun a e => upd a (fst e) (Some (h e))) l a.
Lemma puts_length : forall h l a, length (puts h l a) = length a.
Proof. intros h. induction l as [|e l IH]; intro a; [reflexivity|]. unfold puts in *. cbn [fold_left]. rewrite IH, upd_length. reflexivity. Qed.
Definition upper_cell (first : bool) (e : entry) : gate := if first then copy_gate (fst e) else fast_gate (snd e).
Definition input_cell (e : entry) : gate := fast_gate (snd e).
Definition fits (n : nat) (l : list entry) : Prop := Forall (fun e => (fst e < n)%nat /\ is_int (Z.of_nat (fst e))) l.
Definition end_id (p : Z) (l : list entry) : Z := last (map (fun e => Z.of_nat (fst e)) l) p.
Lemma last_cons : forall A (l : list A) x p, last (x :: l) p = last l x.
Proof.
  induction l as [|y l IH]; intros x p; [reflexivity|]. change (last (x :: y :: l) p) with (last (y :: l) p). rewrite !IH. reflexivity.
Qed.
Lemma wr_iff : forall A (a : list A) k x a', wr a k x = Ok a' <-> (k < length a)%nat /\ a' = upd a k x.
Proof.
  intros A a k x a'. unfold wr. destruct (Nat.ltb_spec k (length a)); split.
  - intro E. apply Ok_inj in E. auto.
  - intros [_ ->]. reflexivity.
  - discriminate.
  - lia.
Qed.
Lemma fv_adjust : forall ty v, to_int (if ty =? 6 then 0 else v) = if ty =? 6 then 0 else int32 v.
Proof. intros ty v. destruct (ty =? 6); rewrite to_int_int32; reflexivity. Qed.
Lemma fload_gate_iff : forall first t a0 a p st, length a0 = length a -> fload_gate first (t, a0, a, p) = Ok st <->
  exists e t', t = [f_ty (snd e); Z.of_nat (fst e); f_u (snd e); f_v (snd e)] ++ t' /\ entry_ok first e /\
    (fst e < length a)%nat /\ is_int (Z.of_nat (fst e)) /\
    st = (t', (if first then upd a0 (fst e) (Some (input_cell e)) else a0), upd a (fst e) (Some (upper_cell first e)), Z.of_nat (fst e)).
Proof.
  intros first t a0 a p st LA. split.
  - intro H. unfold fload_gate in H.
    apply bind_inv in H. destruct H as ([ty t1] & E1 & H). apply scan_int_iff in E1. destruct E1 as [-> I1].
    apply bind_inv in H. destruct H as ([g t2] & E2 & H). apply scan_int_iff in E2. destruct E2 as [-> I2].
    apply bind_inv in H. destruct H as ([u t3] & E3 & H). apply scan_ll_iff in E3. destruct E3 as [-> I3].
    apply bind_inv in H. destruct H as ([v t4] & E4 & H). apply scan_ll_iff in E4. destruct E4 as [-> I4]. cbv zeta in H.
    assert (K : (first = true -> ty = 2 \/ ty = 3) /\ exists k, g = Z.of_nat k /\ (k < length a)%nat /\
       st = (t4, (if first then upd a0 k (Some (Gate ty (to_int u) (to_int (if ty =? 6 then 0 else v)))) else a0),
             upd a k (Some (if first then Gate 4 g 0 else Gate ty (to_int u) (to_int (if ty =? 6 then 0 else v)))), g)).
    { destruct first; cbn [negb] in H.
      - apply bind_inv in H. destruct H as ([] & E7 & H). apply assert_inv in E7. apply orb_true_iff in E7. rewrite !Z.eqb_eq in E7.
        split; [intros _; exact E7|].
        apply bind_inv in H. destruct H as (k & E5 & H). unfold idx in E5. destruct (Z.ltb_spec g 0); [discriminate|]. apply Ok_inj in E5. subst k.
        apply bind_inv in H. destruct H as (a' & E6 & H). apply wr_iff in E6. destruct E6 as [Lt ->].
        apply bind_inv in H. destruct H as (a0' & E6 & H). apply wr_iff in E6. destruct E6 as [Lt' ->]. apply Ok_inj in H. subst st.
        exists (Z.to_nat g). rewrite Z2Nat.id by assumption. auto.
      - split; [discriminate|].
        apply bind_inv in H. destruct H as (k & E5 & H). unfold idx in E5. destruct (Z.ltb_spec g 0); [discriminate|]. apply Ok_inj in E5. subst k.
        apply bind_inv in H. destruct H as (a' & E6 & H). apply wr_iff in E6. destruct E6 as [Lt ->]. apply Ok_inj in H. subst st.
        exists (Z.to_nat g). rewrite Z2Nat.id by assumption. auto. }
    destruct K as (K1 & k & -> & K2 & ->). exists (k, FGate ty u v), t4. cbn [fst snd f_ty f_u f_v].
    split; [reflexivity|]. split; [split; [exact I1|]; split; [exact I3|]; split; [exact I4|exact K1]|].
    split; [exact K2|]. split; [exact I2|]. unfold input_cell, upper_cell, fast_gate, copy_gate. cbn [fst snd f_ty f_u f_v].
    rewrite fv_adjust, to_int_int32. reflexivity.
  - intros ([k [ty u v]] & t' & -> & (I1 & I3 & I4 & F) & Lt & I2 & ->). cbn [fst snd f_ty f_u f_v] in *.
    unfold fload_gate. cbn [app].
    rewrite (proj2 (scan_int_iff _ _ _) (conj eq_refl I1)), bind_ok.
    rewrite (proj2 (scan_int_iff _ _ _) (conj eq_refl I2)), bind_ok.
    rewrite (proj2 (scan_ll_iff _ _ _) (conj eq_refl I3)), bind_ok.
    rewrite (proj2 (scan_ll_iff _ _ _) (conj eq_refl I4)), bind_ok. cbv zeta.
    unfold idx. destruct (Z.ltb_spec (Z.of_nat k) 0); [lia|]. rewrite Nat2Z.id.
    unfold input_cell, upper_cell, fast_gate, copy_gate. cbn [fst snd f_ty f_u f_v]. rewrite <- fv_adjust, <- to_int_int32.
    destruct first; cbn [negb].
    + assert (Y : (ty =? 2) || (ty =? 3) = true) by (destruct (F eq_refl) as [->| ->]; reflexivity).
      rewrite Y. cbn [assert_]. rewrite !bind_ok.
      rewrite (proj2 (wr_iff _ a k _ _) (conj Lt eq_refl)), bind_ok.
      rewrite (proj2 (wr_iff _ a0 k _ _) (conj (eq_ind_r (fun n => (k < n)%nat) Lt LA) eq_refl)), bind_ok. reflexivity.
    + rewrite bind_ok. rewrite (proj2 (wr_iff _ a k _ _) (conj Lt eq_refl)), bind_ok. reflexivity.
Qed.
Lemma fload_gates_iff : forall first n s t a0 a p st, length a0 = length a ->
  for_ n s (fun _ => fload_gate first) (t, a0, a, p) = Ok st <->
  exists l t', length l = n /\ t = entry_tokens l ++ t' /\ Forall (entry_ok first) l /\ fits (length a) l /\
    st = (t', (if first then puts input_cell l a0 else a0), puts (upper_cell first) l a, end_id p l).
Proof.
  induction n; intros s t a0 a p st LA.
  - cbn [for_]. split.
    + intro E. apply Ok_inj in E. subst st. exists [], t. split; [reflexivity|]. split; [reflexivity|]. split; [constructor|]. split; [constructor|].
      destruct first; reflexivity.
    + intros (l & t' & L & -> & _ & _ & ->). destruct l; [|discriminate]. destruct first; reflexivity.
  - rewrite for_S. split.
    + intro H. apply bind_inv in H. destruct H as (st1 & E & H). apply fload_gate_iff in E; [|exact LA].
      destruct E as (e & t1 & -> & Oe & Le & Ie & ->).
      apply IHn in H; [|destruct first; rewrite ?upd_length; exact LA].
      destruct H as (l & t' & L & -> & F & Fi & ->). exists (e :: l), t'. split; [cbn [length]; rewrite L; reflexivity|].
      split; [unfold entry_tokens; cbn [map concat]; rewrite <- app_assoc; reflexivity|]. split; [constructor; assumption|].
      split; [constructor; [split; assumption|]|].
      { rewrite upd_length in Fi. exact Fi. }
      unfold puts, end_id. cbn [fold_left map]. rewrite last_cons. destruct first; reflexivity.
    + intros (l & t' & L & -> & F & Fi & ->). destruct l as [|e l]; [discriminate|]. injection L as L.
      inversion F; subst. inversion Fi as [|? ? [Le Ie] Fi']; subst.
      assert (G : fload_gate first (entry_tokens (e :: l) ++ t', a0, a, p) =
        Ok (entry_tokens l ++ t', (if first then upd a0 (fst e) (Some (input_cell e)) else a0), upd a (fst e) (Some (upper_cell first e)), Z.of_nat (fst e))).
      { apply fload_gate_iff; [exact LA|]. exists e, (entry_tokens l ++ t'). split; [unfold entry_tokens; cbn [map concat]; rewrite <- app_assoc; reflexivity|].
        split; [assumption|]. split; [exact Le|]. split; [exact Ie|]. reflexivity. }
      rewrite G, bind_ok. apply IHn; [destruct first; rewrite ?upd_length; exact LA|].
      exists l, t'. split; [reflexivity|]. split; [reflexivity|]. split; [assumption|]. split; [rewrite upd_length; exact Fi'|].
      unfold puts, end_id. cbn [fold_left map]. rewrite last_cons. destruct first; reflexivity.
Qed.

(** ** One layer *)
Definition raw_cells (h : entry -> gate) (dummy : gate) (l : list entry) : list (option gate) :=
  let a := puts h l (repeat None (length l + pad (length l))) in
  if Nat.eqb (length l) 1 then upd a 1 (Some dummy) else a.
Definition input_cells (l : list entry) := raw_cells input_cell (Gate 2 0 0) l.
Definition upper_cells (first : bool) (l : list entry) := raw_cells (upper_cell first) (if first then Gate 4 1 0 else Gate 2 0 0) l.
Definition raw_layers (first : bool) (l : list entry) : list raw_layer :=
  (if first then [Raw (input_cells l) (last_bits l)] else []) ++ [Raw (upper_cells first l) (last_bits l)].
Definition pre_ok (first : bool) (l : list entry) : Prop :=
  (1 <= length l)%nat /\ Z.of_nat (length l) < 2 ^ 31 /\ Forall (entry_ok first) l /\
  fits (length l + pad (length l)) l /\ Z.of_nat (last_id l) < 2 ^ 30 /\ (length l = 1%nat -> last_id l = 0%nat).
Lemma new_gates_nat : forall n, new_gates (Z.of_nat n) = Ok (repeat None (n + pad n)).
Proof.
  intro n. unfold new_gates. destruct (Z.ltb_spec (Z.of_nat n) 0); [lia|]. unfold pad.
  destruct (Z.eqb_spec (Z.of_nat n) 1) as [E|E]; destruct (Nat.eqb_spec n 1) as [E'|E']; try lia.
  - subst n. reflexivity.
  - rewrite Nat2Z.id, Nat.add_0_r. reflexivity.
Qed.
Lemma end_last : forall l p, (1 <= length l)%nat -> end_id p l = Z.of_nat (last_id l).
Proof.
  intros [|e l] p H; [cbn [length] in H; lia|]. unfold end_id, last_id. cbn [map]. rewrite !last_cons. clear.
  revert e. induction l as [|x l IH]; intro e; [reflexivity|]. cbn [map]. rewrite !last_cons. apply IH.
Qed.
Lemma last_In : forall A (l : list A) d, l <> [] -> In (last l d) l.
Proof.
  induction l as [|x l IH]; intros d H; [contradiction|]. rewrite last_cons. destruct l as [|y l]; [left; reflexivity|].
  right. apply IH. discriminate.
Qed.
Lemma last_fits : forall n l, (1 <= length l)%nat -> fits n l -> (last_id l < n)%nat.
Proof.
  intros n l H F. unfold fits in F. rewrite Forall_forall in F. assert (I : In (last_id l) (map fst l)).
  { apply last_In. destruct l; [cbn [length] in H; lia|discriminate]. }
  apply in_map_iff in I. destruct I as (e & <- & I). apply F, I.
Qed.
Lemma pad_small : forall n, (pad n <= 1)%nat /\ (n <> 1%nat -> pad n = 0%nat).
Proof. intro n. unfold pad. destruct (Nat.eqb_spec n 1); lia. Qed.
Lemma fload_layer_iff : forall i t ls mx st, fload_layer i (t, ls, mx) = Ok st <->
  exists l t', t = flayer_tokens l ++ t' /\ pre_ok (Nat.eqb i 1) l /\
    st = (t', ls ++ raw_layers (Nat.eqb i 1) l, Z.max mx (Z.of_nat (last_bits l))).
Proof.
  intros i t ls mx st. set (first := Nat.eqb i 1).
  assert (TAIL : forall (n g : nat), (1 <= n)%nat -> Z.of_nat n < 2 ^ 31 -> (g < n + pad n)%nat ->
    bind (count_shifts 64 (Z.of_nat g) 0) (fun cnt => bind (shl_times (Z.to_nat cnt) 1) (fun m => bind (count_shifts 64 m 0) (fun c => Ok (m, c)))) =
    if Z.of_nat g <? 2 ^ 30 then Ok (2 ^ Z.of_nat (Nat.log2_up (S g)), Z.of_nat (Nat.log2_up (S g)) + 1) else UB).
  { intros n g Hn Hn' Hg. destruct (pad_small n) as [P1 P2].
    assert (SG : Z.of_nat (S g) < 2 ^ 31) by (destruct (Nat.eq_dec n 1); [subst n; lia|]; specialize (P2 ltac:(assumption)); lia).
    pose proof (first_count (S g) ltac:(lia) SG) as FC. replace (Z.of_nat (S g) - 1) with (Z.of_nat g) in FC by lia.
    rewrite FC, bind_ok, Nat2Z.id. pose proof (log2_up_big (S g) ltac:(lia)) as LB. destruct (Z.ltb_spec (Z.of_nat g) (2 ^ 30)) as [G|G].
    - assert (L30 : (Nat.log2_up (S g) <= 30)%nat) by (apply LB; lia).
      pose proof (shl_times_ok (Nat.log2_up (S g)) 0 ltac:(lia)) as ST. change (2 ^ Z.of_nat 0) with 1 in ST.
      change (Z.of_nat 0 + Z.of_nat (Nat.log2_up (S g))) with (Z.of_nat (Nat.log2_up (S g))) in ST.
      rewrite ST, bind_ok, (second_count _ L30), bind_ok. reflexivity.
    - assert (L30 : 30 < Z.of_nat (Nat.log2_up (S g))) by lia.
      pose proof (shl_times_big (Nat.log2_up (S g)) 0 ltac:(lia) ltac:(lia)) as X. change (2 ^ Z.of_nat 0) with 1 in X. rewrite X. reflexivity. }
  assert (MAIN : forall l t', (1 <= length l)%nat -> Z.of_nat (length l) < 2 ^ 31 -> Forall (entry_ok first) l -> fits (length l + pad (length l)) l ->
    fload_layer i (flayer_tokens l ++ t', ls, mx) = Ok st <->
    Z.of_nat (last_id l) < 2 ^ 30 /\ (length l = 1%nat -> last_id l = 0%nat) /\
    st = (t', ls ++ raw_layers first l, Z.max mx (Z.of_nat (last_bits l)))).
  { intros l t' H1 H2 F Fi. unfold fload_layer, flayer_tokens. cbn [app].
    assert (In : is_int (Z.of_nat (length l))) by (unfold is_int; lia).
    rewrite (proj2 (scan_int_iff _ _ _) (conj eq_refl In)), bind_ok, new_gates_nat, !bind_ok, Nat2Z.id. cbv zeta. fold first.
    assert (LP : for_ (length l) 0 (fun _ => fload_gate first) (entry_tokens l ++ t', repeat None (length l + pad (length l)), repeat None (length l + pad (length l)), -1) =
      Ok (t', (if first then puts input_cell l (repeat None (length l + pad (length l))) else repeat None (length l + pad (length l))),
          puts (upper_cell first) l (repeat None (length l + pad (length l))), end_id (-1) l)).
    { apply fload_gates_iff; [reflexivity|]. exists l, t'. rewrite repeat_length. repeat (split; [assumption || reflexivity|]). reflexivity. }
    rewrite LP, bind_ok, (end_last l (-1) H1). clear LP.
    pose proof (last_fits _ _ H1 Fi) as LF. specialize (TAIL (length l) (last_id l) H1 H2 LF). clear In.
    set (A := repeat None (length l + pad (length l))) in *.
    assert (LA : length A = (length l + pad (length l))%nat) by apply repeat_length.
    transitivity (bind (bind (count_shifts 64 (Z.of_nat (last_id l)) 0) (fun cnt => bind (shl_times (Z.to_nat cnt) 1) (fun m => bind (count_shifts 64 m 0) (fun c => Ok (m, c)))))
      (fun mc => bind (if Z.of_nat (length l) =? 1 then
          bind (idx (fst mc)) (fun k => if negb first then bind (wr (puts (upper_cell first) l A) k (Some (Gate 2 0 0))) (fun a => Ok ((if first then puts input_cell l A else A), a, snd mc))
             else bind (wr (if first then puts input_cell l A else A) k (Some (Gate 2 0 0))) (fun a0 => bind (wr (puts (upper_cell first) l A) k (Some (Gate 4 1 0))) (fun a => Ok (a0, a, snd mc))))
        else Ok ((if first then puts input_cell l A else A), puts (upper_cell first) l A, snd mc - 1))
        (fun x => let '(a0, a, b) := x in Ok (t', ls ++ (if first then [Raw a0 (Z.to_nat b)] else []) ++ [Raw a (Z.to_nat b)], Z.max mx b))) = Ok st).
    { destruct (count_shifts 64 (Z.of_nat (last_id l)) 0) as [c| | | | | |]; cbn [bind]; try reflexivity.
      destruct (shl_times (Z.to_nat c) 1) as [m| | | | | |]; cbn [bind]; try reflexivity.
      destruct (count_shifts 64 m 0) as [c'| | | | | |]; cbn [bind fst snd]; reflexivity. }
    rewrite TAIL. destruct (Z.ltb_spec (Z.of_nat (last_id l)) (2 ^ 30)) as [G|G]; [|cbn [bind]; split; [discriminate|lia]].
    rewrite bind_ok. cbn [fst snd]. unfold raw_layers, input_cells, upper_cells, raw_cells, last_bits. fold A.
    destruct (Z.eqb_spec (Z.of_nat (length l)) 1) as [E|E]; destruct (Nat.eqb_spec (length l) 1) as [E'|E']; try lia.
    - unfold idx. destruct (Z.ltb_spec (2 ^ Z.of_nat (Nat.log2_up (S (last_id l)))) 0) as [X|X]; [pose proof (Z.pow_nonneg 2 (Z.of_nat (Nat.log2_up (S (last_id l))))); lia|].
      rewrite bind_ok. assert (LA2 : length A = 2%nat) by (rewrite LA, E'; reflexivity).
      assert (PI : forall h, length (puts h l A) = 2%nat) by (intro h; rewrite puts_length; exact LA2).
      assert (LI : (last_id l < 2)%nat) by (rewrite E' in LF; exact LF).
      destruct (last_id l) as [|[|q]] eqn:LQ; [| |lia].
      + change (2 ^ Z.of_nat (Nat.log2_up 1)) with 1. change (Z.of_nat (Nat.log2_up 1) + 1) with 1. change (Z.to_nat 1) with 1%nat.
        assert (W : forall h x, wr (puts h l A) 1 x = Ok (upd (puts h l A) 1 x)) by (intros h x; apply wr_iff; rewrite PI; split; [lia|reflexivity]).
        destruct first; cbn [negb]; rewrite !W, !bind_ok; split.
        * intro Q. apply Ok_inj in Q. subst st. repeat split; try lia.
        * intros (_ & _ & ->). reflexivity.
        * intro Q. apply Ok_inj in Q. subst st. repeat split; try lia.
        * intros (_ & _ & ->). reflexivity.
      + change (Z.to_nat (2 ^ Z.of_nat (Nat.log2_up 2))) with 2%nat.
        assert (W : forall h x, wr (puts h l A) 2 x = UB) by (intros h x; unfold wr; rewrite PI; reflexivity).
        split; [destruct first; cbn [negb]; rewrite !W; discriminate|]. intros (_ & Q & _). specialize (Q E'). discriminate.
    - rewrite bind_ok. replace (Z.of_nat (Nat.log2_up (S (last_id l))) + 1 - 1) with (Z.of_nat (Nat.log2_up (S (last_id l)))) by lia.
      rewrite Nat2Z.id. split.
      + intro Q. apply Ok_inj in Q. subst st. split; [exact G|]. split; [lia|]. destruct first; reflexivity.
      + intros (_ & _ & ->). destruct first; reflexivity. }
  split.
  - intro H. pose proof H as H0. unfold fload_layer in H.
    apply bind_inv in H. destruct H as ([n t1] & E1 & H). apply scan_int_iff in E1. destruct E1 as [-> I1].
    apply bind_inv in H. destruct H as (a0 & E2 & H).
    assert (Hn : 0 <= n). { unfold new_gates in E2. destruct (Z.ltb_spec n 0); [discriminate|assumption]. }
    destruct (Z_of_nat_complete n Hn) as (m & ->). rewrite new_gates_nat in E2. apply Ok_inj in E2. subst a0.
    rewrite new_gates_nat, bind_ok in H. cbv zeta in H. fold first in H. rewrite Nat2Z.id in H.
    apply bind_inv in H. destruct H as (s & E3 & H). apply fload_gates_iff in E3; [|reflexivity].
    destruct E3 as (l & t' & L & -> & F & Fi & ->). rewrite repeat_length in Fi.
    destruct m as [|m].
    { destruct l; [|discriminate]. unfold end_id in H. cbn [map last] in H. rewrite (count_shifts_neg 64 (-1) 0 ltac:(lia)) in H. discriminate. }
    exists l, t'. rewrite <- L in *. split; [reflexivity|]. assert (H1 : (1 <= length l)%nat) by lia.
    assert (H2 : Z.of_nat (length l) < 2 ^ 31) by (unfold is_int in I1; lia).
    change (Z.of_nat (length l) :: entry_tokens l ++ t') with (flayer_tokens l ++ t') in H0.
    apply MAIN in H0; try assumption. destruct H0 as (A & B & ->).
    split; [|reflexivity]. exact (conj H1 (conj H2 (conj F (conj Fi (conj A B))))).
  - intros (l & t' & -> & (H1 & H2 & F & Fi & A & B) & ->). apply MAIN; auto.
Qed.

(** ** Which arrays of cells are fully written *)
Lemma initialised_iff : forall c gs, initialised c = Ok gs <-> c = map Some gs.
Proof.
  induction c as [|[g|] c IH]; intros gs; cbn [initialised].
  - split; [intro E; apply Ok_inj in E; subst; reflexivity|]. destruct gs; [reflexivity|discriminate].
  - split.
    + intro H. apply bind_inv in H. destruct H as (r & E & H). apply IH in E. apply Ok_inj in H. subst. reflexivity.
    + intro H. destruct gs as [|g' gs]; [discriminate|]. cbn [map] in H. injection H as -> H. apply IH in H. rewrite H. reflexivity.
  - split; [discriminate|]. destruct gs; discriminate.
Qed.
Lemma puts_out : forall h l a k, ~ In k (map fst l) -> nth_error (puts h l a) k = nth_error a k.
Proof.
  intros h. induction l as [|e l IH]; intros a k H; [reflexivity|]. unfold puts in *. cbn [fold_left map In] in *.
  rewrite IH by tauto. apply nth_upd_other. tauto.
Qed.
Lemma puts_in : forall h l a e, NoDup (map fst l) -> In e l -> (fst e < length a)%nat -> nth_error (puts h l a) (fst e) = Some (Some (h e)).
Proof.
  intros h. induction l as [|e' l IH]; intros a e N I H; [contradiction|]. inversion N; subst. unfold puts. cbn [fold_left]. fold (puts h l (upd a (fst e') (Some (h e')))).
  destruct I as [->|I].
  - rewrite puts_out by assumption. apply nth_upd_same, H.
  - apply IH; [assumption|exact I|rewrite upd_length; exact H].
Qed.
Lemma nth_ext_error : forall A (l l' : list A), length l = length l' -> (forall k, (k < length l)%nat -> nth_error l k = nth_error l' k) -> l = l'.
Proof.
  induction l as [|x l IH]; intros [|y l'] E H; try discriminate; [reflexivity|]. cbn [length] in *.
  pose proof (H 0%nat ltac:(lia)) as H0. cbn [nth_error] in H0. injection H0 as ->. f_equal. apply IH; [lia|].
  intros k Hk. apply (H (S k)). lia.
Qed.
Definition filled (h : entry -> gate) (d : gate) (l : list entry) (gs : list gate) : Prop :=
  length gs = (length l + pad (length l))%nat /\ (forall e, In e l -> nth_error gs (fst e) = Some (h e)) /\
  (length l = 1%nat -> nth_error gs 1 = Some d).
Lemma cells_iff : forall h d l gs, (1 <= length l)%nat -> fits (length l + pad (length l)) l -> (length l = 1%nat -> last_id l = 0%nat) ->
  raw_cells h d l = map Some gs <-> Permutation (map fst l) (seq 0 (length l)) /\ filled h d l gs.
Proof.
  intros h d l gs H1 Fi L1. destruct (Nat.eq_dec (length l) 1) as [E|E].
  - destruct l as [|e [|e' l]]; try discriminate. specialize (L1 eq_refl). unfold last_id in L1. cbn [map last] in L1.
    unfold raw_cells, filled. cbn [length map]. change (1 =? 1)%nat with true. cbv iota. change (1 + pad 1)%nat with 2%nat.
    unfold puts. cbn [fold_left repeat]. rewrite L1. cbn [upd seq]. split.
    + intro Q. destruct gs as [|g [|g' [|]]]; cbn [map] in Q; try discriminate. injection Q as <- <-.
      split; [reflexivity|]. split; [reflexivity|]. split; [|reflexivity]. intros x [<-|[]]. rewrite L1. reflexivity.
    + intros (_ & Lg & A & B). specialize (A e (or_introl eq_refl)). specialize (B eq_refl). rewrite L1 in A.
      destruct gs as [|g [|g' [|]]]; try discriminate. cbn [nth_error] in A, B. injection A as ->. injection B as ->. reflexivity.
  - assert (P0 : pad (length l) = 0%nat) by (apply pad_small; exact E). unfold raw_cells, filled.
    destruct (Nat.eqb_spec (length l) 1); [lia|]. rewrite P0, Nat.add_0_r in *.
    assert (PL : forall a, length (puts h l a) = length a) by (intro; apply puts_length).
    unfold fits in Fi. rewrite Forall_forall in Fi. split.
    + intro Q. assert (Lg : length gs = length l).
      { rewrite <- (map_length Some gs), <- Q, PL, repeat_length. reflexivity. }
      assert (P : Permutation (seq 0 (length l)) (map fst l)).
      { apply NoDup_Permutation_bis; [apply seq_NoDup|rewrite map_length, seq_length; apply Nat.le_refl|].
        intros k Hk. apply in_seq in Hk. destruct (in_dec Nat.eq_dec k (map fst l)) as [I|I]; [exact I|exfalso].
        pose proof (puts_out h l (repeat None (length l)) k I) as N. rewrite Q in N.
        rewrite (nth_error_repeat None) in N by lia.
        rewrite nth_error_map in N. destruct (nth_error gs k) eqn:G; [discriminate|]. apply nth_error_None in G. lia. }
      split; [apply Permutation_sym, P|]. split; [exact Lg|]. split; [|lia].
      intros e He. assert (ND : NoDup (map fst l)) by (eapply Permutation_NoDup; [exact P|apply seq_NoDup]).
      destruct (Fi e He) as [Fe _].
      pose proof (puts_in h l (repeat None (length l)) e ND He ltac:(rewrite repeat_length; exact Fe)) as N. rewrite Q, nth_error_map in N.
      destruct (nth_error gs (fst e)); [|discriminate]. injection N as ->. reflexivity.
    + intros (P & Lg & A & _). assert (ND : NoDup (map fst l)) by (eapply Permutation_NoDup; [apply Permutation_sym, P|apply seq_NoDup]).
      apply nth_ext_error; [rewrite PL, repeat_length, map_length; auto|]. rewrite PL, repeat_length. intros k Hk.
      assert (I : In k (map fst l)) by (eapply Permutation_in; [apply Permutation_sym, P|apply in_seq; lia]).
      apply in_map_iff in I. destruct I as (e & <- & He). rewrite puts_in by (try assumption; rewrite repeat_length; exact Hk).
      rewrite nth_error_map, (A e He). reflexivity.
Qed.
Lemma filled_placed : forall h l gs, (forall e, h e = fast_gate (snd e)) -> filled h (Gate 2 0 0) l gs <-> placed l gs.
Proof.
  intros h l gs Hh. unfold filled, placed. split; intros (A & B & D); (split; [exact A|]); (split; [|exact D]).
  - intros k f I. specialize (B (k, f) I). rewrite Hh in B. exact B.
  - intros [k f] I. rewrite Hh. apply B, I.
Qed.
Lemma copies_nth : forall n k, (k < n)%nat -> nth_error (copies n) k = Some (copy_gate k).
Proof.
  intros n k H. unfold copies. rewrite nth_error_map. rewrite (nth_error_nth' _ 0%nat) by (rewrite seq_length; exact H).
  rewrite seq_nth by exact H. reflexivity.
Qed.
Lemma filled_copies : forall l gs, fits (length l + pad (length l)) l -> Permutation (map fst l) (seq 0 (length l)) ->
  filled (upper_cell true) (Gate 4 1 0) l gs <-> gs = copies (length l + pad (length l)).
Proof.
  intros l gs Fi P. unfold fits in Fi. rewrite Forall_forall in Fi. split.
  - intros (A & B & D). apply nth_ext_error; [unfold copies; rewrite map_length, seq_length; exact A|].
    intros k Hk. rewrite copies_nth by lia. destruct (Nat.lt_ge_cases k (length l)) as [G|G].
    + assert (I : In k (map fst l)) by (eapply Permutation_in; [apply Permutation_sym, P|apply in_seq; lia]).
      apply in_map_iff in I. destruct I as (e & <- & He). apply B, He.
    + destruct (Nat.eq_dec (length l) 1) as [E|E]; [|pose proof (proj2 (pad_small (length l)) E); lia].
      rewrite E in *. change (pad 1) with 1%nat in *. assert (k = 1%nat) as -> by lia. rewrite D by reflexivity. reflexivity.
  - intros ->. split; [unfold copies; rewrite map_length, seq_length; reflexivity|]. split.
    + intros e He. apply copies_nth. apply Fi, He.
    + intro E. rewrite E. reflexivity.
Qed.

(** ** The whole file *)
Lemma flayer_pre : forall first l, flayer_ok first l <-> pre_ok first l /\ Permutation (map fst l) (seq 0 (length l)).
Proof.
  intros first l. split.
  - intros (H1 & H2 & P & L & F). split; [|exact P].
    assert (IN : forall e, In e l -> (fst e < length l)%nat).
    { intros e He. assert (I : In (fst e) (map fst l)) by (apply in_map, He). apply (Permutation_in _ P) in I. apply in_seq in I. lia. }
    split; [exact H1|]. split; [exact H2|]. split; [exact F|]. split; [|split; [exact L|]].
    + unfold fits. apply Forall_forall. intros e He. specialize (IN e He). split; [lia|unfold is_int; lia].
    + intro E. destruct l as [|e [|]]; try discriminate. specialize (IN e (or_introl eq_refl)). unfold last_id. cbn [map last length] in *. lia.
  - intros ((H1 & H2 & F & _ & L & _) & P). exact (conj H1 (conj H2 (conj P (conj L F)))).
Qed.
Lemma fupper_iff : forall n i t ls mx st, (2 <= i)%nat -> for_ n i fload_layer (t, ls, mx) = Ok st <->
  exists L t', length L = n /\ t = concat (map flayer_tokens L) ++ t' /\ Forall (pre_ok false) L /\
    st = (t', ls ++ concat (map (raw_layers false) L), fold_left (fun m l => Z.max m (Z.of_nat (last_bits l))) L mx).
Proof.
  induction n; intros i t ls mx st Hi.
  - cbn [for_]. split.
    + intro E. apply Ok_inj in E. subst st. exists [], t. cbn [map concat fold_left app]. rewrite app_nil_r. auto.
    + intros (L & t' & E & -> & _ & ->). destruct L; [|discriminate]. cbn [map concat fold_left app]. rewrite app_nil_r. reflexivity.
  - rewrite for_S. assert (N1 : Nat.eqb i 1 = false) by (apply Nat.eqb_neq; lia). split.
    + intro H. apply bind_inv in H. destruct H as (st1 & E & H). apply fload_layer_iff in E. destruct E as (l & t1 & -> & O & ->).
      rewrite N1 in *. apply IHn in H; [|lia]. destruct H as (L & t' & E & -> & F & ->). exists (l :: L), t'.
      cbn [length map concat fold_left]. rewrite <- !app_assoc. split; [rewrite E; reflexivity|]. split; [reflexivity|]. split; [constructor; assumption|reflexivity].
    + intros (L & t' & E & -> & F & ->). destruct L as [|l L]; [discriminate|]. inversion F; subst.
      assert (G : fload_layer i (concat (map flayer_tokens (l :: L)) ++ t', ls, mx) =
        Ok (concat (map flayer_tokens L) ++ t', ls ++ raw_layers false l, Z.max mx (Z.of_nat (last_bits l)))).
      { apply fload_layer_iff. exists l, (concat (map flayer_tokens L) ++ t'). rewrite N1. cbn [map concat]. rewrite <- app_assoc.
        split; [reflexivity|]. split; [assumption|reflexivity]. }
      rewrite G, bind_ok. apply IHn; [lia|]. exists L, t'. injection E as E. cbn [map concat fold_left]. rewrite <- app_assoc. auto.
Qed.
Lemma plain_iff : forall L ys, Forall (pre_ok false) L -> plain_layers (concat (map (raw_layers false) L)) = Ok ys <->
  Forall (flayer_ok false) L /\ Forall2 (fun l y => exists gs, placed l gs /\ y = plain_layer gs (last_bits l)) L ys.
Proof.
  induction L as [|l L IH]; intros ys F.
  - cbn [map concat plain_layers]. split; [intro E; apply Ok_inj in E; subst; split; constructor|]. intros [_ H]. inversion H. reflexivity.
  - inversion F as [|? ? O F']; subst. cbn [map concat raw_layers app plain_layers r_gates r_bits].
    pose proof O as (H1 & _ & _ & Fi & _ & L1).
    assert (CI : forall gs, initialised (upper_cells false l) = Ok gs <-> flayer_ok false l /\ placed l gs).
    { intro gs. rewrite initialised_iff. unfold upper_cells. rewrite (cells_iff _ _ l gs H1 Fi L1), (filled_placed _ l gs) by reflexivity.
      rewrite flayer_pre. tauto. }
    split.
    + intro H. apply bind_inv in H. destruct H as (gs & E & H). apply CI in E. destruct E as [E1 E2].
      apply bind_inv in H. destruct H as (ls & E & H). apply IH in E; [|assumption]. destruct E as [E3 E4]. apply Ok_inj in H. subst ys.
      split; constructor; try assumption. exists gs. auto.
    + intros [A B]. inversion A; subst. inversion B as [|? y ? ys' (gs & PL & ->) B']; subst.
      rewrite (proj2 (CI gs)) by auto. rewrite bind_ok. rewrite (proj2 (IH ys' F')) by auto. reflexivity.
Qed.
Lemma fmax_fold : forall L m, 0 <= m -> fold_left (fun m l => Z.max m (Z.of_nat (last_bits l))) L m = Z.max m (Z.of_nat (fmax_bits L)).
Proof.
  unfold fmax_bits. induction L as [|l L IH]; intros m H; cbn [fold_left fold_right map]; [lia|]. rewrite IH by lia. lia.
Qed.
Lemma last_bits_30 : forall first l, pre_ok first l -> (last_bits l <= 30)%nat.
Proof.
  intros first l (_ & _ & _ & _ & L & _). unfold last_bits. destruct (Nat.eqb (length l) 1); [lia|]. apply log2_up_big; lia.
Qed.
Lemma fmax_30 : forall first L, Forall (pre_ok first) L -> (fmax_bits L <= 30)%nat.
Proof.
  intros first L H. unfold fmax_bits. induction H; cbn [map fold_right]; [lia|]. apply Nat.max_lub; [eapply last_bits_30; eassumption|assumption].
Qed.
Theorem fread_circuit_iff : forall t C mx, fread_circuit t = Ok (C, mx) <->
  exists L r, t = fcircuit_tokens L ++ r /\ file_ok L /\ fdenotes L C /\ mx = Z.of_nat (fmax_bits L).
Proof.
  assert (FIRST : forall l, pre_ok true l -> forall rs ys, plain_layers (raw_layers true l ++ rs) = Ok ys <->
     flayer_ok true l /\ exists gs zs, placed l gs /\ plain_layers rs = Ok zs /\
       ys = plain_layer gs (last_bits l) :: plain_layer (copies (length gs)) (last_bits l) :: zs).
  { intros l O rs ys. pose proof O as (H1 & _ & _ & Fi & _ & L1). cbn [raw_layers app plain_layers r_gates r_bits].
    assert (CI : forall gs, initialised (input_cells l) = Ok gs <-> flayer_ok true l /\ placed l gs).
    { intro gs. rewrite initialised_iff. unfold input_cells. rewrite (cells_iff _ _ l gs H1 Fi L1), (filled_placed _ l gs) by reflexivity.
      rewrite flayer_pre. tauto. }
    assert (CU : forall gs, flayer_ok true l -> initialised (upper_cells true l) = Ok gs <-> gs = copies (length l + pad (length l))).
    { intros gs K. apply flayer_pre in K. rewrite initialised_iff. unfold upper_cells. rewrite (cells_iff _ _ l gs H1 Fi L1).
      rewrite (filled_copies l gs Fi (proj2 K)). tauto. }
    split.
    - intro H. apply bind_inv in H. destruct H as (gs & E & H). apply CI in E. destruct E as [E1 E2]. split; [exact E1|].
      apply bind_inv in H. destruct H as (ls & E & H). apply bind_inv in E. destruct E as (gs' & E3 & E4).
      apply (CU _ E1) in E3. subst gs'. apply bind_inv in E4. destruct E4 as (zs & E4 & E5). apply Ok_inj in E5, H. subst.
      exists gs, zs. rewrite (proj1 E2). auto.
    - intros (K & gs & zs & PL & E & ->). rewrite (proj2 (CI gs)) by auto. rewrite bind_ok.
      rewrite (proj2 (CU _ K) eq_refl), bind_ok, E, !bind_ok. rewrite (proj1 PL). reflexivity. }
  intros t C mx. split.
  - intro H. unfold fread_circuit in H. apply bind_inv in H. destruct H as ([d t1] & E & H). apply scan_int_iff in E. destruct E as [-> Id].
    apply bind_inv in H. destruct H as ([] & E & H).
    destruct (Z.ltb_spec (d + 1) 0); [discriminate|]. destruct (Z.ltb_spec (d + 1) (2 ^ 31)); [|discriminate]. clear E.
    apply bind_inv in H. destruct H as ([[t2 ls] mb] & E1 & H).
    apply bind_inv in H. destruct H as (z & E3 & H). apply shl1_int_iff in E3. destruct E3 as [E3 _].
    apply bind_inv in H. destruct H as (ys & E4 & H). apply Ok_inj in H. injection H as <- <-.
    destruct (Z_le_gt_dec d 0) as [Ld|Ld].
    { replace (Z.to_nat d) with 0%nat in E1 by lia. cbn [for_] in E1. apply Ok_inj in E1. injection E1 as _ _ <-. lia. }
    destruct (Z_of_nat_complete d ltac:(lia)) as (n & ->). rewrite Nat2Z.id in *. destruct n as [|n]; [lia|].
    rewrite for_S in E1. apply bind_inv in E1. destruct E1 as (st & E1 & E2).
    apply fload_layer_iff in E1. destruct E1 as (l & t' & -> & O & ->). cbn [Nat.eqb app] in *.
    apply fupper_iff in E2; [|lia]. destruct E2 as (L & r & LL & -> & F & E2). injection E2 as -> -> ->.
    apply (FIRST l O) in E4. destruct E4 as (K & gs & zs & PL & E4 & ->). apply (plain_iff L zs F) in E4. destruct E4 as [FL F2].
    exists (l :: L), r. split; [|split; [|split]].
    + unfold fcircuit_tokens. cbn [length map concat app]. rewrite LL, <- app_assoc. reflexivity.
    + split; [split; assumption|]. cbn [length]. rewrite LL. lia.
    + exists gs, zs. split; [exact PL|]. split; [exact F2|]. f_equal. rewrite <- LL. lia.
    + rewrite fmax_fold by lia. unfold fmax_bits. cbn [map fold_right]. lia.
  - intros (L & r & -> & [FO Ln] & DE & ->). destruct L as [|l L]; [contradiction|]. destruct FO as [K FL].
    destruct DE as (gs & zs & PL & F2 & ->). pose proof (proj1 (proj1 (flayer_pre _ _) K)) as O.
    assert (F : Forall (pre_ok false) L) by (eapply Forall_impl; [|exact FL]; intros x Hx; apply flayer_pre, Hx).
    unfold fread_circuit, fcircuit_tokens. cbn [app]. assert (In : is_int (Z.of_nat (length (l :: L)))) by (unfold is_int; lia).
    rewrite (proj2 (scan_int_iff _ _ _) (conj eq_refl In)), bind_ok.
    destruct (Z.ltb_spec (Z.of_nat (length (l :: L)) + 1) 0); [lia|].
    destruct (Z.ltb_spec (Z.of_nat (length (l :: L)) + 1) (2 ^ 31)); [|lia]. rewrite bind_ok, Nat2Z.id.
    cbn [length map concat]. rewrite for_S, <- app_assoc.
    assert (G : fload_layer 1 (flayer_tokens l ++ concat (map flayer_tokens L) ++ r, [], -1) =
       Ok (concat (map flayer_tokens L) ++ r, [] ++ raw_layers true l, Z.max (-1) (Z.of_nat (last_bits l)))).
    { apply fload_layer_iff. exists l, (concat (map flayer_tokens L) ++ r). cbn [Nat.eqb]. auto. }
    rewrite G, bind_ok. cbn [app].
    assert (G2 : for_ (length L) 2 fload_layer (concat (map flayer_tokens L) ++ r, raw_layers true l, Z.max (-1) (Z.of_nat (last_bits l))) =
       Ok (r, raw_layers true l ++ concat (map (raw_layers false) L), fold_left (fun m l => Z.max m (Z.of_nat (last_bits l))) L (Z.max (-1) (Z.of_nat (last_bits l))))).
    { apply fupper_iff; [lia|]. exists L, r. auto. }
    rewrite G2, bind_ok. rewrite fmax_fold by lia.
    replace (Z.max (Z.max (-1) (Z.of_nat (last_bits l))) (Z.of_nat (fmax_bits L))) with (Z.of_nat (fmax_bits (l :: L)))
      by (unfold fmax_bits; cbn [map fold_right]; lia).
    assert (M30 : (fmax_bits (l :: L) <= 30)%nat).
    { unfold fmax_bits. cbn [map fold_right]. pose proof (fmax_30 _ _ F). pose proof (last_bits_30 _ _ O). unfold fmax_bits in *. lia. }
    erewrite (proj2 (shl1_int_iff _ _)) by (split; [lia|reflexivity]). rewrite bind_ok.
    assert (PP : plain_layers (raw_layers true l ++ concat (map (raw_layers false) L)) =
       Ok (plain_layer gs (last_bits l) :: plain_layer (copies (length gs)) (last_bits l) :: zs)).
    { apply (FIRST l O). split; [exact K|]. exists gs, zs. split; [exact PL|]. split; [|reflexivity]. apply (plain_iff L zs F). auto. }
    rewrite PP, bind_ok. do 3 f_equal. lia.
Qed.
