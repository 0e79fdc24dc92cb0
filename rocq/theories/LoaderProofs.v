(** * Proofs about the circuit loader *)
From Coq Require Import ZArith List Bool Arith Lia.
From Verif Require Import Base Circuit Loader SpecLoader.
Import ListNotations.
Open Scope Z_scope.

Lemma bind_inv : forall A B (m : outcome A) (k : A -> outcome B) y, bind m k = Ok y -> exists x, m = Ok x /\ k x = Ok y.
Proof. intros A B [a| | | | | |] k y H; try discriminate. exists a. split; [reflexivity|exact H]. Qed.
Lemma bind_ok : forall A B (x : A) (k : A -> outcome B), bind (Ok x) k = k x.
Proof. reflexivity. Qed.
Lemma for_S : forall S n start (body : nat -> S -> outcome S) s,
  for_ (Datatypes.S n) start body s = bind (body start s) (fun s' => for_ n (Datatypes.S start) body s').
Proof. reflexivity. Qed.
Lemma assert_inv : forall b x, assert_ b = Ok x -> b = true.
Proof. intros [] x H; [reflexivity|discriminate]. Qed.
Lemma Ok_inj : forall A (x y : A), Ok x = Ok y -> x = y.
Proof. intros A x y H. injection H as H. exact H. Qed.
Lemma is_int_b : forall z, in_int z = true <-> is_int z.
Proof. intro z. unfold in_int, is_int. rewrite andb_true_iff, Z.leb_le, Z.ltb_lt. reflexivity. Qed.
Lemma is_ll_b : forall z, in_ll z = true <-> is_ll z.
Proof. intro z. unfold in_ll, is_ll. rewrite andb_true_iff, Z.leb_le, Z.ltb_lt. reflexivity. Qed.
Lemma scan_int_iff : forall t z r, scan_int t = Ok (z, r) <-> t = z :: r /\ is_int z.
Proof.
  intros t z r. split.
  - destruct t as [|y t]; [discriminate|]. cbn [scan_int]. destruct (in_int y) eqn:E; [|discriminate].
    intro H. injection H as <- <-. split; [reflexivity|apply is_int_b, E].
  - intros [-> H]. cbn [scan_int]. apply is_int_b in H. rewrite H. reflexivity.
Qed.
Lemma scan_ll_iff : forall t z r, scan_ll t = Ok (z, r) <-> t = z :: r /\ is_ll z.
Proof.
  intros t z r. split.
  - destruct t as [|y t]; [discriminate|]. cbn [scan_ll]. destruct (in_ll y) eqn:E; [|discriminate].
    intro H. injection H as <- <-. split; [reflexivity|apply is_ll_b, E].
  - intros [-> H]. cbn [scan_ll]. apply is_ll_b in H. rewrite H. reflexivity.
Qed.
Lemma to_int_int32 : forall z, to_int z = int32 z.
Proof.
  intro z. unfold to_int, int32.
  pose proof (Z.div_mod z (2 ^ 32) ltac:(lia)) as D. pose proof (Z.mod_pos_bound z (2 ^ 32) ltac:(lia)) as R.
  set (r := z mod 2 ^ 32) in *. set (q := z / 2 ^ 32) in *.
  destruct (Z.ltb_spec r (2 ^ 31)).
  - rewrite <- (Z.mod_unique_pos (z + 2 ^ 31) (2 ^ 32) q (r + 2 ^ 31)) by lia. lia.
  - rewrite <- (Z.mod_unique_pos (z + 2 ^ 31) (2 ^ 32) (q + 1) (r - 2 ^ 31)) by lia. lia.
Qed.
Lemma int32_small : forall z, 0 <= z < 2 ^ 31 -> int32 z = z.
Proof.
  intros z H. unfold int32. rewrite Z.mod_small by lia.
  destruct (Z.ltb_spec z (2 ^ 31)); [reflexivity|lia].
Qed.

(** ** Bit lengths *)
Lemma least_bits_spec : forall n, (1 <= n)%nat ->
  (1 <= least_bits n)%nat /\ (n <= 2 ^ least_bits n)%nat /\
  forall b, (1 <= b)%nat -> (n <= 2 ^ b)%nat -> (least_bits n <= b)%nat.
Proof.
  intros n Hn. unfold least_bits. split; [lia|]. split.
  - transitivity (2 ^ Nat.log2_up n)%nat.
    + destruct (Nat.eq_dec n 1) as [->|]; [cbn; lia|]. apply Nat.log2_up_spec. lia.
    + apply Nat.pow_le_mono_r; lia.
  - intros b Hb H. apply Nat.max_lub; [exact Hb|]. apply Nat.log2_up_le_pow2; lia.
Qed.
Lemma count_shifts_ok : forall k fuel m cnt, (k <= fuel)%nat -> 2 ^ (Z.of_nat k - 1) <= m < 2 ^ Z.of_nat k -> (1 <= k)%nat ->
  count_shifts fuel m cnt = Ok (cnt + Z.of_nat k).
Proof.
  induction k; intros fuel m cnt F H K; [lia|]. destruct fuel; [lia|].
  assert (M : 0 < m). { pose proof (Z.pow_pos_nonneg 2 (Z.of_nat (S k) - 1) ltac:(lia) ltac:(lia)). lia. }
  unfold count_shifts; fold count_shifts. destruct (Z.ltb_spec m 0); [lia|]. destruct (Z.eqb_spec m 0); [lia|].
  rewrite Z.shiftr_div_pow2 by lia. change (2 ^ 1) with 2.
  destruct k as [|k].
  - change (Z.of_nat 1) with 1 in H. change (2 ^ (1 - 1)) with 1 in H. change (2 ^ 1) with 2 in H.
    replace m with 1 by lia. destruct fuel; reflexivity.
  - rewrite IHk; [f_equal; lia|lia| |lia].
    replace (Z.of_nat (S (S k)) - 1) with (Z.succ (Z.of_nat (S k) - 1)) in H by lia.
    rewrite Z.pow_succ_r in H by lia. rewrite (Nat2Z.inj_succ (S k)), Z.pow_succ_r in H by lia.
    split; [apply Z.div_le_lower_bound; lia|apply Z.div_lt_upper_bound; lia].
Qed.
Lemma count_shifts_0 : forall fuel cnt, count_shifts fuel 0 cnt = Ok cnt.
Proof. destruct fuel; reflexivity. Qed.
Lemma count_shifts_neg : forall fuel m cnt, m < 0 -> count_shifts fuel m cnt = Diverges.
Proof. destruct fuel; intros m cnt H; cbn; (destruct (Z.ltb_spec m 0); [reflexivity|lia]). Qed.
Lemma shl_times_ok : forall c a, Z.of_nat a + Z.of_nat c <= 30 -> shl_times c (2 ^ Z.of_nat a) = Ok (2 ^ (Z.of_nat a + Z.of_nat c)).
Proof.
  induction c; intros a H; [cbn [shl_times]; rewrite Z.add_0_r; reflexivity|]. cbn [shl_times].
  assert (E : 2 * 2 ^ Z.of_nat a = 2 ^ Z.of_nat (S a)) by (rewrite Nat2Z.inj_succ, Z.pow_succ_r by lia; reflexivity).
  rewrite E. destruct (Z.ltb_spec (2 ^ Z.of_nat (S a)) (2 ^ 31)) as [_|N].
  - rewrite IHc by lia. do 2 f_equal. lia.
  - assert (2 ^ Z.of_nat (S a) <= 2 ^ 30) by (apply Z.pow_le_mono_r; lia). lia.
Qed.
Lemma shl_times_big : forall c a, (a <= 30)%nat -> 30 < Z.of_nat a + Z.of_nat c -> shl_times c (2 ^ Z.of_nat a) = UB.
Proof.
  induction c; intros a Ha H; [lia|]. cbn [shl_times].
  assert (E : 2 * 2 ^ Z.of_nat a = 2 ^ Z.of_nat (S a)) by (rewrite Nat2Z.inj_succ, Z.pow_succ_r by lia; reflexivity).
  rewrite E. destruct (Z.ltb_spec (2 ^ Z.of_nat (S a)) (2 ^ 31)) as [L|N]; [|reflexivity].
  apply Z.pow_lt_mono_r_iff in L; [|lia|lia]. apply IHc; lia.
Qed.
Lemma log2_up_big : forall n, (1 <= n)%nat -> Z.of_nat n <= 2 ^ 30 <-> (Nat.log2_up n <= 30)%nat.
Proof.
  intros n Hn. rewrite <- Nat.log2_up_le_pow2 by lia.
  replace (2 ^ 30) with (Z.of_nat (2 ^ 30)) by (rewrite Nat2Z.inj_pow; reflexivity).
  split; intro H; [apply Nat2Z.inj_le|apply Nat2Z.inj_le in H]; exact H.
Qed.
Lemma first_count : forall n, (1 <= n)%nat -> Z.of_nat n < 2 ^ 31 ->
  count_shifts 64 (Z.of_nat n - 1) 0 = Ok (Z.of_nat (Nat.log2_up n)).
Proof.
  intros n Hn Hb. destruct (Nat.eq_dec n 1) as [->|N]; [reflexivity|].
  pose proof (Nat.log2_up_spec n ltac:(lia)) as [A B].
  assert (K : (1 <= Nat.log2_up n)%nat) by (apply Nat.log2_up_pos; lia).
  apply Nat2Z.inj_le in B. rewrite Nat2Z.inj_pow in B. change (Z.of_nat 2) with 2 in B.
  apply inj_lt in A. rewrite Nat2Z.inj_pow in A. change (Z.of_nat 2) with 2 in A.
  rewrite Nat2Z.inj_pred in A by lia.
  rewrite (count_shifts_ok (Nat.log2_up n)); [f_equal; lia| |unfold Z.pred in A; replace (Z.of_nat (Nat.log2_up n) - 1) with (Z.of_nat (Nat.log2_up n) + -1) by lia; lia|exact K].
  destruct (Nat.le_gt_cases (Nat.log2_up n) 64); [assumption|exfalso].
  assert (2 ^ 63 <= 2 ^ Z.pred (Z.of_nat (Nat.log2_up n))) by (apply Z.pow_le_mono_r; lia). lia.
Qed.
Lemma second_count : forall k, (k <= 30)%nat -> count_shifts 64 (2 ^ Z.of_nat k) 0 = Ok (Z.of_nat k + 1).
Proof.
  intros k H. rewrite (count_shifts_ok (S k)); [f_equal; lia|lia| |lia].
  rewrite Nat2Z.inj_succ. replace (Z.succ (Z.of_nat k) - 1) with (Z.of_nat k) by lia.
  split; [lia|]. apply Z.pow_lt_mono_r; lia.
Qed.
Lemma log2_up_1 : Nat.log2_up 1 = 0%nat. Proof. reflexivity. Qed.

(** ** One gate *)
Definition cells (l : list gate) (m : nat) : list (option gate) := map Some l ++ repeat None m.
Lemma cells_length : forall l m, length (cells l m) = (length l + m)%nat.
Proof. intros. unfold cells. rewrite app_length, map_length, repeat_length. reflexivity. Qed.
Lemma upd_app : forall A (l : list A) x y r, upd (l ++ x :: r) (length l) y = l ++ y :: r.
Proof. induction l; intros x y r; [reflexivity|]. cbn [app length upd]. rewrite IHl. reflexivity. Qed.
Lemma wr_cells : forall l m g, wr (cells l (S m)) (length l) (Some g) = Ok (cells (l ++ [g]) m).
Proof.
  intros l m g. unfold wr. rewrite cells_length.
  destruct (Nat.ltb_spec (length l) (length l + S m)); [|lia].
  unfold cells. cbn [repeat]. rewrite map_app, <- app_assoc. cbn [map app].
  rewrite <- (map_length Some l). rewrite upd_app. reflexivity.
Qed.
Definition fin_ok (first : bool) (b : nat) (f : fgate) : Prop :=
  gate_ok b f /\ (first = true -> f_ty f = 2 \/ f_ty f = 3).
Lemma check_range_iff : forall b ty u v x, (b <= 30)%nat -> check_range b ty u v = Ok x <->
  ((ty <> 3 -> 0 <= u < 2 ^ Z.of_nat b) /\ (ty <> 3 -> ty <> 5 -> 0 <= v < 2 ^ Z.of_nat b) /\
   (ty = 5 -> u < v <= 2 ^ Z.of_nat b)).
Proof.
  intros b ty u v [] Hb. unfold check_range. destruct (Z.eqb_spec ty 3) as [->|N3]; [split; [intros _; lia|reflexivity]|].
  unfold shl1_int. assert (L : (0 <=? Z.of_nat b) && (Z.of_nat b <? 31) = true) by (apply andb_true_iff; rewrite Z.leb_le, Z.ltb_lt; lia).
  rewrite L, bind_ok. destruct (Z.eqb_spec ty 5) as [->|N5].
  - split.
    + intro H. apply bind_inv in H. destruct H as (? & H1 & H2). apply assert_inv in H1, H2.
      rewrite andb_true_iff, ?Z.leb_le, ?Z.ltb_lt in *. lia.
    + intros (A & _ & B). assert (C : (0 <=? u) && (u <? 2 ^ Z.of_nat b) = true) by (rewrite andb_true_iff, Z.leb_le, Z.ltb_lt; lia).
      rewrite C. cbn [assert_ bind]. assert (D : (u <? v) && (v <=? 2 ^ Z.of_nat b) = true) by (rewrite andb_true_iff, Z.leb_le, Z.ltb_lt; lia).
      rewrite D. reflexivity.
  - split.
    + intro H. apply bind_inv in H. destruct H as (? & H1 & H2). apply assert_inv in H1, H2.
      rewrite andb_true_iff, ?Z.leb_le, ?Z.ltb_lt in *. lia.
    + intros (A & B & _). assert (C : (0 <=? u) && (u <? 2 ^ Z.of_nat b) = true) by (rewrite andb_true_iff, Z.leb_le, Z.ltb_lt; lia).
      rewrite C. cbn [assert_ bind]. assert (D : (0 <=? v) && (v <? 2 ^ Z.of_nat b) = true) by (rewrite andb_true_iff, Z.leb_le, Z.ltb_lt; lia).
      rewrite D. reflexivity.
Qed.
Definition copy_gate (k : nat) : gate := Gate 4 (Z.of_nat k) 0.
Definition zn (z : Z) : Z := if z =? 0 then 0 else z.
Lemma v_adjust : forall ty v, to_int (if ty =? 10 then 0 else if ty =? 6 then 0 else v) =
  (if (ty =? 6) || (ty =? 10) then 0 else int32 v).
Proof.
  intros ty v. destruct (ty =? 6), (ty =? 10); cbn [orb]; rewrite to_int_int32; try reflexivity.
Qed.
Lemma load_gate_ok : forall first b t f k l0 l m0 m, (b <= 30)%nat -> is_int (Z.of_nat k) ->
  fin_ok first b f -> (first = true -> length l0 = k) -> length l = k ->
  load_gate first b (([f_ty f; Z.of_nat k; f_u f; f_v f] ++ t), (if first then cells l0 (S m0) else cells l0 m0), cells l (S m), Z.of_nat k - 1) =
  Ok (t, (if first then cells (l0 ++ [file_gate f]) m0 else cells l0 m0), cells (l ++ [if first then copy_gate k else file_gate f]) m, Z.of_nat k).
Proof.
  intros first b t f k l0 l m0 m Hb Hk ((I1 & I2 & I3 & A & B & D & E) & F) L0 L.
  unfold load_gate. cbn [app].
  rewrite (proj2 (scan_int_iff _ _ _) (conj eq_refl I1)), bind_ok.
  rewrite (proj2 (scan_int_iff _ _ _) (conj eq_refl Hk)), bind_ok.
  rewrite (proj2 (scan_ll_iff _ _ _) (conj eq_refl I2)), bind_ok.
  rewrite (proj2 (scan_ll_iff _ _ _) (conj eq_refl I3)), bind_ok.
  rewrite (proj2 (check_range_iff b _ _ _ tt Hb) (conj A (conj B D))), bind_ok. cbv zeta.
  assert (X : (if f_ty f =? 13 then assert_ (f_u f =? (if f_ty f =? 10 then 0 else if f_ty f =? 6 then 0 else f_v f)) else Ok tt) = Ok tt).
  { destruct (Z.eqb_spec (f_ty f) 13) as [E13|]; [|reflexivity]. rewrite E13. cbn [Z.eqb Pos.eqb].
    rewrite (E E13), Z.eqb_refl. reflexivity. }
  rewrite X, bind_ok. replace (Z.of_nat k - 1 + 1) with (Z.of_nat k) by lia. rewrite Z.eqb_refl. cbn [negb].
  unfold idx. destruct (Z.ltb_spec (Z.of_nat k) 0); [lia|]. rewrite bind_ok, Nat2Z.id.
  rewrite v_adjust, to_int_int32. subst k. destruct first; cbn [negb].
  - assert (Y : (f_ty f =? 2) || (f_ty f =? 3) = true).
    { destruct (F eq_refl) as [->| ->]; reflexivity. }
    rewrite Y. cbn [assert_]. rewrite bind_ok. rewrite wr_cells, bind_ok. rewrite <- (L0 eq_refl), wr_cells, bind_ok. 
    unfold copy_gate. rewrite (L0 eq_refl). reflexivity.
  - rewrite wr_cells, bind_ok. reflexivity.
Qed.
Lemma load_gate_inv : forall first b t a0 a k st, (b <= 30)%nat -> load_gate first b (t, a0, a, Z.of_nat k - 1) = Ok st ->
  exists f t', t = [f_ty f; Z.of_nat k; f_u f; f_v f] ++ t' /\ fin_ok first b f /\ is_int (Z.of_nat k).
Proof.
  intros first b t a0 a k st Hb H. unfold load_gate in H.
  apply bind_inv in H. destruct H as ([ty t1] & E1 & H). apply scan_int_iff in E1. destruct E1 as [-> I1].
  apply bind_inv in H. destruct H as ([g t2] & E2 & H). apply scan_int_iff in E2. destruct E2 as [-> I2].
  apply bind_inv in H. destruct H as ([u t3] & E3 & H). apply scan_ll_iff in E3. destruct E3 as [-> I3].
  apply bind_inv in H. destruct H as ([v t4] & E4 & H). apply scan_ll_iff in E4. destruct E4 as [-> I4].
  apply bind_inv in H. destruct H as ([] & E5 & H). apply (check_range_iff _ _ _ _ _ Hb) in E5. cbv zeta in H.
  apply bind_inv in H. destruct H as ([] & E6 & H).
  destruct (Z.eqb_spec g (Z.of_nat k - 1 + 1)) as [->|]; [|discriminate]. cbn [negb] in H.
  replace (Z.of_nat k - 1 + 1) with (Z.of_nat k) in * by lia.
  exists (FGate ty u v), t4. cbn [f_ty f_u f_v]. split; [reflexivity|]. split; [|exact I2].
  destruct E5 as (A & B & D). split.
  - unfold gate_ok. cbn [f_ty f_u f_v]. split; [exact I1|]. split; [exact I3|]. split; [exact I4|]. split; [exact A|]. split; [exact B|].
    split; [exact D|]. intros ->. cbn [Z.eqb Pos.eqb] in E6. apply assert_inv in E6. apply Z.eqb_eq in E6. exact E6.
  - intros ->. cbn [f_ty negb] in *. apply bind_inv in H. destruct H as (? & _ & H).
    apply bind_inv in H. destruct H as (? & E7 & _). apply assert_inv in E7.
    apply orb_true_iff in E7. rewrite !Z.eqb_eq in E7. exact E7.
Qed.

(** ** The gates of a layer *)
Lemma load_gates_ok : forall first b fs t s k l0 l m0 m, (b <= 30)%nat -> is_int (Z.of_nat (k + length fs)) ->
  Forall (fin_ok first b) fs -> (first = true -> length l0 = k) -> length l = k ->
  for_ (length fs) s (fun _ => load_gate first b)
    (gate_tokens k fs ++ t, (if first then cells l0 (length fs + m0) else cells l0 m0), cells l (length fs + m), Z.of_nat k - 1) =
  Ok (t, (if first then cells (l0 ++ map file_gate fs) m0 else cells l0 m0),
      cells (l ++ if first then map copy_gate (seq k (length fs)) else map file_gate fs) m, Z.of_nat (k + length fs) - 1).
Proof.
  induction fs as [|f fs IH]; intros t s k l0 l m0 m Hb Hk H L0 L.
  - cbn [length for_ gate_tokens app map seq Nat.add]. rewrite Nat.add_0_r, !app_nil_r. destruct first; rewrite ?app_nil_r; reflexivity.
  - inversion H; subst. cbn [length] in Hk. cbn [length gate_tokens Nat.add]. rewrite for_S.
    rewrite <- app_assoc.
    assert (K0 : is_int (Z.of_nat (length l))) by (unfold is_int in *; lia).
    assert (KK : is_int (Z.of_nat (S (length l) + length fs))) by (unfold is_int in *; lia).
    assert (LL : forall g : gate, length (l ++ [g]) = S (length l)) by (intro g; rewrite app_length; cbn; lia).
    specialize (IH t (S s) (S (length l))).
    replace (Z.of_nat (S (length l)) - 1) with (Z.of_nat (length l)) in IH by lia.
    destruct first.
    + pose proof (load_gate_ok true b (gate_tokens (S (length l)) fs ++ t) f (length l) l0 l (length fs + m0) (length fs + m) Hb K0) as G.
      cbv iota in G. rewrite G; [|assumption|exact L0|reflexivity]. rewrite bind_ok.
      rewrite IH; [|exact Hb|exact KK|assumption|intros _; rewrite app_length, L0 by reflexivity; cbn; lia|apply LL].
      rewrite <- !app_assoc. cbn [map seq app]. f_equal. f_equal. lia.
    + pose proof (load_gate_ok false b (gate_tokens (S (length l)) fs ++ t) f (length l) l0 l m0 (length fs + m) Hb K0) as G.
      cbv iota in G. rewrite G; [|assumption|discriminate|reflexivity]. rewrite bind_ok.
      rewrite (IH l0 (l ++ [file_gate f]) m0 m); [|exact Hb|exact KK|assumption|discriminate|apply LL].
      rewrite <- !app_assoc. cbn [map app]. f_equal. f_equal. lia.
Qed.
Lemma load_gates_inv : forall first b n t s k l0 l m0 m st, (b <= 30)%nat ->
  (first = true -> length l0 = k) -> length l = k -> (n <= m)%nat -> (first = true -> n <= m0)%nat ->
  for_ n s (fun _ => load_gate first b) (t, cells l0 m0, cells l m, Z.of_nat k - 1) = Ok st ->
  exists fs t', length fs = n /\ t = gate_tokens k fs ++ t' /\ Forall (fin_ok first b) fs.
Proof.
  induction n; intros t s k l0 l m0 m st Hb L0 L Hm Hm0 H.
  - exists [], t. split; [reflexivity|]. split; [reflexivity|constructor].
  - rewrite for_S in H. apply bind_inv in H. destruct H as (st1 & E & H).
    destruct (load_gate_inv _ _ _ _ _ _ _ Hb E) as (f & t' & -> & Ff & Ik).
    destruct m as [|m]; [lia|].
    assert (X : exists l0' l' m0', load_gate first b ([f_ty f; Z.of_nat k; f_u f; f_v f] ++ t', cells l0 m0, cells l (S m), Z.of_nat k - 1)
                = Ok (t', cells l0' m0', cells l' m, Z.of_nat k) /\ (first = true -> length l0' = S k) /\ length l' = S k /\ (first = true -> n <= m0')%nat).
    { destruct first.
      - destruct m0 as [|m0]; [specialize (Hm0 eq_refl); lia|].
        exists (l0 ++ [file_gate f]), (l ++ [copy_gate k]), m0.
        split; [apply (load_gate_ok true b t' f k l0 l m0 m); assumption|].
        rewrite !app_length, L0, L by reflexivity. cbn [length]. split; [lia|]. split; [lia|]. intros _. specialize (Hm0 eq_refl). lia.
      - exists l0, (l ++ [file_gate f]), m0.
        split; [apply (load_gate_ok false b t' f k l0 l m0 m); assumption|].
        split; [discriminate|]. rewrite app_length, L. cbn [length]. split; [lia|discriminate]. }
    destruct X as (l0' & l' & m0' & X & L0' & L' & M0'). rewrite X in E. apply Ok_inj in E. subst st1.
    replace (Z.of_nat k) with (Z.of_nat (S k) - 1) in H by lia.
    apply IHn in H; [|exact Hb|exact L0'|exact L'|lia|exact M0'].
    destruct H as (fs & t'' & Lf & -> & Ffs). exists (f :: fs), t''.
    split; [cbn [length]; rewrite Lf; reflexivity|]. split; [cbn [gate_tokens]; rewrite <- app_assoc; reflexivity|].
    constructor; assumption.
Qed.

(** ** One layer *)
Definition some_raw (l : list gate) (b : nat) : raw_layer := Raw (map Some l) b.
Definition extra (n : nat) : nat := if Nat.eqb n 1 then 1%nat else 0%nat.
Lemma new_gates_ok : forall n, (1 <= n)%nat -> new_gates (Z.of_nat n) = Ok (cells [] (n + extra n)).
Proof.
  intros n Hn. unfold new_gates. destruct (Z.ltb_spec (Z.of_nat n) 0); [lia|].
  unfold cells, extra. cbn [map app]. destruct (Z.eqb_spec (Z.of_nat n) 1) as [E|E].
  - assert (n = 1%nat) as -> by lia. reflexivity.
  - destruct (Nat.eqb_spec n 1); [lia|]. rewrite Nat2Z.id, Nat.add_0_r. reflexivity.
Qed.
Lemma cells_0 : forall l, cells l 0 = map Some l.
Proof. intro l. unfold cells. apply app_nil_r. Qed.
Lemma least_bits_30 : forall n, (1 <= n)%nat -> Z.of_nat n <= 2 ^ 30 -> (least_bits n <= 30)%nat.
Proof. intros n H1 H. apply log2_up_big in H; [|exact H1]. unfold least_bits. lia. Qed.
Definition expect_layers (first : bool) (fs : list fgate) : list raw_layer :=
  let b := least_bits (length fs) in
  if first then [some_raw (file_gates fs) b; some_raw (copy_gates fs) b] else [some_raw (file_gates fs) b].
Lemma load_layer_ok : forall i t ls mx fs b, layer_size_ok fs ->
  (if Nat.eqb i 1 then b = 0%nat /\ ls = [] else exists r, nth_error ls (i - 1) = Some r /\ r_bits r = b) -> (b <= 30)%nat ->
  Forall (fin_ok (Nat.eqb i 1) b) fs ->
  load_layer i (layer_tokens fs ++ t, ls, mx) =
  Ok (t, ls ++ expect_layers (Nat.eqb i 1) fs, Z.max mx (Z.of_nat (least_bits (length fs)))).
Proof.
  intros i t ls mx fs b [S1 S2] HB Hb F. unfold load_layer. unfold layer_tokens. cbn [app].
  assert (In : is_int (Z.of_nat (length fs))) by (unfold is_int; lia).
  rewrite (proj2 (scan_int_iff _ _ _) (conj eq_refl In)), bind_ok.
  rewrite (new_gates_ok _ S1), !bind_ok. cbv zeta.
  assert (PB : (if Nat.eqb i 1 then Ok 0%nat else bind (rd ls (i - 1)) (fun l => Ok (r_bits l))) = Ok b).
  { destruct (Nat.eqb i 1); [destruct HB as [-> _]; reflexivity|]. destruct HB as (r & E & <-). unfold rd. rewrite E. reflexivity. }
  rewrite PB, bind_ok, Nat2Z.id.
  pose proof (log2_up_big (length fs) S1) as LB. apply LB in S2 as L30. clear LB.
  assert (LP : for_ (length fs) 0 (fun _ => load_gate (Nat.eqb i 1) b)
      (gate_tokens 0 fs ++ t, cells [] (length fs + extra (length fs)), cells [] (length fs + extra (length fs)), -1) =
    Ok (t, (if Nat.eqb i 1 then cells (map file_gate fs) (extra (length fs)) else cells [] (length fs + extra (length fs))),
        cells (if Nat.eqb i 1 then map copy_gate (seq 0 (length fs)) else map file_gate fs) (extra (length fs)), Z.of_nat (length fs) - 1)).
  { pose proof (load_gates_ok (Nat.eqb i 1) b fs t 0%nat 0%nat [] []) as G. cbn [Nat.add app length Z.of_nat Z.sub] in G.
    destruct (Nat.eqb i 1).
    - apply G; try assumption; reflexivity.
    - apply G; try assumption; [discriminate|reflexivity]. }
  change (0 - 1) with (-1) in LP. rewrite LP, bind_ok.
  rewrite (first_count _ S1) by lia. rewrite bind_ok, Nat2Z.id.
  pose proof (shl_times_ok (Nat.log2_up (length fs)) 0 ltac:(lia)) as ST. change (2 ^ Z.of_nat 0) with 1 in ST.
  change (Z.of_nat 0 + Z.of_nat (Nat.log2_up (length fs))) with (Z.of_nat (Nat.log2_up (length fs))) in ST.
  rewrite ST, bind_ok, (second_count _ L30), bind_ok.
  unfold expect_layers. destruct (Z.eqb_spec (Z.of_nat (length fs)) 1) as [E1|E1].
  - assert (E : length fs = 1%nat) by lia. destruct fs as [|f [|f' fs]]; try discriminate. clear E E1.
    unfold idx. cbn [length]. change (Nat.log2_up 1) with 0%nat. change (2 ^ Z.of_nat 0) with 1. cbn [Z.ltb Z.compare]. rewrite bind_ok.
    change (Z.to_nat 1) with 1%nat. change (extra 1) with 1%nat. cbn [map seq Nat.add].
    pose proof (fun g h => wr_cells [g] 0 h : wr (cells [g] 1) 1 (Some h) = Ok (cells ([g] ++ [h]) 0)) as WC.
    destruct (Nat.eqb i 1); cbn [negb].
    + rewrite (WC (file_gate f)), bind_ok. rewrite (WC (copy_gate 0)), !bind_ok, !cells_0. destruct HB as [_ ->].
      reflexivity.
    + rewrite (WC (file_gate f)), !bind_ok, !cells_0. reflexivity.
  - rewrite bind_ok. unfold extra. destruct (Nat.eqb_spec (length fs) 1); [lia|]. rewrite !cells_0.
    assert (LB : least_bits (length fs) = Nat.log2_up (length fs)).
    { unfold least_bits. assert (1 <= Nat.log2_up (length fs))%nat by (apply Nat.log2_up_pos; lia). lia. }
    rewrite LB. replace (Z.of_nat (Nat.log2_up (length fs)) + 1 - 1) with (Z.of_nat (Nat.log2_up (length fs))) by lia.
    rewrite Nat2Z.id. unfold some_raw, copy_gates, file_gates. destruct (Nat.eqb_spec (length fs) 1); [lia|].
    rewrite app_nil_r, map_length. destruct (Nat.eqb i 1); cbn [app]; [destruct HB as [_ ->]|]; reflexivity.
Qed.
Lemma load_layer_inv : forall i t ls mx st b,
  (if Nat.eqb i 1 then b = 0%nat /\ ls = [] else exists r, nth_error ls (i - 1) = Some r /\ r_bits r = b) -> (b <= 30)%nat ->
  load_layer i (t, ls, mx) = Ok st ->
  exists fs t', t = layer_tokens fs ++ t' /\ layer_size_ok fs /\ Forall (fin_ok (Nat.eqb i 1) b) fs.
Proof.
  intros i t ls mx st b HB Hb H. unfold load_layer in H.
  apply bind_inv in H. destruct H as ([n t1] & E & H). apply scan_int_iff in E. destruct E as [-> In].
  apply bind_inv in H. destruct H as (a0 & E0 & H). pose proof E0 as E0'.
  unfold new_gates in E0. destruct (Z.ltb_spec n 0); [discriminate|]. clear E0.
  apply bind_inv in H. destruct H as (a & E1 & H). cbv zeta in H.
  assert (PB : (if Nat.eqb i 1 then Ok 0%nat else bind (rd ls (i - 1)) (fun l => Ok (r_bits l))) = Ok b).
  { destruct (Nat.eqb i 1); [destruct HB as [-> _]; reflexivity|]. destruct HB as (r & E & <-). unfold rd. rewrite E. reflexivity. }
  rewrite PB, bind_ok in H.
  destruct (Z.eq_dec n 0) as [->|N].
  { cbn [Z.to_nat for_] in H. rewrite bind_ok in H. rewrite count_shifts_neg in H by lia. discriminate. }
  destruct (Z_of_nat_complete n ltac:(lia)) as (k & ->). assert (Hk : (1 <= k)%nat) by lia. rewrite Nat2Z.id in H.
  rewrite (new_gates_ok k Hk) in E0', E1. apply Ok_inj in E0', E1. subst a0 a.
  apply bind_inv in H. destruct H as ([[[t2 a0] a] pg] & E2 & H).
  pose proof (load_gates_inv (Nat.eqb i 1) b k t1 0%nat 0%nat [] [] (k + extra k) (k + extra k) _ Hb
    ltac:(reflexivity) ltac:(reflexivity) ltac:(lia) ltac:(lia) E2) as (fs & t' & Lf & -> & Ff).
  exists fs, t'. unfold layer_tokens. rewrite Lf. split; [reflexivity|]. split; [|exact Ff].
  split; [lia|]. rewrite Lf.
  assert (Epg : pg = Z.of_nat k - 1).
  { pose proof (load_gates_ok (Nat.eqb i 1) b fs t' 0%nat 0%nat [] []) as G. cbn [Nat.add app length] in G. rewrite Lf in G.
    change (Z.of_nat 0 - 1) with (-1) in G.
    destruct (Nat.eqb i 1).
    - specialize (G (extra k) (extra k) Hb In Ff ltac:(reflexivity) eq_refl). rewrite G in E2. injection E2 as _ _ _ <-. reflexivity.
    - specialize (G (k + extra k)%nat (extra k) Hb In Ff ltac:(discriminate) eq_refl). rewrite G in E2. injection E2 as _ _ _ <-. reflexivity. }
  subst pg. rewrite (first_count k Hk) in H by (unfold is_int in In; lia). rewrite bind_ok, Nat2Z.id in H.
  destruct (Z.le_gt_cases (Z.of_nat k) (2 ^ 30)) as [L|L]; [exact L|exfalso].
  assert (30 < Z.of_nat (Nat.log2_up k)). { pose proof (log2_up_big k Hk). lia. }
  pose proof (shl_times_big (Nat.log2_up k) 0 ltac:(lia) ltac:(lia)) as X. change (2 ^ Z.of_nat 0) with 1 in X.
  rewrite X in H. discriminate.
Qed.
Lemma upper_layers_ok : forall L i t ls mx b, (2 <= i)%nat -> length ls = i ->
  (exists r, nth_error ls (i - 1) = Some r /\ r_bits r = b) -> (b <= 30)%nat -> upper_ok b L ->
  for_ (length L) i load_layer (concat (map layer_tokens L) ++ t, ls, mx) =
  Ok (t, ls ++ concat (map (expect_layers false) L),
      fold_left (fun m l => Z.max m (Z.of_nat (least_bits (length l)))) L mx).
Proof.
  induction L as [|l L IH]; intros i t ls mx b Hi Li Hr Hb H.
  - cbn [length for_ map concat app fold_left]. rewrite app_nil_r. reflexivity.
  - destruct H as (S & F & U). cbn [length]. rewrite for_S. cbn [map concat]. rewrite <- app_assoc.
    assert (N1 : Nat.eqb i 1 = false) by (apply Nat.eqb_neq; lia).
    rewrite (load_layer_ok i _ ls mx l b S); [|rewrite N1; exact Hr|exact Hb|].
    2:{ rewrite N1. eapply Forall_impl; [|exact F]. intros f Hf. split; [exact Hf|discriminate]. }
    rewrite bind_ok, N1. rewrite (IH (Datatypes.S i) t _ _ (least_bits (length l))); [|lia| | | |exact U].
    + rewrite <- app_assoc. reflexivity.
    + rewrite app_length, Li. cbn [expect_layers length]. lia.
    + exists (some_raw (file_gates l) (least_bits (length l))). split; [|reflexivity].
      rewrite Nat.sub_succ, Nat.sub_0_r, nth_error_app2 by lia. rewrite Li, Nat.sub_diag. reflexivity.
    + apply least_bits_30; apply S.
Qed.
Lemma upper_layers_inv : forall n i t ls mx b st, (2 <= i)%nat -> length ls = i ->
  (exists r, nth_error ls (i - 1) = Some r /\ r_bits r = b) -> (b <= 30)%nat ->
  for_ n i load_layer (t, ls, mx) = Ok st ->
  exists L t', length L = n /\ t = concat (map layer_tokens L) ++ t' /\ upper_ok b L.
Proof.
  induction n; intros i t ls mx b st Hi Li Hr Hb H.
  - exists [], t. split; [reflexivity|]. split; [reflexivity|exact I].
  - rewrite for_S in H. apply bind_inv in H. destruct H as (st1 & E & H).
    assert (N1 : Nat.eqb i 1 = false) by (apply Nat.eqb_neq; lia).
    assert (HB : if Nat.eqb i 1 then b = 0%nat /\ ls = [] else exists r, nth_error ls (i - 1) = Some r /\ r_bits r = b) by (rewrite N1; exact Hr).
    destruct (load_layer_inv i t ls mx st1 b HB Hb E) as (fs & t' & -> & S & F).
    rewrite (load_layer_ok i t' ls mx fs b S HB Hb F) in E. apply Ok_inj in E. subst st1. rewrite N1 in *.
    apply (IHn _ _ _ _ (least_bits (length fs))) in H; [|lia| | |].
    + destruct H as (L & t'' & LL & -> & U). exists (fs :: L), t''. split; [cbn [length]; rewrite LL; reflexivity|].
      split; [cbn [map concat]; rewrite <- app_assoc; reflexivity|]. split; [exact S|]. split; [|exact U].
      eapply Forall_impl; [|exact F]. intros f Hf. apply Hf.
    + rewrite app_length, Li. cbn [expect_layers length]. lia.
    + exists (some_raw (file_gates fs) (least_bits (length fs))). split; [|reflexivity].
      rewrite Nat.sub_succ, Nat.sub_0_r, nth_error_app2 by lia. rewrite Li, Nat.sub_diag. reflexivity.
    + apply least_bits_30; apply S.
Qed.

(** ** The meta file *)
Definition meta_of (m : fmeta) : meta := (negb (m_para m =? 0), m_block m, m_repeat m, m_log_block m, m_log_repeat m).
Definition meta_line (m : fmeta) : list Z := [m_para m; m_block m; m_repeat m; m_log_block m; m_log_repeat m].
Lemma shl1_int_iff : forall n z, shl1_int n = Ok z <-> 0 <= n < 31 /\ z = 2 ^ n.
Proof.
  intros n z. unfold shl1_int. destruct ((0 <=? n) && (n <? 31)) eqn:E.
  - rewrite andb_true_iff, Z.leb_le, Z.ltb_lt in E. split; [intro H; apply Ok_inj in H; subst; auto|intros [_ ->]; reflexivity].
  - split; [discriminate|]. intros [H _]. assert ((0 <=? n) && (n <? 31) = true) by (rewrite andb_true_iff, Z.leb_le, Z.ltb_lt; lia). congruence.
Qed.
Lemma load_meta_ok : forall m t ms, meta_ok m -> load_meta (meta_line m ++ t, ms) = Ok (t, ms ++ [meta_of m]).
Proof.
  intros m t ms (I1 & I2 & I3 & I4 & I5 & E). unfold load_meta, meta_line. cbn [app].
  do 5 (erewrite (proj2 (scan_int_iff _ _ _)) by (split; [reflexivity|assumption]); rewrite bind_ok). cbv zeta.
  destruct (Z.eqb_spec (m_para m) 0) as [Z0|Z0]; unfold meta_of; cbn [negb].
  - rewrite bind_ok. destruct (Z.eqb_spec (m_para m) 0); [|contradiction]. reflexivity.
  - destruct (E Z0) as [R ->]. rewrite (proj2 (shl1_int_iff _ _) (conj R eq_refl)), bind_ok, Z.eqb_refl. cbn [assert_].
    rewrite bind_ok. destruct (Z.eqb_spec (m_para m) 0); [contradiction|]. reflexivity.
Qed.
Lemma load_meta_inv : forall t ms st, load_meta (t, ms) = Ok st -> exists m t', t = meta_line m ++ t' /\ meta_ok m.
Proof.
  intros t ms st H. unfold load_meta in H.
  apply bind_inv in H. destruct H as ([x1 t1] & E & H). apply scan_int_iff in E. destruct E as [-> I1].
  apply bind_inv in H. destruct H as ([x2 t2] & E & H). apply scan_int_iff in E. destruct E as [-> I2].
  apply bind_inv in H. destruct H as ([x3 t3] & E & H). apply scan_int_iff in E. destruct E as [-> I3].
  apply bind_inv in H. destruct H as ([x4 t4] & E & H). apply scan_int_iff in E. destruct E as [-> I4].
  apply bind_inv in H. destruct H as ([x5 t5] & E & H). apply scan_int_iff in E. destruct E as [-> I5].
  cbv zeta in H. apply bind_inv in H. destruct H as ([] & E & H).
  exists (FMeta x1 x2 x3 x4 x5), t5. split; [reflexivity|]. unfold meta_ok. cbn [m_para m_block m_repeat m_log_block m_log_repeat].
  do 5 (split; [assumption|]). intro N. destruct (Z.eqb_spec x1 0); [contradiction|]. cbn [negb] in E.
  apply bind_inv in E. destruct E as (s & E & E'). apply shl1_int_iff in E. destruct E as [R ->].
  apply assert_inv, Z.eqb_eq in E'. auto.
Qed.
Lemma load_metas_ok : forall M s t ms, Forall meta_ok M ->
  for_ (length M) s (fun _ => load_meta) (meta_tokens M ++ t, ms) = Ok (t, ms ++ map meta_of M).
Proof.
  unfold meta_tokens. induction M as [|m M IH]; intros s t ms H.
  - cbn [length for_ map concat app]. rewrite app_nil_r. reflexivity.
  - inversion H; subst. cbn [length]. rewrite for_S. cbn [map concat]. rewrite <- app_assoc.
    fold (meta_line m). rewrite load_meta_ok by assumption. rewrite bind_ok, IH by assumption. rewrite <- app_assoc. reflexivity.
Qed.
Lemma load_metas_inv : forall n s t ms st, for_ n s (fun _ => load_meta) (t, ms) = Ok st ->
  exists M t', length M = n /\ t = meta_tokens M ++ t' /\ Forall meta_ok M.
Proof.
  unfold meta_tokens. induction n; intros s t ms st H.
  - exists [], t. split; [reflexivity|]. split; [reflexivity|constructor].
  - rewrite for_S in H. apply bind_inv in H. destruct H as (st1 & E & H).
    destruct (load_meta_inv _ _ _ E) as (m & t' & -> & Hm). rewrite load_meta_ok in E by exact Hm. apply Ok_inj in E. subst st1.
    apply IHn in H. destruct H as (M & t'' & LM & -> & FM). exists (m :: M), t''.
    split; [cbn [length]; rewrite LM; reflexivity|]. split; [cbn [map concat]; rewrite <- app_assoc; reflexivity|]. constructor; assumption.
Qed.

(** ** The whole file *)
Lemma initialised_some : forall l, initialised (map Some l) = Ok l.
Proof. induction l; [reflexivity|]. cbn [map initialised]. rewrite IHl. reflexivity. Qed.
Lemma make_layer_ok : forall l b m, make_layer (some_raw l b) (meta_of m) = Ok (file_layer l b m).
Proof. intros l b m. unfold make_layer, meta_of, some_raw. cbn [r_gates r_bits]. rewrite initialised_some. reflexivity. Qed.
Lemma make_upper : forall L M, length L = length M ->
  make_layers (concat (map (expect_layers false) L)) (map meta_of M) = Ok (upper_layers L M).
Proof.
  induction L as [|l L IH]; intros [|m M] H; try discriminate; [reflexivity|]. injection H as H.
  cbn [map concat expect_layers app make_layers]. rewrite make_layer_ok, bind_ok, IH by exact H. reflexivity.
Qed.
Lemma input_fin : forall f, input_ok f <-> fin_ok true 0 f.
Proof.
  intro f. unfold input_ok, fin_ok, gate_ok. change (2 ^ Z.of_nat 0) with 1. split.
  - intros (U & V & H). assert (is_int (f_ty f)) by (unfold is_int; lia).
    split; [|lia]. split; [assumption|]. split; [exact U|]. split; [exact V|]. lia.
  - intros ((_ & U & V & A & B & _) & H). split; [exact U|]. split; [exact V|]. specialize (H eq_refl). lia.
Qed.
Lemma max_bits_fold : forall L m, fold_left (fun m l => Z.max m (Z.of_nat (least_bits (length l)))) L m =
  Z.max m (Z.of_nat (fold_right (fun (l : list fgate) m => Nat.max (least_bits (length l)) m) 0%nat L)) \/ (m < 0 /\ L = []).
Proof.
  induction L as [|l L IH]; intro m; cbn [fold_left fold_right].
  - destruct (Z.lt_ge_cases m 0); [right; auto|left; lia].
  - left. destruct (IH (Z.max m (Z.of_nat (least_bits (length l))))) as [->|[N _]]; [lia|]. lia.
Qed.
Lemma upper_bits : forall L b, upper_ok b L ->
  (fold_right (fun (l : list fgate) m => Nat.max (least_bits (length l)) m) 0%nat L <= 30)%nat.
Proof.
  induction L as [|l L IH]; intros b H; cbn [fold_right]; [lia|]. destruct H as ([A B] & _ & U).
  apply Nat.max_lub; [apply least_bits_30; assumption|]. eapply IH, U.
Qed.
Theorem read_circuit_iff : forall ct mt C mx, read_circuit ct mt = Ok (C, mx) <->
  exists D r1 r2, ct = circuit_tokens (d_layers D) ++ r1 /\ mt = meta_tokens (d_meta D) ++ r2 /\
    desc_ok D /\ C = denotes D /\ mx = Z.of_nat (max_bits D).
Proof.
  assert (OK : forall D r1 r2, desc_ok D ->
    read_circuit (circuit_tokens (d_layers D) ++ r1) (meta_tokens (d_meta D) ++ r2) = Ok (denotes D, Z.of_nat (max_bits D))).
  { intros [L M] r1 r2 (A & B & E & F). cbn [d_layers d_meta] in *. destruct L as [|l L]; [contradiction|].
    destruct M as [|m M]; [discriminate|]. destruct A as (S & I & U). unfold read_circuit, circuit_tokens.
    cbn [app]. assert (In : is_int (Z.of_nat (length (l :: L)))) by (unfold is_int; lia).
    rewrite (proj2 (scan_int_iff _ _ _) (conj eq_refl In)), bind_ok.
    destruct (Z.ltb_spec (Z.of_nat (length (l :: L)) + 1) 0); [lia|].
    destruct (Z.ltb_spec (Z.of_nat (length (l :: L)) + 1) (2 ^ 31)); [|lia]. rewrite bind_ok, Nat2Z.id.
    cbn [length map concat]. rewrite for_S, <- app_assoc.
    rewrite (load_layer_ok 1 _ [] _ l 0%nat S); [|split; reflexivity|lia|].
    2:{ eapply Forall_impl; [|exact I]. intros f Hf. apply input_fin, Hf. }
    rewrite bind_ok. cbn [Nat.eqb app]. 
    rewrite (upper_layers_ok L 2 r1 _ _ (least_bits (length l))); [|lia|reflexivity| |apply least_bits_30; apply S|exact U].
    2:{ exists (some_raw (copy_gates l) (least_bits (length l))). split; reflexivity. }
    rewrite bind_ok. injection E as E. rewrite <- E.
    pose proof (load_metas_ok (m :: M) 1 r2 [] F) as LM. cbn [length] in LM. rewrite LM, bind_ok. cbn [app].
    assert (MX : fold_left (fun m l => Z.max m (Z.of_nat (least_bits (length l)))) L (Z.max (-1) (Z.of_nat (least_bits (length l)))) =
                 Z.of_nat (max_bits (Desc (l :: L) (m :: M)))).
    { unfold max_bits. cbn [d_layers fold_right]. destruct (max_bits_fold L (Z.max (-1) (Z.of_nat (least_bits (length l))))) as [->|[N _]]; lia. }
    rewrite MX. erewrite (proj2 (shl1_int_iff _ _)).
    2:{ split; [|reflexivity]. unfold max_bits. cbn [d_layers fold_right]. pose proof (upper_bits L _ U).
        pose proof (least_bits_30 (length l) (proj1 S) (proj2 S)). lia. }
    rewrite bind_ok. cbn [expect_layers app map make_layers].
    assert (P0 : make_layer (some_raw (file_gates l) (least_bits (length l))) (false, 0, 0, 0, 0) = Ok (plain_layer (file_gates l) (least_bits (length l)))).
    { unfold make_layer, some_raw. cbn [r_gates r_bits]. rewrite initialised_some. reflexivity. }
    rewrite P0, bind_ok, make_layer_ok, bind_ok, make_upper by (symmetry; exact E). rewrite !bind_ok.
    unfold denotes. cbn [d_layers d_meta]. do 3 f_equal. rewrite <- E. lia. }
  intros ct mt C mx. split.
  - intro H. pose proof H as H0. unfold read_circuit in H.
    apply bind_inv in H. destruct H as ([d t] & E & H). apply scan_int_iff in E. destruct E as [-> Id].
    apply bind_inv in H. destruct H as ([] & E & H).
    destruct (Z.ltb_spec (d + 1) 0); [discriminate|]. destruct (Z.ltb_spec (d + 1) (2 ^ 31)); [|discriminate]. clear E.
    apply bind_inv in H. destruct H as ([[t1 ls] mb] & E1 & H).
    apply bind_inv in H. destruct H as ([t2 ms] & E2 & H).
    apply bind_inv in H. destruct H as (z & E3 & H). apply shl1_int_iff in E3.
    destruct (Z_le_gt_dec d 0) as [Ld|Ld].
    { replace (Z.to_nat d) with 0%nat in E1 by lia. cbn [for_] in E1. injection E1 as _ _ <-. lia. }
    destruct (Z_of_nat_complete d ltac:(lia)) as (n & ->). rewrite Nat2Z.id in *. destruct n as [|n]; [lia|].
    rewrite for_S in E1. apply bind_inv in E1. destruct E1 as (st & E1 & E1').
    assert (HB : if Nat.eqb 1 1 then 0%nat = 0%nat /\ (@nil raw_layer) = [] else exists r, nth_error (@nil raw_layer) (1 - 1) = Some r /\ r_bits r = 0%nat) by (split; reflexivity).
    destruct (load_layer_inv 1 t [] (-1) st 0%nat HB ltac:(lia) E1) as (l & t' & -> & Sl & Fl).
    rewrite (load_layer_ok 1 t' [] (-1) l 0%nat Sl HB ltac:(lia) Fl) in E1. apply Ok_inj in E1. subst st.
    cbn [Nat.eqb app] in *. apply (upper_layers_inv n 2 _ _ _ (least_bits (length l))) in E1';
      [|lia|reflexivity|exists (some_raw (copy_gates l) (least_bits (length l))); split; reflexivity|apply least_bits_30; apply Sl].
    destruct E1' as (L & t'' & LL & -> & U).
    apply load_metas_inv in E2. destruct E2 as (M & r2 & LM & -> & FM).
    assert (DO : desc_ok (Desc (l :: L) M)).
    { split; [|split; [|split]]; cbn [d_layers d_meta].
      - split; [exact Sl|]. split; [|exact U]. eapply Forall_impl; [|exact Fl]. intros f Hf. apply input_fin, Hf.
      - cbn [length]. rewrite LL. lia.
      - cbn [length]. rewrite LL. exact LM.
      - exact FM. }
    exists (Desc (l :: L) M), t'', r2. cbn [d_layers d_meta]. 
    assert (CT : Z.of_nat (S n) :: layer_tokens l ++ concat (map layer_tokens L) ++ t'' = circuit_tokens (l :: L) ++ t'').
    { unfold circuit_tokens. cbn [length app map concat]. rewrite LL, <- app_assoc. reflexivity. }
    rewrite CT in *. split; [reflexivity|]. split; [reflexivity|]. split; [exact DO|].
    pose proof (OK (Desc (l :: L) M) t'' r2 DO) as X. cbn [d_layers d_meta] in X. rewrite X in H0. 
    apply Ok_inj in H0. injection H0 as <- <-. split; reflexivity.
  - intros (D & r1 & r2 & -> & -> & H & -> & ->). apply OK. exact H.
Qed.
