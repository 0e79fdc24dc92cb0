(** * Proofs about the exponentiation helpers *)
From Coq Require Import ZArith List Bool Arith Lia Znumtheory.
From Verif Require Import Base Limbs Field FieldProofs Fp VpdGroup VpdInput.
Import ListNotations.
Open Scope nat_scope.

(** An array whose first [n] entries are given by [f]. *)
Definition arr {A} (l : list A) (n : nat) (f : nat -> A) : Prop :=
  n <= length l /\ forall i, i < n -> nth_error l i = Some (f i).
Lemma bind_Ok_inv : forall A B (m : outcome A) (k : A -> outcome B) y, bind m k = Ok y -> exists x, m = Ok x /\ k x = Ok y.
Proof. intros A B m k y H. destruct m; try discriminate H. eauto. Qed.
Lemma arr_rd : forall A (l : list A) n f i (Q : A -> Prop), arr l n f -> i < n -> Q (f i) -> returns (rd l i) Q.
Proof. intros A l n f i Q [_ H] L q. eapply returns_rd; [apply H, L|exact q]. Qed.
Lemma rb_arr : forall A B (l : list A) n f i (k : A -> outcome B) Q,
  arr l n f -> i < n -> returns (k (f i)) Q -> returns (bind (rd l i) k) Q.
Proof.
  intros A B l n f i k Q H L K. eapply returns_bind; [eapply (arr_rd _ _ _ _ _ (eq (f i))); eauto|].
  intros a <-. exact K.
Qed.
Lemma rb_wr' : forall A B (l : list A) i x (k : list A -> outcome B) Q,
  i < length l -> returns (k (upd l i x)) Q -> returns (bind (wr l i x) k) Q.
Proof.
  intros A B l i x k Q L K. eapply returns_bind; [eapply (returns_wr _ _ _ _ (eq (upd l i x))); eauto|].
  intros a <-. exact K.
Qed.
Lemma rb_eq : forall A B (m : outcome A) v (k : A -> outcome B) Q,
  returns m (eq v) -> returns (k v) Q -> returns (bind m k) Q.
Proof. intros A B m v k Q H K. eapply returns_bind; [exact H|]. intros a <-. exact K. Qed.
Lemma returns_eq_ok : forall A (m : outcome A) v, returns m (eq v) -> m = Ok v.
Proof. intros A m v (a & H & <-). exact H. Qed.
Lemma arr_ext : forall A (l : list A) n f g, arr l n f -> (forall i, i < n -> f i = g i) -> arr l n g.
Proof. intros A l n f g [L H] E. split; [exact L|]. intros i Hi. rewrite <- E by exact Hi. auto. Qed.
Lemma arr_le : forall A (l : list A) n m f, arr l n f -> m <= n -> arr l m f.
Proof. intros A l n m f [L H] E. split; [lia|]. intros i Hi. apply H; lia. Qed.
Lemma arr_upd : forall A (l : list A) n f i x, arr l n f -> i < n ->
  arr (upd l i x) n (fun j => if j =? i then x else f j).
Proof.
  intros A l n f i x [L H] Hi. split; [rewrite upd_length; exact L|]. intros j Hj.
  destruct (Nat.eqb_spec j i) as [->|N]; [apply nth_upd_same; lia|].
  rewrite nth_upd_other by congruence. auto.
Qed.
Lemma arr_app1 : forall A (l : list A) n f x, arr l n f -> length l = n ->
  arr (l ++ [x]) (S n) (fun j => if j =? n then x else f j).
Proof.
  intros A l n f x [L H] E. split; [rewrite app_length; simpl; lia|]. intros j Hj.
  destruct (Nat.eqb_spec j n) as [->|N].
  - rewrite nth_error_app2 by lia. rewrite E, Nat.sub_diag. reflexivity.
  - rewrite nth_error_app1 by lia. apply H. lia.
Qed.
Lemma arr_map : forall A B (h : A -> B) l n f, arr l n f -> arr (map h l) n (fun i => h (f i)).
Proof.
  intros A B h l n f [L H]. split; [rewrite map_length; exact L|]. intros i Hi.
  rewrite nth_error_map, H by exact Hi. reflexivity.
Qed.
Lemma arr_repeat : forall A (x : A) n, arr (repeat x n) n (fun _ => x).
Proof.
  intros A x n. split; [rewrite repeat_length; lia|]. intros i Hi. apply nth_error_repeat, Hi.
Qed.

(** ** Integers and residues *)
Lemma fz_ofZ : forall z, (0 <= z)%Z -> fz (ofZ z) = Z.rem z P.
Proof.
  intros z H. unfold ofZ. simpl. symmetry. apply Z.rem_mod_nonneg; [exact H|]. apply P_pos.
Qed.
Lemma fz_pos : forall a, (0 <= fz a)%Z. Proof. intro a. apply fz_range. Qed.
Lemma rem_fz : forall z a, (0 <= z)%Z -> ofZ z = a -> Z.rem z P = fz a.
Proof. intros z a H <-. symmetry. apply fz_ofZ, H. Qed.
Lemma fix_neg_z_fz : forall a, fix_neg_z (fz a) = fz a.
Proof. intro a. unfold fix_neg_z. destruct (Z.ltb_spec (fz a) 0); [pose proof (fz_pos a); lia|reflexivity]. Qed.
Lemma fix_neg_z_pos : forall z, (0 <= z)%Z -> fix_neg_z z = z.
Proof. intros z H. unfold fix_neg_z. destruct (Z.ltb_spec z 0); [lia|reflexivity]. Qed.
Lemma vuint_ok : forall z, (0 <= z)%Z -> vuint z = Ok z.
Proof. intros z H. unfold vuint. destruct (Z.ltb_spec z 0); [lia|reflexivity]. Qed.
Lemma vuint_fz : forall a, vuint (fz a) = Ok (fz a).
Proof. intro a. apply vuint_ok, fz_pos. Qed.
Lemma gmul_fz : forall x a, gmul x (fz a) = (x * a)%F.
Proof. intros x a. unfold gmul. rewrite ofZ_fz. reflexivity. Qed.
Lemma gmul_0 : forall x, gmul x 0 = 0%F.
Proof. intro x. unfold gmul. change (ofZ 0) with (0%F). ring. Qed.
Lemma gt_eqb_true : forall x y : F, gt_eqb x y = true <-> x = y.
Proof.
  intros x y. unfold gt_eqb. rewrite Z.eqb_eq. split; [apply F_eq|intros ->; reflexivity].
Qed.
Lemma gt_eqb_refl : forall x y : F, x = y -> gt_eqb x y = true.
Proof. intros x y E. apply gt_eqb_true, E. Qed.
Lemma P_lt_254 : (P < 2 ^ 254)%Z. Proof. vm_compute. reflexivity. Qed.
Lemma fz_lt_254 : forall a, (fz a < 2 ^ 254)%Z.
Proof. intro a. pose proof (fz_range a). pose proof P_lt_254. lia. Qed.
Lemma fz_lt_512 : forall a, (fz a < 2 ^ 512)%Z.
Proof.
  intro a. pose proof (fz_lt_254 a). pose proof (Z.pow_lt_mono_r 2 254 512). lia.
Qed.

(** ** [mpz_sizeinbase] *)
Lemma size_bound : forall n, (0 <= n)%Z -> (n < 2 ^ Z.of_nat (sizeinbase2 n))%Z.
Proof.
  intros n H. unfold sizeinbase2. destruct (Z.eqb_spec n 0) as [->|N]; [reflexivity|].
  rewrite Z.abs_eq by exact H. pose proof (Z.log2_nonneg n).
  rewrite Nat2Z.inj_succ, Z2Nat.id by lia. apply Z.log2_spec. lia.
Qed.
Lemma size_le : forall n k, (0 <= n < 2 ^ Z.of_nat k)%Z -> 1 <= k -> sizeinbase2 n <= k.
Proof.
  intros n k H K. unfold sizeinbase2. destruct (Z.eqb_spec n 0) as [->|N]; [exact K|].
  rewrite Z.abs_eq by lia. pose proof (Z.log2_nonneg n).
  assert (Z.log2 n < Z.of_nat k)%Z by (apply Z.log2_lt_pow2; lia). lia.
Qed.

(** ** Doubling tables *)
Lemma two_pow_S : forall i, (2 ^ Z.of_nat (S i) = 2 * 2 ^ Z.of_nat i)%Z.
Proof. intro i. rewrite Nat2Z.inj_succ, Z.pow_succ_r by lia. reflexivity. Qed.
Lemma precompute_arr : forall g, arr (precompute g) 512 (fun i => (g * ofZ (2 ^ Z.of_nat i))%F).
Proof.
  intro g. unfold precompute. generalize 512. intro n.
  assert (L : forall n x, length (doublings n x) = n) by (induction n0; intro x; simpl; auto).
  split; [rewrite L; lia|]. clear L. revert g.
  induction n; intros x i Hi; [lia|]. destruct i as [|i]; cbn [doublings nth_error].
  - f_equal. change (Z.of_nat 0) with 0%Z. change (2 ^ 0)%Z with 1%Z. change (ofZ 1) with 1%F. ring.
  - rewrite IHn by lia. f_equal. rewrite two_pow_S, ofZ_mul. change (ofZ 2) with (1 + 1)%F. ring.
Qed.
Lemma mod_pow_S : forall n i, (0 <= n)%Z ->
  (n mod 2 ^ Z.of_nat (S i) = n mod 2 ^ Z.of_nat i + (if Z.testbit n (Z.of_nat i) then 2 ^ Z.of_nat i else 0))%Z.
Proof.
  intros n i H. rewrite two_pow_S, (Z.mul_comm 2).
  assert (0 < 2 ^ Z.of_nat i)%Z by (apply Z.pow_pos_nonneg; lia).
  rewrite Z.rem_mul_r by lia. rewrite Z.testbit_eqb by lia.
  pose proof (Z.mod_pos_bound (n / 2 ^ Z.of_nat i) 2).
  destruct (Z.eqb_spec ((n / 2 ^ Z.of_nat i) mod 2) 1) as [E|E].
  - rewrite E. ring.
  - replace ((n / 2 ^ Z.of_nat i) mod 2)%Z with 0%Z by lia. ring.
Qed.

Theorem pre_exp_ok : forall g n, (0 <= n < 2 ^ 512)%Z -> pre_exp (precompute g) n = Ok (g * ofZ n)%F.
Proof.
  intros g n Hn. apply returns_eq_ok. unfold pre_exp. pose proof (precompute_arr g) as A.
  eapply rb_arr; [exact A|lia|].
  assert (S5 : sizeinbase2 n <= 512) by (apply size_le; [exact Hn|lia]).
  eapply returns_conseq.
  - apply (returns_for _ _ _ _ (fun i t => t = (g * ofZ (n mod 2 ^ Z.of_nat i))%F)).
    + rewrite gmul_0. change (2 ^ Z.of_nat 0)%Z with 1%Z. rewrite Z.mod_1_r. change (ofZ 0) with 0%F. ring.
    + intros i t Hi ->. rewrite mod_pow_S by lia. destruct (Z.testbit n (Z.of_nat i)).
      * eapply rb_arr; [exact A|lia|]. apply returns_ok. rewrite ofZ_add. ring.
      * apply returns_ok. rewrite Z.add_0_r. reflexivity.
  - intros t ->. rewrite Z.mod_small; [reflexivity|]. split; [lia|]. apply size_bound. lia.
Qed.
Lemma pre_exp_fz : forall g a, pre_exp (precompute g) (fz a) = Ok (g * a)%F.
Proof.
  intros g a. rewrite pre_exp_ok; [rewrite ofZ_fz; reflexivity|]. split; [apply fz_pos|apply fz_lt_512].
Qed.

(** A scalar of more than 512 bits reads past the table. *)
Lemma pre_exp_big : forall g n, (2 ^ 512 <= n)%Z -> pre_exp (precompute g) n = UB.
Proof.
  intros g n Hn.
  assert (G : forall pre m start s, (exists k, start <= k < start + m /\ length pre <= k /\ Z.testbit n (Z.of_nat k) = true) ->
    for_ m start (fun i temp => if Z.testbit n (Z.of_nat i) then x <- rd pre i ;; Ok (temp + x)%F else Ok temp) s = UB).
  { intros pre. induction m; intros start s (k & Hk & Lk & Tk); [lia|]. cbn [for_].
    destruct (Nat.eq_dec k start) as [->|N].
    - rewrite Tk. unfold rd. rewrite (proj2 (nth_error_None pre start)) by lia. reflexivity.
    - destruct (Z.testbit n (Z.of_nat start)).
      + unfold rd at 1. destruct (nth_error pre start); [|reflexivity]. cbn [bind]. apply IHm. exists k. repeat split; [lia|lia|exact Lk|exact Tk].
      + cbn [bind]. apply IHm. exists k. repeat split; [lia|lia|exact Lk|exact Tk]. }
  unfold pre_exp. assert (L : length (precompute g) = 512).
  { unfold precompute. generalize 512 as m. intro m. revert g. induction m; intro g0; [reflexivity|]. simpl. rewrite IHm. reflexivity. }
  unfold rd at 1. destruct (nth_error (precompute g) 0) eqn:E; [|reflexivity]. cbn [bind]. apply G.
  assert (P0 : (0 < n)%Z) by (eapply Z.lt_le_trans; [|exact Hn]; reflexivity).
  assert (LG : (512 <= Z.log2 n)%Z) by (apply Z.log2_le_pow2; assumption).
  exists (Z.to_nat (Z.log2 n)). unfold sizeinbase2. destruct (Z.eqb_spec n 0) as [Z0|Z0]; [lia|].
  rewrite (Z.abs_eq n) by lia. split; [lia|]. split; [rewrite L; lia|].
  rewrite Z2Nat.id by lia. apply Z.bit_log2, P0.
Qed.

(** ** Tables in base [2^15] *)
Lemma baby_row_arr : forall g gp, arr (baby_row g gp) (2 ^ 15) (fun j => (gp * ofZ (Z.of_nat j))%F).
Proof.
  intros g gp. unfold baby_row. rewrite gmul_0. generalize (2 ^ 15). intro n.
  assert (L : forall n x, length (multiples gp n x) = n) by (induction n0; intro x; simpl; auto).
  split; [rewrite L; lia|]. clear L.
  assert (K : forall n x i, i < n -> nth_error (multiples gp n x) i = Some (x + gp * ofZ (Z.of_nat i))%F).
  { clear. induction n; intros x i Hi; [lia|]. destruct i as [|i]; cbn [multiples nth_error].
    - f_equal. change (ofZ (Z.of_nat 0)) with 0%F. ring.
    - rewrite IHn by lia. f_equal. rewrite Nat2Z.inj_succ. unfold Z.succ. rewrite ofZ_add.
      change (ofZ 1) with 1%F. ring. }
  intros i Hi. rewrite K by exact Hi. f_equal. ring.
Qed.
Definition base15 : Z := (2 ^ 15)%Z.
Lemma base15_nat : Z.of_nat (2 ^ 15) = base15.
Proof. rewrite Nat2Z.inj_pow. reflexivity. Qed.
Lemma baby_steps_rows : forall g i, i < 18 ->
  exists row, nth_error (baby_steps g) i = Some row /\
    arr row (2 ^ 15) (fun j => (g * ofZ (base15 ^ Z.of_nat i) * ofZ (Z.of_nat j))%F).
Proof.
  assert (K : forall g n gp i, i < n -> exists row, nth_error (baby_rows g n gp) i = Some row /\
    arr row (2 ^ 15) (fun j => (gp * ofZ (base15 ^ Z.of_nat i) * ofZ (Z.of_nat j))%F)).
  { intro g. induction n; intros gp i Hi; [lia|]. destruct i as [|i]; cbn [baby_rows nth_error].
    - exists (baby_row g gp). split; [reflexivity|]. eapply arr_ext; [apply baby_row_arr|].
      intros j Hj. cbv beta. change (base15 ^ Z.of_nat 0)%Z with 1%Z. change (ofZ 1) with 1%F. ring.
    - destruct (IHn (gmul gp (2 ^ 15)) i) as (row & E & A); [lia|]. exists row. split; [exact E|].
      eapply arr_ext; [exact A|]. intros j Hj. cbv beta. rewrite Nat2Z.inj_succ, Z.pow_succ_r by lia.
      unfold gmul. rewrite ofZ_mul. unfold base15. ring. }
  intros g i Hi. unfold baby_steps. apply K. exact Hi.
Qed.

Theorem g1_exp_ok : forall a, (0 <= a < 2 ^ 269)%Z -> g1_exp (baby_steps gen1) a = Ok (ofZ a).
Proof.
  intros a Ha. apply returns_eq_ok. unfold g1_exp.
  assert (S5 : sizeinbase2 a <= 269) by (apply size_le; [exact Ha|lia]).
  assert (N18 : sizeinbase2 a / 15 + 1 <= 18).
  { assert (sizeinbase2 a / 15 <= 269 / 15) by (apply Nat.div_le_mono; lia).
    change (269 / 15) with 17 in H. lia. }
  assert (B : (0 < base15)%Z) by reflexivity.
  eapply returns_conseq.
  - apply (returns_for _ _ _ _ (fun i t => t = ofZ (a mod base15 ^ Z.of_nat i))).
    + rewrite gmul_0. change (base15 ^ Z.of_nat 0)%Z with 1%Z. rewrite Z.mod_1_r. reflexivity.
    + intros i t Hi ->. destruct (baby_steps_rows gen1 i) as (row & E & A); [lia|].
      eapply returns_bind; [eapply (returns_rd _ _ _ _ (eq row)); [exact E|reflexivity]|]. intros r' <-.
      set (q := (a / base15 ^ Z.of_nat i)%Z).
      assert (Bi : (0 < base15 ^ Z.of_nat i)%Z) by (apply Z.pow_pos_nonneg; lia).
      assert (EM : Z.land (Z.shiftr a (Z.of_nat i * 15)) (2 ^ 15 - 1) = (q mod base15)%Z).
      { change (2 ^ 15 - 1)%Z with (Z.ones 15). rewrite Z.land_ones by lia.
        rewrite Z.shiftr_div_pow2 by lia. unfold q, base15.
        rewrite <- Z.pow_mul_r by lia. rewrite (Z.mul_comm 15). reflexivity. }
      rewrite EM. assert (M : (0 <= q mod base15 < base15)%Z) by (apply Z.mod_pos_bound; lia).
      eapply returns_bind; [eapply (returns_idx _ (eq (Z.to_nat (q mod base15)))); [lia|reflexivity]|].
      intros m <-. eapply rb_arr; [exact A| |].
      * apply Nat2Z.inj_lt. rewrite base15_nat, Z2Nat.id by lia. lia.
      * apply returns_ok. rewrite Z2Nat.id by lia. rewrite Nat2Z.inj_succ, Z.pow_succ_r by lia.
        rewrite (Z.mul_comm base15), Z.rem_mul_r by lia. fold q. rewrite ofZ_add, ofZ_mul.
        change gen1 with 1%F. ring.
  - intros t ->. rewrite Z.mod_small; [reflexivity|]. split; [lia|].
    pose proof (size_bound a (proj1 Ha)) as SB. eapply Z.lt_le_trans; [exact SB|].
    unfold base15. rewrite <- Z.pow_mul_r by lia. apply Z.pow_le_mono_r; [lia|].
    pose proof (Nat.div_mod (sizeinbase2 a) 15). pose proof (Nat.mod_upper_bound (sizeinbase2 a) 15). lia.
Qed.

(** ** The eight-way multi-exponentiation *)
Definition bit (x : Z) (j : nat) : bool := Z.testbit x (Z.of_nat j).
(** The number with bits [f 0 .. f (k-1)]. *)
Fixpoint bits_val (f : nat -> bool) (k : nat) : nat :=
  match k with O => 0 | S k' => bits_val f k' + Nat.b2n (f k') * 2 ^ k' end.
Lemma bits_val_lt : forall f k, bits_val f k < 2 ^ k.
Proof.
  induction k; simpl bits_val; [simpl; lia|]. rewrite Nat.pow_succ_r'. destruct (f k); simpl Nat.b2n; lia.
Qed.
Lemma bits_val_testbit : forall f k i, i < k -> Nat.testbit (bits_val f k) i = f i.
Proof.
  induction k; intros i Hi; [lia|]. simpl bits_val. pose proof (bits_val_lt f k) as L.
  destruct (Nat.eq_dec i k) as [->|N].
  - destruct (f k) eqn:E; cbn [Nat.b2n].
    + rewrite Nat.mul_1_l, <- lor_pow2 by exact L. rewrite Nat.lor_spec, Nat.pow2_bits_true.
      apply orb_true_r.
    + rewrite Nat.add_0_r. destruct (bits_val f k) as [|c] eqn:C; [apply Nat.bits_0|].
      apply Nat.bits_above_log2. apply Nat.log2_lt_pow2; lia.
  - destruct (f k) eqn:E; cbn [Nat.b2n].
    + rewrite Nat.mul_1_l, <- lor_pow2 by exact L. rewrite Nat.lor_spec, Nat.pow2_bits_false by congruence.
      rewrite orb_false_r. apply IHk. lia.
    + rewrite Nat.add_0_r. apply IHk. lia.
Qed.
Lemma lor_b2n : forall c b k, c < 2 ^ k -> Nat.lor c (Nat.shiftl (Nat.b2n b) k) = c + Nat.b2n b * 2 ^ k.
Proof.
  intros c b k H. rewrite Nat.shiftl_mul_pow2. destruct b; cbn [Nat.b2n].
  - rewrite Nat.mul_1_l. apply lor_pow2, H.
  - rewrite Nat.mul_0_l, Nat.lor_0_r. lia.
Qed.

(** Sum of the subset [c] of [base]. *)
Definition subset (base : nat -> F) (c : nat) : F := sumn 8 (fun k => ind (Nat.testbit c k) * base k)%F.
Lemma land1_testbit : forall j k, (Nat.land (Nat.shiftr j k) 1 =? 1) = Nat.testbit j k.
Proof.
  intros j k. rewrite Nat.testbit_eqb, Nat.shiftr_div_pow2.
  pose proof (Nat.land_ones (j / 2 ^ k) 1) as H. change (Nat.ones 1) with 1 in H.
  change (2 ^ 1) with 2 in H. rewrite H. reflexivity.
Qed.
Lemma I_subset_sums_ok : forall scalars base, arr scalars 8 base ->
  returns (I_subset_sums scalars) (fun value => length value = 253 /\ arr value 253 (fun j => subset base (j + 3))).
Proof.
  intros scalars base A. unfold I_subset_sums. change (2 ^ multi_scalar_w - 3) with 253.
  eapply returns_conseq.
  - apply (returns_for _ _ _ _ (fun j value => length value = j - 3 /\ arr value (j - 3) (fun j => subset base (j + 3)))).
    + split; [reflexivity|]. split; [simpl; lia|]. intros i Hi. lia.
    + intros j value Hj [L V]. eapply rb_eq.
      * eapply returns_conseq.
        -- apply (returns_for _ _ _ _ (fun k v => v = sumn k (fun k => ind (Nat.testbit j k) * base k)%F)).
           ++ apply gmul_0.
           ++ intros k v Hk ->. rewrite land1_testbit. cbn [sumn]. destruct (Nat.testbit j k).
              ** eapply rb_arr; [exact A|unfold multi_scalar_w in Hk; lia|]. apply returns_ok. unfold ind. ring.
              ** apply returns_ok. unfold ind. ring.
        -- intros v ->. reflexivity.
      * apply returns_ok. split; [rewrite app_length; simpl; lia|].
        replace (S j - 3) with (S (j - 3)) by lia. eapply arr_ext; [apply arr_app1; [exact V|exact L]|].
        intros i Hi. simpl. destruct (Nat.eqb_spec i (j - 3)) as [->|N]; [|reflexivity].
        unfold subset. replace (j - 3 + 3) with j by lia. reflexivity.
  - intros v [L V]. split; assumption.
Qed.

(** The base elements of block [i]: entries of [pub] below [full], then zero. *)
Definition block_base (full : nat) (pub : nat -> F) (i k : nat) : F :=
  if full <=? i * 8 + k then 0%F else pub (i * 8 + k).
Definition multi_ok (full : nat) (pub : nat -> F) (T : list (list F)) : Prop :=
  length T = full / 8 + 1 /\
  forall i, i < full / 8 + 1 -> exists v, nth_error T i = Some v /\
    arr v 253 (fun j => subset (block_base full pub i) (j + 3)).
Lemma I_multi_table_ok : forall full l pub, arr l full pub ->
  returns (I_multi_table full l) (multi_ok full pub).
Proof.
  intros full l pub A. unfold I_multi_table, multi_scalar_w at 1.
  eapply returns_conseq.
  - apply (returns_for _ _ _ _ (fun n T => length T = n /\ forall i, i < n -> exists v, nth_error T i = Some v /\
      arr v 253 (fun j => subset (block_base full pub i) (j + 3)))).
    + split; [reflexivity|]. intros i Hi. lia.
    + intros i T Hi [L V]. eapply returns_bind.
      * apply (returns_for _ _ _ _ (fun k sc => length sc = k /\ arr sc k (block_base full pub i))).
        -- split; [reflexivity|]. split; [simpl; lia|]. intros; lia.
        -- intros k sc Hk [Ls As]. unfold multi_scalar_w in *. destruct (Nat.leb_spec full (i * 8 + k)) as [C|C].
           ++ apply returns_ok. split; [rewrite app_length; simpl; lia|].
              eapply arr_ext; [apply arr_app1; [exact As|exact Ls]|]. intros m Hm. simpl.
              destruct (Nat.eqb_spec m k) as [->|]; [|reflexivity]. unfold block_base.
              destruct (Nat.leb_spec full (i * 8 + k)); [|lia]. apply gmul_0.
           ++ eapply rb_arr; [exact A|exact C|]. apply returns_ok. split; [rewrite app_length; simpl; lia|].
              eapply arr_ext; [apply arr_app1; [exact As|exact Ls]|]. intros m Hm. simpl.
              destruct (Nat.eqb_spec m k) as [->|]; [|reflexivity]. unfold block_base.
              destruct (Nat.leb_spec full (i * 8 + k)); [lia|]. reflexivity.
      * intros sc [Ls As]. eapply returns_bind; [apply I_subset_sums_ok, As|]. intros v [Lv Av].
        apply returns_ok. split; [rewrite app_length; simpl; lia|]. intros m Hm.
        destruct (Nat.eq_dec m i) as [->|N].
        -- exists v. split; [|exact Av]. rewrite nth_error_app2 by lia. rewrite L, Nat.sub_diag. reflexivity.
        -- destruct (V m) as (v' & E & A'); [lia|]. exists v'. split; [|exact A'].
           rewrite nth_error_app1 by lia. exact E.
  - intros T [L V]. split; assumption.
Qed.

Lemma div2_pow_step : forall x j, (0 <= x)%Z ->
  (x / 2 ^ Z.of_nat j = 2 * (x / 2 ^ Z.of_nat (S j)) + (if bit x j then 1 else 0))%Z.
Proof.
  intros x j H. unfold bit. assert (0 < 2 ^ Z.of_nat j)%Z by (apply Z.pow_pos_nonneg; lia).
  rewrite two_pow_S, (Z.mul_comm 2 (2 ^ Z.of_nat j)), <- Z.div_div by lia. rewrite Z.testbit_eqb by lia.
  generalize (x / 2 ^ Z.of_nat j)%Z as q. intro q.
  assert (D : q = (2 * (q / 2) + q mod 2)%Z) by (apply Z.div_mod; lia).
  pose proof (Z.mod_pos_bound q 2 ltac:(lia)).
  destruct (Z.eqb_spec (q mod 2) 1); lia.
Qed.

Lemma subset_0 : forall base, subset base 0 = 0%F.
Proof. intro base. apply sumn_zero'. intros i Hi. rewrite Nat.bits_0. unfold ind. ring. Qed.
Lemma subset_1 : forall base, subset base 1 = base 0.
Proof. intro base. unfold subset. cbv [sumn ind Nat.testbit Nat.odd Nat.even Nat.div2 negb]. ring. Qed.
Lemma subset_2 : forall base, subset base 2 = base 1.
Proof. intro base. unfold subset. cbv [sumn ind Nat.testbit Nat.odd Nat.even Nat.div2 negb]. ring. Qed.

Lemma multi_scalar_calc_ok : forall K full pub i len sp x,
  arr (ki_pub_g1 K) full pub -> multi_ok full pub (ki_multi K) -> i < full / 8 + 1 -> len <= full ->
  arr sp 8 x -> (forall k, k < 8 -> (0 <= x k)%Z) -> (forall k, k < 8 -> len <= i * 8 + k -> x k = 0%Z) ->
  multi_scalar_calc K i len sp = Ok (sumn 8 (fun k => block_base full pub i k * ofZ (x k))%F).
Proof.
  intros K full pub i len sp x A [LT VT] Hi Hlen Asp Pos Tail. apply returns_eq_ok.
  unfold multi_scalar_calc, multi_scalar_w.
  apply (returns_bind _ _ _ _ (fun m => forall k, k < 8 -> sizeinbase2 (x k) <= m)).
  { eapply returns_conseq; [apply (returns_for _ _ _ _ (fun j m => forall k, k < j -> sizeinbase2 (x k) <= m))|intros m H; exact H].
    - intros k Hk. lia.
    - intros j m Hj IH. eapply rb_arr; [exact Asp|lia|]. apply returns_ok. intros k Hk.
      destruct (Nat.eq_dec k j) as [->|N]; [lia|]. specialize (IH k). lia. }
  intros ml ML.
  eapply returns_conseq.
  - apply (returns_for _ _ _ _ (fun jj ret =>
      ret = sumn 8 (fun k => block_base full pub i k * ofZ (x k / 2 ^ Z.of_nat (ml - jj)))%F)).
    + rewrite gmul_0. symmetry. apply sumn_zero'. intros k Hk. rewrite Nat.sub_0_r.
      rewrite Z.div_small; [change (ofZ 0) with 0%F; ring|]. split; [apply Pos, Hk|].
      eapply Z.lt_le_trans; [apply size_bound, Pos, Hk|]. apply Z.pow_le_mono_r; [lia|]. specialize (ML k Hk). lia.
    + intros jj ret Hjj ->. set (j := ml - 1 - jj).
      replace (ml - jj) with (S j) by lia. replace (ml - S jj) with j by lia.
      set (c := bits_val (fun k => bit (x k) j) 8).
      eapply (rb_eq _ _ _ c).
      { eapply returns_conseq.
        - apply (returns_for _ _ _ _ (fun k c => c = bits_val (fun k => bit (x k) j) k)).
          + reflexivity.
          + intros k c' Hk ->. eapply rb_arr; [exact Asp|lia|]. apply returns_ok.
            apply lor_b2n, bits_val_lt.
        - intros c' ->. reflexivity. }
      set (r2 := gmul _ 2).
      assert (R : (r2 + subset (block_base full pub i) c)%F
        = sumn 8 (fun k => block_base full pub i k * ofZ (x k / 2 ^ Z.of_nat j))%F).
      { unfold r2, gmul, subset. change (ofZ 2) with (1 + 1)%F.
        rewrite <- sumn_scal_r, <- sumn_add. apply sumn_ext. intros k Hk.
        unfold c. rewrite bits_val_testbit by exact Hk. rewrite (div2_pow_step (x k) j) by (apply Pos, Hk).
        rewrite ofZ_add, ofZ_mul. change (ofZ 2) with (1 + 1)%F.
        destruct (bit (x k) j); unfold ind; [change (ofZ 1) with 1%F|change (ofZ 0) with 0%F]; ring. }
      assert (BitLen : forall k, k < 8 -> Nat.testbit c k = true -> i * 8 + k < len).
      { intros k Hk T. destruct (Nat.lt_ge_cases (i * 8 + k) len) as [|G]; [assumption|].
        unfold c in T. rewrite bits_val_testbit in T by exact Hk. unfold bit in T.
        rewrite (Tail k Hk G), Z.bits_0 in T. discriminate. }
      assert (CL : c < 256) by (apply (bits_val_lt _ 8)).
      destruct (Nat.le_gt_cases 3 c) as [C3|C3].
      * destruct c as [|[|[|c']]] eqn:EC; [lia..|]. destruct (VT i Hi) as (v & Ev & Av).
        eapply returns_bind; [eapply (returns_rd _ _ _ _ (eq v)); [exact Ev|reflexivity]|]. intros v' <-.
        eapply rb_arr; [exact Av|lia|]. apply returns_ok. rewrite <- R. do 2 f_equal. lia.
      * destruct c as [|[|[|c']]] eqn:EC; [| | |lia].
        -- apply returns_ok. rewrite <- R, subset_0. ring.
        -- assert (B : i * 8 + 0 < len) by (apply BitLen; [lia|reflexivity]).
           rewrite Nat.add_0_r in B. destruct (Nat.ltb_spec (i * 8) len); [|lia].
           eapply rb_arr; [exact A|lia|]. apply returns_ok. rewrite <- R, subset_1. f_equal.
           unfold block_base. rewrite Nat.add_0_r. destruct (Nat.leb_spec full (i * 8)); [lia|]. reflexivity.
        -- assert (B : i * 8 + 1 < len) by (apply BitLen; [lia|reflexivity]).
           destruct (Nat.ltb_spec (i * 8 + 1) len); [|lia].
           eapply rb_arr; [exact A|lia|]. apply returns_ok. rewrite <- R, subset_2. f_equal.
           unfold block_base. destruct (Nat.leb_spec full (i * 8 + 1)); [lia|]. reflexivity.
  - intros ret ->. apply sumn_ext. intros k Hk. rewrite Nat.sub_diag.
    change (2 ^ Z.of_nat 0)%Z with 1%Z. rewrite Z.div_1_r. reflexivity.
Qed.
