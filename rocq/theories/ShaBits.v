(** * Words as lists of bits, least significant first *)
From Coq Require Import ZArith List Bool Arith Lia.
From Verif Require Import SpecSha.
Import ListNotations.
Open Scope Z_scope.

Fixpoint znum (l : list bool) : Z := match l with [] => 0 | b :: r => Z.b2z b + 2 * znum r end.
Lemma znum_range : forall l, 0 <= znum l < 2 ^ Z.of_nat (length l).
Proof.
  induction l as [|b l IH]; [cbn; lia|]. cbn [znum length]. rewrite Nat2Z.inj_succ, Z.pow_succ_r by lia. destruct b; cbn [Z.b2z]; lia.
Qed.
Lemma znum_testbit : forall l i, Z.testbit (znum l) (Z.of_nat i) = nth i l false.
Proof.
  induction l as [|b l IH]; intros i; cbn [znum].
  - rewrite Z.bits_0. destruct i; reflexivity.
  - rewrite Z.add_comm. destruct i as [|i]; cbn [nth]; [apply Z.testbit_0_r|]. rewrite Nat2Z.inj_succ, Z.testbit_succ_r by lia. apply IH.
Qed.
Lemma znum_bits : forall l x, (forall i, Z.testbit x (Z.of_nat i) = nth i l false) -> znum l = x.
Proof.
  intros l x H. apply Z.bits_inj'. intros n Hn. rewrite <- (Z2Nat.id n Hn), znum_testbit, H. reflexivity.
Qed.
Definition map2 (f : bool -> bool -> bool) (x y : list bool) : list bool := map (fun '(a, b) => f a b) (combine x y).
Lemma map2_length : forall f x y, length x = length y -> length (map2 f x y) = length x.
Proof. intros f x y H. unfold map2. rewrite map_length, combine_length. lia. Qed.
Lemma map2_nth : forall f x y i, length x = length y -> f false false = false -> nth i (map2 f x y) false = f (nth i x false) (nth i y false).
Proof.
  intros f. induction x as [|a x IH]; intros [|b y] i H F; try discriminate H; destruct i as [|i]; cbn; try (symmetry; exact F); try reflexivity. apply (IH y i); [injection H as H; exact H|exact F].
Qed.
Lemma znum_xor : forall x y, length x = length y -> znum (map2 xorb x y) = Z.lxor (znum x) (znum y).
Proof. intros x y H. apply znum_bits. intros i. rewrite Z.lxor_spec, !znum_testbit, map2_nth; [reflexivity|exact H|reflexivity]. Qed.
Lemma znum_and : forall x y, length x = length y -> znum (map2 andb x y) = Z.land (znum x) (znum y).
Proof. intros x y H. apply znum_bits. intros i. rewrite Z.land_spec, !znum_testbit, map2_nth; [reflexivity|exact H|reflexivity]. Qed.
Definition naab (x y : bool) : bool := andb (negb x) y.
Lemma znum_naab : forall x y, length x = 32%nat -> length y = 32%nat -> znum (map2 naab x y) = Z.land (Z.lnot (znum x) mod 2 ^ 32) (znum y).
Proof.
  intros x y Hx Hy. apply znum_bits. intros i. rewrite Z.land_spec, map2_nth by (congruence || reflexivity). destruct (Nat.lt_ge_cases i 32) as [Hi|Hi].
  - rewrite Z.mod_pow2_bits_low by lia. rewrite Z.lnot_spec by lia. rewrite !znum_testbit. reflexivity.
  - rewrite Z.mod_pow2_bits_high by lia. rewrite (nth_overflow y) by lia. rewrite andb_false_l. unfold naab. rewrite andb_false_r. reflexivity.
Qed.
Definition rotb (n : nat) (x : list bool) : list bool := skipn n x ++ firstn n x.
Definition shfb (n : nat) (x : list bool) : list bool := skipn n x ++ repeat false n.
Lemma rotb_length : forall n x, length (rotb n x) = length x.
Proof. intros n x. unfold rotb. rewrite app_length, Nat.add_comm, <- app_length, firstn_skipn. reflexivity. Qed.
Lemma shfb_length : forall n x, (n <= length x)%nat -> length (shfb n x) = length x.
Proof. intros n x H. unfold shfb. rewrite app_length, skipn_length, repeat_length. lia. Qed.
Lemma nth_skipn : forall A n (l : list A) i d, nth i (skipn n l) d = nth (n + i) l d.
Proof. intros A. induction n as [|n IH]; intros l i d; [reflexivity|]. destruct l as [|x l]; cbn [skipn Nat.add nth]; [destruct i; reflexivity|apply IH]. Qed.
Lemma nth_firstn : forall A n (l : list A) i d, (i < n)%nat -> nth i (firstn n l) d = nth i l d.
Proof. intros A. induction n as [|n IH]; intros l i d H; [lia|]. destruct l as [|x l]; cbn [firstn]; [reflexivity|]. destruct i as [|i]; [reflexivity|]. cbn [nth]. apply IH. lia. Qed.
Lemma znum_rot : forall n x, (0 < n < 32)%nat -> length x = 32%nat -> znum (rotb n x) = ROTR (Z.of_nat n) (znum x).
Proof.
  intros n x Hn Hx. apply znum_bits. intros i. unfold ROTR, rotb. rewrite Z.lor_spec, Z.shiftr_spec by lia.
  destruct (Nat.lt_ge_cases i 32) as [Hi|Hi].
  - rewrite Z.mod_pow2_bits_low by lia. rewrite Z.shiftl_spec by lia. replace (Z.of_nat i + Z.of_nat n) with (Z.of_nat (i + n)) by lia. rewrite znum_testbit.
    destruct (Nat.lt_ge_cases i (32 - n)) as [Hj|Hj].
    + rewrite app_nth1 by (rewrite skipn_length; lia). rewrite nth_skipn. rewrite (Z.testbit_neg_r _ (Z.of_nat i - _)) by lia. rewrite orb_false_r. f_equal. lia.
    + rewrite app_nth2 by (rewrite skipn_length; lia). rewrite skipn_length, Hx. rewrite (nth_overflow x) by lia. rewrite orb_false_l.
      replace (Z.of_nat i - (32 - Z.of_nat n)) with (Z.of_nat (i - (32 - n))) by lia. rewrite znum_testbit, nth_firstn by lia. reflexivity.
  - rewrite Z.mod_pow2_bits_high by lia. rewrite orb_false_r. replace (Z.of_nat i + Z.of_nat n) with (Z.of_nat (i + n)) by lia. rewrite znum_testbit.
    rewrite (nth_overflow x) by lia. symmetry. apply nth_overflow. pose proof (rotb_length n x) as Q. unfold rotb in Q. rewrite Q. lia.
Qed.
Lemma znum_shf : forall n x, (n <= 32)%nat -> length x = 32%nat -> znum (shfb n x) = SHR (Z.of_nat n) (znum x).
Proof.
  intros n x Hn Hx. apply znum_bits. intros i. unfold SHR, shfb. rewrite Z.shiftr_spec by lia. replace (Z.of_nat i + Z.of_nat n) with (Z.of_nat (n + i)) by lia. rewrite znum_testbit.
  destruct (Nat.lt_ge_cases i (32 - n)) as [Hj|Hj].
  - rewrite app_nth1 by (rewrite skipn_length; lia). rewrite nth_skipn. reflexivity.
  - rewrite app_nth2 by (rewrite skipn_length; lia). rewrite (nth_overflow x) by lia. rewrite nth_repeat. reflexivity.
Qed.
Lemma znum_low : forall n l, (n <= length l)%nat -> znum (firstn n l) = znum l mod 2 ^ Z.of_nat n.
Proof.
  intros n l H. apply znum_bits. intros i. destruct (Nat.lt_ge_cases i n) as [Hi|Hi].
  - rewrite Z.mod_pow2_bits_low by lia. rewrite znum_testbit, nth_firstn by exact Hi. reflexivity.
  - rewrite Z.mod_pow2_bits_high by lia. symmetry. apply nth_overflow. rewrite firstn_length. lia.
Qed.
(** The [n] low bits of a number *)
Definition zbits (n : nat) (x : Z) : list bool := map (fun i => Z.testbit x (Z.of_nat i)) (seq 0 n).
Lemma zbits_length : forall n x, length (zbits n x) = n.
Proof. intros n x. unfold zbits. rewrite map_length. apply seq_length. Qed.
Lemma zbits_num : forall n x, 0 <= x < 2 ^ Z.of_nat n -> znum (zbits n x) = x.
Proof.
  intros n x H. apply znum_bits. intros i. destruct (Nat.lt_ge_cases i n) as [Hi|Hi].
  - rewrite (nth_indep _ false ((fun i => Z.testbit x (Z.of_nat i)) O)) by (rewrite zbits_length; exact Hi). unfold zbits. rewrite (map_nth (fun i => Z.testbit x (Z.of_nat i))), seq_nth by exact Hi. reflexivity.
  - rewrite nth_overflow by (rewrite zbits_length; exact Hi). destruct (Z.eq_dec x 0) as [->|N]; [apply Z.bits_0|]. apply Z.bits_above_log2; [lia|].
    apply Z.log2_lt_pow2; [lia|]. eapply Z.lt_le_trans; [apply H|]. apply Z.pow_le_mono_r; lia.
Qed.

(** ** Words *)
Lemma word_num : forall l, length l = 32%nat -> word (znum l).
Proof. intros l H. pose proof (znum_range l) as Q. rewrite H in Q. exact Q. Qed.
Lemma word_bits : forall x, word x -> exists l, length l = 32%nat /\ znum l = x.
Proof. intros x H. exists (zbits 32 x). split; [apply zbits_length|apply zbits_num, H]. Qed.
Lemma mod_word : forall x, word (x mod 2 ^ 32).
Proof. intros x. apply Z.mod_pos_bound. reflexivity. Qed.
Definition xor3 (x y z : list bool) : list bool := map2 xorb (map2 xorb x y) z.
Lemma xor3_length : forall x y z n, length x = n -> length y = n -> length z = n -> length (xor3 x y z) = n.
Proof. intros x y z n Hx Hy Hz. unfold xor3. rewrite map2_length; rewrite map2_length; congruence. Qed.
Lemma xor3_num : forall x y z n, length x = n -> length y = n -> length z = n -> znum (xor3 x y z) = Z.lxor (Z.lxor (znum x) (znum y)) (znum z).
Proof. intros x y z n Hx Hy Hz. unfold xor3. rewrite znum_xor by (rewrite map2_length; congruence). rewrite znum_xor by congruence. reflexivity. Qed.
Lemma num_Sigma0 : forall x, length x = 32%nat -> znum (xor3 (rotb 2 x) (rotb 13 x) (rotb 22 x)) = Sigma0 (znum x).
Proof. intros x H. rewrite (xor3_num _ _ _ 32) by (rewrite rotb_length; exact H). rewrite !znum_rot by (exact H || lia). reflexivity. Qed.
Lemma num_Sigma1 : forall x, length x = 32%nat -> znum (xor3 (rotb 6 x) (rotb 11 x) (rotb 25 x)) = Sigma1 (znum x).
Proof. intros x H. rewrite (xor3_num _ _ _ 32) by (rewrite rotb_length; exact H). rewrite !znum_rot by (exact H || lia). reflexivity. Qed.
Lemma num_sigma0 : forall x, length x = 32%nat -> znum (xor3 (rotb 7 x) (rotb 18 x) (shfb 3 x)) = sigma0 (znum x).
Proof. intros x H. rewrite (xor3_num _ _ _ 32) by (rewrite ?rotb_length, ?shfb_length by lia; exact H). rewrite !znum_rot, znum_shf by (exact H || lia). reflexivity. Qed.
Lemma num_sigma1 : forall x, length x = 32%nat -> znum (xor3 (rotb 17 x) (rotb 19 x) (shfb 10 x)) = sigma1 (znum x).
Proof. intros x H. rewrite (xor3_num _ _ _ 32) by (rewrite ?rotb_length, ?shfb_length by lia; exact H). rewrite !znum_rot, znum_shf by (exact H || lia). reflexivity. Qed.
Lemma num_maj : forall x y z, length x = 32%nat -> length y = 32%nat -> length z = 32%nat ->
  znum (xor3 (map2 andb x y) (map2 andb y z) (map2 andb x z)) = Maj (znum x) (znum y) (znum z).
Proof.
  intros x y z Hx Hy Hz. rewrite (xor3_num _ _ _ 32) by (rewrite map2_length; congruence). rewrite !znum_and by congruence. unfold Maj.
  rewrite !Z.lxor_assoc. f_equal. apply Z.lxor_comm.
Qed.
Lemma num_ch : forall x y z, length x = 32%nat -> length y = 32%nat -> length z = 32%nat ->
  znum (map2 xorb (map2 andb x y) (map2 naab x z)) = Ch (znum x) (znum y) (znum z).
Proof. intros x y z Hx Hy Hz. rewrite znum_xor by (rewrite !map2_length; congruence). rewrite znum_and, znum_naab by congruence. reflexivity. Qed.
Lemma Sigma0_word : forall x, word x -> word (Sigma0 x).
Proof. intros x H. destruct (word_bits x H) as (l & Hl & <-). rewrite <- num_Sigma0 by exact Hl. apply word_num. apply xor3_length; rewrite rotb_length; exact Hl. Qed.
Lemma Sigma1_word : forall x, word x -> word (Sigma1 x).
Proof. intros x H. destruct (word_bits x H) as (l & Hl & <-). rewrite <- num_Sigma1 by exact Hl. apply word_num. apply xor3_length; rewrite rotb_length; exact Hl. Qed.
Lemma sigma0_word : forall x, word x -> word (sigma0 x).
Proof. intros x H. destruct (word_bits x H) as (l & Hl & <-). rewrite <- num_sigma0 by exact Hl. apply word_num. apply xor3_length; rewrite ?rotb_length, ?shfb_length by lia; exact Hl. Qed.
Lemma sigma1_word : forall x, word x -> word (sigma1 x).
Proof. intros x H. destruct (word_bits x H) as (l & Hl & <-). rewrite <- num_sigma1 by exact Hl. apply word_num. apply xor3_length; rewrite ?rotb_length, ?shfb_length by lia; exact Hl. Qed.
Lemma Maj_word : forall x y z, word x -> word y -> word z -> word (Maj x y z).
Proof.
  intros x y z Hx Hy Hz. destruct (word_bits x Hx) as (lx & Lx & <-). destruct (word_bits y Hy) as (ly & Ly & <-). destruct (word_bits z Hz) as (lz & Lz & <-).
  rewrite <- num_maj by assumption. apply word_num. apply xor3_length; rewrite map2_length; congruence.
Qed.
Lemma Ch_word : forall x y z, word x -> word y -> word z -> word (Ch x y z).
Proof.
  intros x y z Hx Hy Hz. destruct (word_bits x Hx) as (lx & Lx & <-). destruct (word_bits y Hy) as (ly & Ly & <-). destruct (word_bits z Hz) as (lz & Lz & <-).
  rewrite <- num_ch by assumption. apply word_num. rewrite !map2_length; rewrite ?map2_length; congruence.
Qed.
