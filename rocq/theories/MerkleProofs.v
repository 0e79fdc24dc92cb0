(** * A Merkle tree of SHA-256 blocks: soundness and completeness *)
From Coq Require Import ZArith List Bool Arith Lia.
From Verif Require Import Base Fp ArithProofs SpecLoader Program SpecCompiler SpecSha SpecMerkle ShaBits ShaGen ShaSem ShaBlock ShaMain ShaCheck ShaProgram MerkleGen MerkleShape LoaderProofs.
Import ListNotations.
Open Scope Z_scope.

(** ** Inputs of the program *)
Lemma filter_range : forall k a t, a <= t <= a + Z.of_nat k -> length (filter (fun x => x <? t) (zrange a k)) = Z.to_nat (t - a).
Proof.
  induction k as [|k IH]; intros a t Ht; cbn [zrange filter length]; [f_equal; lia|]. destruct (Z.ltb_spec a t) as [Q|Q].
  - cbn [length]. rewrite IH by lia. lia.
  - replace t with a by lia. assert (E : forall x, In x (zrange (a + 1) k) -> (x <? a) = false) by (intros x Hx; apply in_range in Hx; apply Z.ltb_ge; lia).
    rewrite Z.sub_diag. revert E. generalize (zrange (a + 1) k). intros l. induction l as [|x l IHl]; intros E; [reflexivity|]. cbn [filter]. rewrite E by (left; reflexivity). apply IHl. intros y Hy. apply E. right. exact Hy.
Qed.
Lemma sha_inputs : forall p, sha_program = Ok p -> inputs p = zrange 0 size.
Proof. intros p EP. destruct sha_shape as (p' & m & ts & i & lines & v & EP' & _ & IN & _). rewrite EP' in EP. apply Ok_inj in EP. subst p'. exact IN. Qed.
Lemma sha_input : forall p t, sha_program = Ok p -> ((exists i, In (SIn t i) p) <-> 0 <= t < 7226).
Proof.
  intros p t EP. pose proof (sha_inputs p EP) as IN. assert (Q : In t (inputs p) <-> 0 <= t < 7226) by (rewrite IN, in_range; unfold size; lia). rewrite <- Q. unfold inputs. rewrite in_flat_map. split.
  - intros (i & Hi). exists (SIn t i). split; [exact Hi|left; reflexivity].
  - intros (s & Hs & Hi). destruct s as [| |u i| |]; cbn [input_var In] in Hi; try contradiction. destruct Hi as [->|[]]. exists i. exact Hs.
Qed.
Lemma sha_rank : forall p t, sha_program = Ok p -> 0 <= t < 7226 -> rank p t = Z.to_nat t.
Proof. intros p t EP Ht. unfold rank. rewrite (sha_inputs p EP), filter_range by (unfold size; lia). f_equal. lia. Qed.

Section Tree.
Context (n : nat) (Hn : (0 < n)%nat) (p : list stmt) (w : list rstmt) (EP : sha_program = Ok p) (EW : merkle n = Ok w).
Notation T := (T n).
Notation nb := (nb n).
Notation ent := (ent n).
Notation base := (base n).
Notation hoA := (hoA n).
Notation hbA := (hbA n).
Notation leaf := (leaf n).
Notation lastb := (lastb n).
Lemma w_eq : w = merkle_file (zrange 34 (Z.to_nat (vend n - 34))) (34 + Z.of_nat (Z.to_nat (vend n - 34))) (all n).
Proof.
  pose proof (merkle_eq n Hn) as Q. rewrite EW in Q. apply Ok_inj in Q. rewrite Q. unfold inv. f_equal. pose proof (vend_eq n Hn). pose proof (T_pos n Hn). lia.
Qed.
Lemma w_routes : forall q s, routes w q s <-> 0 <= q /\ nth_error (all n) (Z.to_nat q) = Some s.
Proof. rewrite w_eq. apply file_routes. Qed.
Lemma wired_iff : forall src r val, (r <= nb)%nat -> (wired src p w r val <-> (forall s, In s p -> holds val s) /\ forall t, 0 <= t < 7226 -> val t = src (ent (Z.of_nat (bl n r)) t)).
Proof.
  intros src r val Hr. unfold wired. rewrite (sha_inputs p EP), range_length. split; intros (H1 & H2); (split; [exact H1|]).
  - intros t Ht. destruct (proj2 (sha_input p t EP) Ht) as (i & Hi). apply (H2 t i); [exact Hi|]. apply w_routes. split; [lia|]. rewrite Nat2Z.id, (sha_rank p t EP Ht). apply all_at; assumption.
  - intros t i s Ht Hs. assert (Q : 0 <= t < 7226) by (apply (sha_input p t EP); exists i; exact Ht). rewrite H2 by exact Q. f_equal. apply w_routes in Hs. destruct Hs as (_ & Hs). rewrite Nat2Z.id, (sha_rank p t EP Q) in Hs.
    pose proof (all_at n Hn r t Hr Q) as Q'. rewrite Hs in Q'. injection Q' as <-. reflexivity.
Qed.
Lemma bl_small : forall r, (r < nb)%nat -> bl n r = r.
Proof. intros r Hr. unfold bl. lia. Qed.
Ltac pick_at := repeat match goal with |- context [?x <? ?y] => first [rewrite (proj2 (Z.ltb_lt x y)) by lia | rewrite (proj2 (Z.ltb_ge x y)) by lia] end; cbv beta iota.

(** ** Soundness *)
Lemma numbers_ext : forall f g a b k, (forall j, 0 <= j < Z.of_nat k -> f (a + j) = g (b + j)) -> numbers f a k = numbers g b k.
Proof. intros f g a b k H. unfold numbers. apply map_ext_in. intros j Hj. apply in_seq in Hj. f_equal. apply H. lia. Qed.
Lemma numbers_app : forall f a j k, numbers f a (j + k) = numbers f a j ++ numbers f (a + Z.of_nat j) k.
Proof.
  intros f a j k. unfold numbers. rewrite seq_app, map_app. f_equal. rewrite Nat.add_0_l. rewrite <- (Nat.add_0_r j) at 1. clear. revert j. generalize 0%nat as b. induction k as [|k IH]; intros b j; [reflexivity|]. cbn [seq map]. f_equal; [do 2 f_equal; lia|]. rewrite <- (IH (S b) j). do 2 f_equal. lia.
Qed.
Lemma compress_word : forall K H M, Forall word (compress K H M).
Proof. intros K H M. unfold compress. apply Forall_forall. intros x Hx. apply in_map_iff in Hx. destruct Hx as ((a & b) & <- & _). apply mod_word. Qed.
Section Sound.
Context (src : Z -> F) (vals : nat -> Z -> F) (HW : forall r, (r < nb)%nat -> wired src p w r (vals r)) (HZ : forall r, (r < nb)%nat -> all_zero p (vals r)).
Notation K := (numbers src 34 64).
Notation H := (numbers src 98 8).
Notation node r := (numbers src (hoA (Z.of_nat r)) 8).
Notation leafw i := (numbers src (306 + 6928 * Z.of_nat i) 16).
Context (S0 : src 0 = 0%F) (KW : Forall word K) (H3 : word (fz (src 101))) (H7 : word (fz (src 105))).
Lemma val_at : forall r t, (r < nb)%nat -> 0 <= t < 7226 -> vals r t = src (ent (Z.of_nat r) t).
Proof. intros r t Hr Ht. pose proof (proj1 (wired_iff src r (vals r) ltac:(lia)) (HW r Hr)) as (_ & Q). rewrite Q by exact Ht. rewrite bl_small by exact Hr. reflexivity. Qed.
Lemma block_sound : forall r, (r < nb)%nat -> word (fz (src (ent (Z.of_nat r) 34))) -> Forall word (numbers (vals r) 34 16) /\ node r = compress K H (numbers (vals r) 34 16).
Proof.
  intros r Hr W0. pose proof (T_pos n Hn) as TP.
  assert (EK : numbers (vals r) 2210 64 = K) by (apply numbers_ext; intros j Hj; rewrite val_at by lia; f_equal; unfold MerkleShape.ent; pick_at; lia).
  assert (EH : numbers (vals r) 2274 8 = H) by (apply numbers_ext; intros j Hj; rewrite val_at by lia; f_equal; unfold MerkleShape.ent; pick_at; lia).
  assert (EO : numbers (vals r) 2282 8 = node r) by (apply numbers_ext; intros j Hj; rewrite val_at by lia; f_equal; unfold MerkleShape.ent; pick_at; lia).
  assert (E3 : vals r 2277 = src 101) by (rewrite val_at by lia; reflexivity). assert (E7 : vals r 2281 = src 105) by (rewrite val_at by lia; reflexivity).
  destruct (HW r Hr) as (HS & _). destruct (sha_sound p (vals r) EP HS) as (R1 & R2 & R3).
  - rewrite val_at by lia. exact S0.
  - exact (HZ r Hr).
  - rewrite EK. exact KW.
  - rewrite val_at by lia. exact W0.
  - rewrite E3. exact H3.
  - rewrite E7. exact H7.
  - split; [exact R1|]. rewrite EO, EK, EH in R3. exact R3.
Qed.
Lemma seq_split : forall A (f : nat -> A) a k, firstn k (map f (seq a (k + k))) = map f (seq a k) /\ skipn k (map f (seq a (k + k))) = map f (seq (a + k) k).
Proof.
  intros A f a k. rewrite seq_app, map_app. rewrite firstn_app, skipn_app, map_length, seq_length, Nat.sub_diag. rewrite firstn_all2, skipn_all2 by (rewrite map_length, seq_length; lia). cbn [firstn skipn app]. rewrite app_nil_r. split; reflexivity.
Qed.
Context (LW : forall i, (i < 2 ^ n)%nat -> word (fz (src (306 + 6928 * Z.of_nat i)))).
Lemma leaf_words : forall r, (r < 2 ^ n)%nat -> leafw r = numbers (vals r) 34 16 /\ word (fz (src (ent (Z.of_nat r) 34))).
Proof.
  intros r Hr. pose proof (T_pos n Hn) as TP. pose proof (nb_T n Hn) as NB. assert (RT : Z.of_nat r < T) by (unfold MerkleShape.T; lia). assert (L : leaf (Z.of_nat r) = true) by (apply Z.ltb_lt; exact RT).
  assert (EB : base (Z.of_nat r) = 306 + 6928 * Z.of_nat r) by (unfold MerkleShape.base; rewrite L; reflexivity).
  split.
  - symmetry. apply numbers_ext. intros j Hj. rewrite val_at by lia. f_equal. unfold MerkleShape.ent. rewrite L. pick_at. lia.
  - assert (E : ent (Z.of_nat r) 34 = 306 + 6928 * Z.of_nat r) by (unfold MerkleShape.ent; rewrite L; pick_at; lia). rewrite E. apply LW. exact Hr.
Qed.
Lemma tree_sound : forall l i, (l <= n)%nat -> (i < 2 ^ (n - l))%nat -> node (start n l + i) = merkle_root K H l (map (fun i => leafw i) (seq (i * 2 ^ l) (2 ^ l))).
Proof.
  pose proof (T_pos n Hn) as TP. pose proof (nb_T n Hn) as NB. induction l as [|l IH]; intros i Hl Hi.
  - rewrite (start_0 n Hn), Nat.add_0_l. rewrite Nat.sub_0_r in Hi. change (2 ^ 0)%nat with 1%nat. rewrite Nat.mul_1_r. cbn [seq map merkle_root hd]. destruct (leaf_words i Hi) as (E & W). rewrite E. apply block_sound; [|exact W]. unfold MerkleShape.T in *. lia.
  - pose proof (start_Z n Hn (S l) Hl) as SZ. pose proof (start_Z n Hn l ltac:(lia)) as SZ'. destruct (pow_step n Hn l ltac:(lia)) as (P1 & _). pose proof (pow_le n Hn l ltac:(lia)) as (P2 & _).
    set (r := (start n (S l) + i)%nat) in *. assert (RZ : Z.of_nat r = Z.of_nat (start n (S l)) + Z.of_nat i) by (unfold r; lia).
    assert (RN : (r < nb)%nat) by lia. assert (L : leaf (Z.of_nat r) = false) by (apply Z.ltb_ge; unfold MerkleShape.T in *; lia).
    assert (C1 : Z.of_nat (start n l + 2 * i) = 2 * (Z.of_nat r - T)) by lia. assert (C2 : Z.of_nat (start n l + (2 * i + 1)) = 2 * (Z.of_nat r - T) + 1) by lia.
    pose proof (IH (2 * i)%nat ltac:(lia) ltac:(lia)) as I1. pose proof (IH (2 * i + 1)%nat ltac:(lia) ltac:(lia)) as I2. rewrite C1 in I1. rewrite C2 in I2.
    assert (EM : numbers (vals r) 34 16 = numbers src (hoA (2 * (Z.of_nat r - T))) 8 ++ numbers src (hoA (2 * (Z.of_nat r - T) + 1)) 8).
    { change 16%nat with (8 + 8)%nat. rewrite numbers_app. f_equal; apply numbers_ext; intros j Hj; rewrite val_at by lia; f_equal; unfold MerkleShape.ent; rewrite L; pick_at; lia. }
    assert (W0 : word (fz (src (ent (Z.of_nat r) 34)))).
    { assert (E : ent (Z.of_nat r) 34 = hoA (2 * (Z.of_nat r - T)) + Z.of_nat 0) by (unfold MerkleShape.ent; rewrite L; pick_at; lia). rewrite E.
      assert (FW : Forall word (numbers src (hoA (2 * (Z.of_nat r - T))) 8)) by (rewrite I1; destruct l; apply compress_word). rewrite Forall_forall in FW. apply FW.
      unfold numbers. apply (in_map (fun i => fz (src (hoA (2 * (Z.of_nat r - T)) + Z.of_nat i)))). apply in_seq. lia. }
    destruct (block_sound r RN W0) as (_ & B). rewrite B, EM. cbn [merkle_root]. replace (2 ^ S l)%nat with (2 ^ l + 2 ^ l)%nat by (cbn [Nat.pow]; lia).
    rewrite (proj1 (seq_split _ _ _ _)), (proj2 (seq_split _ _ _ _)). rewrite I1, I2. replace (i * (2 ^ l + 2 ^ l))%nat with (2 * i * 2 ^ l)%nat by lia. replace (2 * i * 2 ^ l + 2 ^ l)%nat with ((2 * i + 1) * 2 ^ l)%nat by lia. reflexivity.
Qed.
Lemma root_sound : Forall (Forall word) (map (fun i => leafw i) (seq 0 (2 ^ n))) /\ numbers src 298 8 = merkle_root K H n (map (fun i => leafw i) (seq 0 (2 ^ n))).
Proof.
  pose proof (T_pos n Hn) as TP. pose proof (nb_T n Hn) as NB. split.
  - apply Forall_forall. intros x Hx. apply in_map_iff in Hx. destruct Hx as (r & <- & Hr). apply in_seq in Hr. destruct (leaf_words r ltac:(lia)) as (E & W). rewrite E. apply block_sound; [|exact W]. unfold MerkleShape.T in *. lia.
  - pose proof (tree_sound n 0 ltac:(lia) ltac:(rewrite Nat.sub_diag; cbn [Nat.pow]; lia)) as Q. cbn [Nat.mul] in Q. rewrite <- Q. f_equal. rewrite Nat.add_0_r, start_Z by (exact Hn || lia). rewrite Nat.sub_diag. cbn [Nat.pow].
    unfold MerkleShape.hoA, MerkleShape.lastb. rewrite (proj2 (Z.eqb_eq _ _)) by lia. reflexivity.
Qed.
End Sound.

(** ** Completeness *)
Section Complete.
Context (K H : list Z) (leaves : list (list Z)).
Context (LK : length K = 64%nat) (LH : length H = 8%nat) (LL : length leaves = (2 ^ n)%nat) (L16 : Forall (fun l => length l = 16%nat) leaves).
Context (WK : Forall word K) (WH : Forall word H) (WL : Forall (Forall word) leaves).
(** The first word of the first leaf may be one of two numbers. *)
Context (e : Z) (He : 0 <= e <= 1) (Hfit : hsum (nth 0 leaves []) e 16 < 2 ^ 34).
Definition er (r : Z) : Z := if r =? 0 then e else 0.
(** The block of words of block [r]; [f] bounds the recursion *)
Fixpoint msg_ (f r : nat) : list Z :=
  match f with
  | O => []
  | S f' => if (r <? 2 ^ n)%nat then nth r leaves [] else compress K H (msg_ f' (2 * (r - 2 ^ n))) ++ compress K H (msg_ f' (2 * (r - 2 ^ n) + 1))
  end.
Definition msg (r : nat) : list Z := msg_ (S r) r.
Lemma msg_fuel : forall f r, (r < nb)%nat -> (r < f)%nat -> msg_ f r = msg r.
Proof.
  pose proof (T_pos n Hn) as TP. pose proof (nb_T n Hn) as NB. unfold MerkleShape.T in *.
  assert (Q : forall f g r, (r < nb)%nat -> (r < f)%nat -> (r < g)%nat -> msg_ f r = msg_ g r).
  { induction f as [|f IH]; intros g r Hr Hf Hg; [lia|]. destruct g as [|g]; [lia|]. cbn [msg_]. destruct (Nat.ltb_spec r (2 ^ n)) as [Q|Q]; [reflexivity|]. rewrite (IH g (2 * (r - 2 ^ n))%nat), (IH g (2 * (r - 2 ^ n) + 1)%nat) by lia. reflexivity. }
  intros f r Hr Hf. apply Q; [exact Hr|exact Hf|lia].
Qed.
Lemma msg_leaf : forall r, (r < 2 ^ n)%nat -> msg r = nth r leaves [].
Proof. intros r Hr. unfold msg. cbn [msg_]. rewrite (proj2 (Nat.ltb_lt _ _) Hr). reflexivity. Qed.
Lemma msg_inner : forall r, (2 ^ n <= r < nb)%nat -> msg r = compress K H (msg (2 * (r - 2 ^ n))) ++ compress K H (msg (2 * (r - 2 ^ n) + 1)).
Proof.
  intros r Hr. pose proof (T_pos n Hn) as TP. pose proof (nb_T n Hn) as NB. unfold MerkleShape.T in *. unfold msg at 1. cbn [msg_]. rewrite (proj2 (Nat.ltb_ge _ _) (proj1 Hr)). rewrite !msg_fuel by lia. reflexivity.
Qed.
Lemma compress_length : forall M, length (compress K H M) = 8%nat.
Proof. intros M. unfold compress. rewrite map_length, combine_length, LH. reflexivity. Qed.
Lemma msg_ok : forall r, (r < nb)%nat -> length (msg r) = 16%nat /\ Forall word (msg r).
Proof.
  intros r Hr. destruct (Nat.lt_ge_cases r (2 ^ n)) as [Q|Q].
  - rewrite msg_leaf by exact Q. rewrite Forall_forall in L16, WL. split; [apply L16|apply WL]; apply nth_In; rewrite LL; exact Q.
  - rewrite msg_inner by lia. rewrite app_length, !compress_length. split; [reflexivity|]. apply Forall_app. split; apply compress_word.
Qed.
Definition cst (v : Z) : F := if v =? 0 then 0%F else ofZ (4 * 2 ^ (v - 1)).
(** Input [q] of block [r] *)
Definition hb (r q : Z) : F := hin K H (msg (Z.to_nat r)) (er r) cst q.
(** The input that is number [off] among the new ones of block [r] *)
Definition fresh (r off : Z) : Z :=
  if leaf r then (if off <? 2176 then 34 + off else if off <? 2448 then off + 106 else off + 298)
  else if off <? 48 then 50 + off else if off <? 1680 then 530 + off
  else let off := if lastb r then off + 8 else off in if off <? 1952 then 602 + off else 794 + off.
Definition hsrc (s : Z) : F :=
  if s <? 34 then cst s
  else if s <? 98 then hb 0 (s - 34 + 2210)
  else if s <? 106 then hb 0 (s - 98 + 2274)
  else if s <? 298 then hb 0 (s - 106 + 2554)
  else if s <? 306 then hb (2 * T - 2) (s - 298 + 2282)
  else if s <? 306 + 6928 * T then hb ((s - 306) / 6928) (fresh ((s - 306) / 6928) ((s - 306) mod 6928))
  else let r := T + (s - 306 - 6928 * T) / 6432 in hb r (fresh r ((s - 306 - 6928 * T) mod 6432)).
Lemma hsrc_fresh : forall r off, 0 <= r <= 2 * T - 2 -> 0 <= off < (if leaf r then 6928 else 6432) -> hsrc (base r + off) = hb r (fresh r off).
Proof.
  intros r off Hr Ho. pose proof (T_pos n Hn) as TP. unfold hsrc, MerkleShape.base. unfold MerkleShape.leaf in Ho. destruct (leaf r) eqn:L; unfold MerkleShape.leaf in L; [apply Z.ltb_lt in L; rewrite (proj2 (Z.ltb_lt _ _) L) in Ho|apply Z.ltb_ge in L; rewrite (proj2 (Z.ltb_ge _ _) L) in Ho].
  - assert (D : (306 + 6928 * r + off - 306) / 6928 = r) by (symmetry; apply (Z.div_unique _ _ _ off); lia). assert (M : (306 + 6928 * r + off - 306) mod 6928 = off) by (symmetry; apply (Z.mod_unique _ _ r); lia).
    rewrite D, M. pick_at. reflexivity.
  - assert (D : (306 + (6928 * T + 6432 * (r - T)) + off - 306 - 6928 * T) / 6432 = r - T) by (symmetry; apply (Z.div_unique _ _ _ off); lia). assert (M : (306 + (6928 * T + 6432 * (r - T)) + off - 306 - 6928 * T) mod 6432 = off) by (symmetry; apply (Z.mod_unique _ _ (r - T)); lia).
    rewrite D, M. pick_at. cbv zeta. replace (T + (r - T)) with r by lia. reflexivity.
Qed.
Ltac pick := unfold hb, hin; pick_at.
Lemma hsrc_ho : forall r j, 0 <= r <= 2 * T - 2 -> 0 <= j < 8 -> hsrc (hoA r + j) = hb r (2282 + j).
Proof.
  intros r j Hr Hj. pose proof (T_pos n Hn) as TP. unfold MerkleShape.hoA. destruct (lastb r) eqn:LB; unfold MerkleShape.lastb in LB.
  - apply Z.eqb_eq in LB. subst r. unfold hsrc. pick_at. f_equal. lia.
  - destruct (leaf r) eqn:L.
    + rewrite <- Z.add_assoc, hsrc_fresh by (try rewrite L; lia). f_equal. unfold fresh. rewrite L. pick_at. lia.
    + rewrite <- Z.add_assoc, hsrc_fresh by (try rewrite L; lia). f_equal. unfold fresh, MerkleShape.lastb. rewrite L, LB. pick_at. cbv zeta. pick_at. lia.
Qed.
Lemma hsrc_hb : forall r j, 0 <= r <= 2 * T - 2 -> 0 <= j < 264 -> hsrc (hbA r + j) = hb r (2290 + j).
Proof.
  intros r j Hr Hj. pose proof (T_pos n Hn) as TP. unfold MerkleShape.hbA. destruct (leaf r) eqn:L.
  - rewrite <- Z.add_assoc, hsrc_fresh by (try rewrite L; lia). f_equal. unfold fresh. rewrite L. pick_at. lia.
  - destruct (lastb r) eqn:LB; rewrite <- Z.add_assoc, hsrc_fresh by (try rewrite L; lia); f_equal; unfold fresh; rewrite L, LB; pick_at; cbv zeta; pick_at; lia.
Qed.
Lemma hsrc_ae : forall r j, 0 <= r <= 2 * T - 2 -> 0 <= j < 4480 -> hsrc (aeA n r + j) = hb r (2746 + j).
Proof.
  intros r j Hr Hj. pose proof (T_pos n Hn) as TP. unfold aeA, MerkleShape.hbA. destruct (leaf r) eqn:L.
  - rewrite <- !Z.add_assoc, hsrc_fresh by (try rewrite L; lia). f_equal. unfold fresh. rewrite L. pick_at. lia.
  - destruct (lastb r) eqn:LB; rewrite <- !Z.add_assoc, hsrc_fresh by (try rewrite L; lia); f_equal; unfold fresh; rewrite L, LB; pick_at; cbv zeta; pick_at; lia.
Qed.
Lemma hw_msg : forall M j, length M = 16%nat -> (j < 16)%nat -> hw M j = nth j M 0.
Proof. intros M j LM Hj. unfold hw, message_schedule. apply (extend_prefix K H M LK LH LM). rewrite LM. exact Hj. Qed.
Lemma hb_w : forall r j, (0 < r < nb)%nat -> (j < 16)%nat -> hb (Z.of_nat r) (34 + Z.of_nat j) = ofZ (nth j (msg r) 0).
Proof.
  intros r j Hr Hj. pick. rewrite Nat2Z.id. replace (Z.to_nat (34 + Z.of_nat j - 34)) with j by lia. f_equal. cbn [hX wz]. rewrite <- (hw_msg (msg r) j) by (try apply msg_ok; lia). unfold er. rewrite (proj2 (Z.eqb_neq (Z.of_nat r) 0)) by lia. destruct j as [|j]; cbn [hw']; [lia|reflexivity].
Qed.
Lemma hb_o : forall r j, (r < nb)%nat -> (j < 8)%nat -> hb (Z.of_nat r) (2282 + Z.of_nat j) = ofZ (nth j (compress K H (msg r)) 0).
Proof.
  intros r j Hr Hj. pick. rewrite Nat2Z.id. replace (Z.to_nat (2282 + Z.of_nat j - 2282)) with j by lia. f_equal. destruct (msg_ok r Hr) as (LM & _). rewrite <- (hcompress K H (msg r) (er (Z.of_nat r)) LK LH LM).
  set (f := oz (hX K H (msg r) (er (Z.of_nat r)))). rewrite (nth_indep _ 0 (f 0%nat)) by (rewrite map_length, seq_length; exact Hj). rewrite map_nth, seq_nth by exact Hj. reflexivity.
Qed.
Lemma hb_wb : forall r j b, (r < nb)%nat -> (1 <= j < 16)%nat -> 0 <= b < 32 -> hb (Z.of_nat r) (66 + 32 * Z.of_nat j + b) = bitF (nth j (msg r) 0) b.
Proof.
  intros r j b Hr Hj Hb. pick. rewrite Nat2Z.id.
  assert (D : (66 + 32 * Z.of_nat j + b - 98) / 32 = Z.of_nat j - 1) by (symmetry; apply (Z.div_unique _ _ _ b); lia). assert (M : (66 + 32 * Z.of_nat j + b - 98) mod 32 = b) by (symmetry; apply (Z.mod_unique _ _ (Z.of_nat j - 1)); lia).
  rewrite D, M. replace (S (Z.to_nat (Z.of_nat j - 1))) with j by lia. f_equal. cbn [hX wbz]. rewrite (proj2 (Nat.ltb_lt j 16)) by lia. apply hw_msg; [apply msg_ok; exact Hr|lia].
Qed.
Lemma hb_hb : forall r j b, (r < nb)%nat -> (j < 8)%nat -> 0 <= b < 32 -> hb (Z.of_nat r) (2290 + 33 * Z.of_nat j + b) = bitF (nth j (compress K H (msg r)) 0) b.
Proof.
  intros r j b Hr Hj Hb. pick. rewrite Nat2Z.id.
  assert (D : (2290 + 33 * Z.of_nat j + b - 2290) / 33 = Z.of_nat j) by (symmetry; apply (Z.div_unique _ _ _ b); lia). assert (M : (2290 + 33 * Z.of_nat j + b - 2290) mod 33 = b) by (symmetry; apply (Z.mod_unique _ _ (Z.of_nat j)); lia).
  rewrite D, M, Nat2Z.id. destruct (msg_ok r Hr) as (LM & _). rewrite <- (hcompress K H (msg r) (er (Z.of_nat r)) LK LH LM).
  assert (E : nth j (map (oz (hX K H (msg r) (er (Z.of_nat r)))) (seq 0 8)) 0 = hbz (hX K H (msg r) (er (Z.of_nat r))) j mod 2 ^ 32).
  { set (f := oz (hX K H (msg r) (er (Z.of_nat r)))). rewrite (nth_indep _ 0 (f 0%nat)) by (rewrite map_length, seq_length; exact Hj). rewrite map_nth, seq_nth by exact Hj. reflexivity. }
  rewrite E. unfold bitF. rewrite Z.mod_pow2_bits_low by lia. reflexivity.
Qed.
Lemma hsrc_ent : forall r q, (r < nb)%nat -> 0 <= q < 7226 -> hsrc (ent (Z.of_nat r) q) = hb (Z.of_nat r) q.
Proof.
  intros r q Hr Hq. pose proof (T_pos n Hn) as TP. pose proof (nb_T n Hn) as NB. assert (RT : 0 <= Z.of_nat r <= 2 * T - 2) by lia. unfold MerkleShape.ent.
  destruct (Z.ltb_spec q 34) as [Q1|Q1]; [unfold hsrc; pick; reflexivity|].
  destruct (Z.ltb_spec q 50) as [Q2|Q2].
  { destruct (leaf (Z.of_nat r)) eqn:L.
    - rewrite hsrc_fresh by (try rewrite L; lia). f_equal. unfold fresh. rewrite L. pick_at. lia.
    - assert (RG : (2 ^ n <= r)%nat) by (unfold MerkleShape.leaf, MerkleShape.T in L; apply Z.ltb_ge in L; lia). assert (ET : T = Z.of_nat (2 ^ n)) by reflexivity.
      assert (EQ : q = 34 + Z.of_nat (Z.to_nat (q - 34))) by lia. rewrite EQ at 4. rewrite hb_w by (unfold MerkleShape.T in TP; lia). rewrite msg_inner by lia.
      destruct (Z.ltb_spec q 42) as [Q3|Q3].
      + rewrite app_nth1 by (rewrite compress_length; lia). rewrite <- hb_o by lia. rewrite hsrc_ho by lia. f_equal; lia.
      + rewrite app_nth2; rewrite compress_length; [|lia]. rewrite <- hb_o by lia. rewrite hsrc_ho by lia. f_equal; lia. }
  destruct (Z.ltb_spec q 98) as [Q3|Q3].
  { destruct (leaf (Z.of_nat r)) eqn:L; rewrite <- Z.add_assoc, hsrc_fresh by (try rewrite L; lia); f_equal; unfold fresh; rewrite L; pick_at; lia. }
  destruct (Z.ltb_spec q 578) as [Q4|Q4].
  { destruct (leaf (Z.of_nat r)) eqn:L.
    - rewrite <- Z.add_assoc, hsrc_fresh by (try rewrite L; lia). f_equal. unfold fresh. rewrite L. pick_at. lia.
    - assert (RG : (2 ^ n <= r)%nat) by (unfold MerkleShape.leaf, MerkleShape.T in L; apply Z.ltb_ge in L; lia). assert (ET : T = Z.of_nat (2 ^ n)) by reflexivity.
      assert (D : 0 <= (q - 98) / 32 < 15) by (split; [apply Z.div_pos; lia|apply Z.div_lt_upper_bound; lia]). pose proof (Z.mod_pos_bound (q - 98) 32 ltac:(lia)) as M. pose proof (Z.div_mod (q - 98) 32 ltac:(lia)) as DM.
      set (j := (q - 98) / 32 + 1) in *. cbv zeta. set (b := (q - 98) mod 32) in *. assert (EQ : q = 66 + 32 * Z.of_nat (Z.to_nat j) + b) by lia. rewrite EQ. rewrite hb_wb by lia. rewrite msg_inner by lia. clear EQ.
      destruct (Z.ltb_spec j 8) as [Q5|Q5].
      + rewrite app_nth1 by (rewrite compress_length; lia). rewrite <- hb_hb by lia. rewrite <- Z.add_assoc, hsrc_hb by lia. f_equal; lia.
      + rewrite app_nth2; rewrite compress_length; [|lia]. rewrite <- hb_hb by lia. rewrite <- Z.add_assoc, hsrc_hb by lia. f_equal; lia. }
  destruct (Z.ltb_spec q 2210) as [Q5|Q5].
  { destruct (leaf (Z.of_nat r)) eqn:L; rewrite <- Z.add_assoc, hsrc_fresh by (try rewrite L; lia); f_equal; unfold fresh; rewrite L; pick_at; lia. }
  destruct (Z.ltb_spec q 2274) as [Q6|Q6]; [unfold hsrc; pick_at; replace (34 + (q - 2210) - 34 + 2210) with q by lia; pick; cbn [hX kz hz]; reflexivity|].
  destruct (Z.ltb_spec q 2282) as [Q7|Q7]; [unfold hsrc; pick_at; replace (98 + (q - 2274) - 98 + 2274) with q by lia; pick; cbn [hX kz hz]; reflexivity|].
  destruct (Z.ltb_spec q 2290) as [Q8|Q8]; [rewrite hsrc_ho by lia; f_equal; lia|].
  destruct (Z.ltb_spec q 2554) as [Q9|Q9]; [rewrite hsrc_hb by lia; f_equal; lia|].
  destruct (Z.ltb_spec q 2746) as [Q10|Q10]; [|rewrite hsrc_ae by lia; f_equal; lia].
  unfold hsrc. pick_at. replace (106 + (q - 2554) - 106 + 2554) with q by lia. unfold hb, hin. pick_at. cbn [hX az bz cz ez fz' gz]. reflexivity.
Qed.
Lemma complete : exists src vals, constants src w /\ (forall r, (r < 2 ^ (n + 1))%nat -> wired src p w r (vals r) /\ all_zero p (vals r)) /\
  numbers src 34 64 = K /\ numbers src 98 8 = H /\ (forall i, (i < 2 ^ n)%nat -> numbers src (306 + 6928 * Z.of_nat i) 16 = (nth 0 (nth i leaves []) 0 + er (Z.of_nat i) * 2 ^ 32) :: tl (nth i leaves [])) /\
  numbers src 298 8 = compress K H (msg (nb - 1)).
Proof.
  pose proof (T_pos n Hn) as TP. pose proof (nb_T n Hn) as NB. assert (NP : (2 ^ (n + 1) = S nb)%nat) by (unfold MerkleShape.nb; pose proof (Nat.pow_nonzero 2 (n + 1) ltac:(lia)); lia). rewrite NP.
  assert (RUN : forall r, exists val, (forall s, In s p -> holds val s) /\ forall t, 0 <= t < 7226 -> val t = hsrc (ent (Z.of_nat (bl n r)) t)).
  { intros r. destruct sha_shape as (p' & m & ts & i & lines & v & EP' & CK & _). assert (p' = p) by (rewrite EP' in EP; exact (Ok_inj _ _ _ EP)). subst p'.
    destruct (run_exists (fun t => hsrc (ent (Z.of_nat (bl n r)) t)) p (proj1 (ck_ok _ _ _ _ CK)) (ck_ord _ _ _ _ CK)) as (val & HS & HI). exists val. split; [exact HS|]. intros t Ht. destruct (proj2 (sha_input p t EP) Ht) as (i' & Hi'). exact (HI t i' Hi'). }
  destruct (sha_shape) as (p' & m & _ & _ & _ & _ & EP' & CK & _). assert (p' = p) by (rewrite EP' in EP; exact (Ok_inj _ _ _ EP)). subst p'.
  assert (BV : forall r val, (r <= nb)%nat -> wired hsrc p w r val -> (forall u, 0 <= u < 7226 -> val u = hb (Z.of_nat (bl n r)) u)).
  { intros r val Hr HW u Hu. apply (wired_iff hsrc r val Hr) in HW. rewrite (proj2 HW u Hu). apply hsrc_ent; [unfold bl; lia|exact Hu]. }
  assert (HV : forall r val, (r <= nb)%nat -> wired hsrc p w r val -> all_zero p val /\ numbers val 2210 64 = K /\ numbers val 2274 8 = H /\ numbers val 34 16 = (nth 0 (msg (bl n r)) 0 + er (Z.of_nat (bl n r)) * 2 ^ 32) :: tl (msg (bl n r)) /\ numbers val 2282 8 = compress K H (msg (bl n r))).
  { intros r val Hr HW. pose proof (BV r val Hr HW) as Hv. unfold hb in Hv. rewrite Nat2Z.id in Hv. destruct (msg_ok (bl n r) ltac:(unfold bl; lia)) as (LM & WM).
    assert (ER : 0 <= er (Z.of_nat (bl n r)) <= 1) by (unfold er; destruct (Z.of_nat (bl n r) =? 0); lia).
    assert (FIT : hsum (msg (bl n r)) (er (Z.of_nat (bl n r))) 16 < 2 ^ 34).
    { unfold er. destruct (Z.eqb_spec (Z.of_nat (bl n r)) 0) as [E0|E0].
      + replace (bl n r) with 0%nat by lia. rewrite msg_leaf by (unfold MerkleShape.T in TP; lia). exact Hfit.
      + assert (W : forall i, (i < 64)%nat -> word (hw (msg (bl n r)) i)) by (intros i Hi; exact (hw_word K H _ LK LH LM WM i Hi)).
        unfold hsum. rewrite (hw'_pos K H _ 0 LK LH LM (16 - 7)) by lia. unfold hw' at 1. change (16 - 16)%nat with 0%nat. cbv iota.
        pose proof (W 0%nat ltac:(lia)) as A. pose proof (W (16 - 7)%nat ltac:(lia)) as B. pose proof (sigma0_word _ (W (16 - 15)%nat ltac:(lia))) as C. pose proof (sigma1_word _ (W (16 - 2)%nat ltac:(lia))) as D.
        unfold word in *. change (2 ^ 34) with (4 * 2 ^ 32). lia. }
    pose proof (honest_val K H (msg (bl n r)) (er (Z.of_nat (bl n r))) LK LH LM WK WH WM ER FIT p val cst EP (proj1 HW) eq_refl Hv) as (R1 & R2 & R3 & R4 & R5). split; [exact R1|]. split; [exact R2|]. split; [exact R3|]. split; [exact R4|exact R5]. }
  assert (ALL : exists vals, forall r, (r <= nb)%nat -> wired hsrc p w r (vals r)).
  { assert (FIN : forall k, exists vals : nat -> Z -> F, forall r, (r < k)%nat -> (r <= nb)%nat -> wired hsrc p w r (vals r)).
    { induction k as [|k (vals & IH)]; [exists (fun _ _ => 0%F); intros r Hr; lia|]. destruct (RUN k) as (val & HS & HI). exists (fun r => if (r =? k)%nat then val else vals r). intros r Hr Hr'. destruct (Nat.eqb_spec r k) as [->|N]; [|apply IH; lia]. apply wired_iff; [exact Hr'|]. split; assumption. }
    destruct (FIN (S nb)) as (vals & IH). exists vals. intros r Hr. apply IH; lia. }
  destruct ALL as (vals & ALL). exists hsrc, vals. split.
  { intros t c Ht. rewrite w_eq in Ht. apply file_in in Ht. destruct Ht as [(i & Q & Hi)|[(? & Q & _)|[(? & ? & Q & _)|(? & Q & _)]]]; try discriminate Q. pose proof (f_equal (fun s => match s with RConst t _ => t | _ => 0 end) Q) as E1. pose proof (f_equal (fun s => match s with RConst _ t => t | _ => 0 end) Q) as E2. cbv beta iota in E1, E2. subst t c. clear Q.
    unfold hsrc. rewrite (proj2 (Z.ltb_lt i 34)) by lia. unfold cst. destruct (i =? 0); reflexivity. }
  split; [intros r Hr; split; [apply ALL; lia|apply (HV r); [lia|apply ALL; lia]]|].
  destruct (HV 0%nat (vals 0%nat) ltac:(lia) (ALL 0%nat ltac:(lia))) as (_ & EK & EH & _ & _).
  assert (VA : forall r t, (r < nb)%nat -> 0 <= t < 7226 -> vals r t = hsrc (ent (Z.of_nat r) t)).
  { intros r t Hr Ht. pose proof (proj1 (wired_iff hsrc r (vals r) ltac:(lia)) (ALL r ltac:(lia))) as (_ & Q). rewrite Q by exact Ht. rewrite bl_small by exact Hr. reflexivity. }
  split; [rewrite <- EK; symmetry; apply numbers_ext; intros j Hj; rewrite VA by lia; f_equal; unfold MerkleShape.ent; pick_at; lia|].
  split; [rewrite <- EH; symmetry; apply numbers_ext; intros j Hj; rewrite VA by lia; f_equal; unfold MerkleShape.ent; pick_at; lia|].
  split; [|destruct (HV (nb - 1)%nat (vals (nb - 1)%nat) ltac:(lia) (ALL (nb - 1)%nat ltac:(lia))) as (_ & _ & _ & _ & EO); rewrite bl_small in EO by lia; rewrite <- EO; symmetry; apply numbers_ext; intros j Hj; rewrite VA by lia; f_equal;
    unfold MerkleShape.ent, MerkleShape.hoA, MerkleShape.lastb; rewrite (proj2 (Z.eqb_eq (Z.of_nat (nb - 1)) (2 * T - 2))) by lia; pick_at; lia].
  intros i Hi. assert (RT : Z.of_nat i < T) by (unfold MerkleShape.T; lia). assert (L : leaf (Z.of_nat i) = true) by (apply Z.ltb_lt; exact RT).
  destruct (HV i (vals i) ltac:(lia) (ALL i ltac:(lia))) as (_ & _ & _ & EM & _). rewrite bl_small in EM by lia. rewrite msg_leaf in EM by exact Hi. rewrite <- EM. symmetry. apply numbers_ext. intros j Hj. rewrite VA by lia. f_equal.
  unfold MerkleShape.ent, MerkleShape.base. rewrite L. pick_at. lia.
Qed.
End Complete.
End Tree.
