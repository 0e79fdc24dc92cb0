(** * The wiring file for a Merkle tree in closed form *)
From Coq Require Import ZArith List Bool Arith Lia.
From Verif Require Import Base Fp Program SpecCompiler SpecLoader SpecMerkle ShaGen ShaBlock ShaMain ShaProgram MerkleGen LoaderProofs.
Import ListNotations.
Open Scope Z_scope.

(** ** Allocation *)
Lemma range_app : forall n m a, zrange a (n + m) = zrange a n ++ zrange (a + Z.of_nat n) m.
Proof.
  induction n as [|n IH]; intros m a; cbn [Nat.add zrange app]; [f_equal; lia|]. f_equal. rewrite IH. do 2 f_equal. lia.
Qed.
(** [m] reserves the variables from [v] to [v'] and writes nothing. *)
Definition al {A} (m : gen A) (v : Z) (a : A) (v' : Z) : Prop := v <= v' /\ m v = Ok (a, (zrange v (Z.to_nat (v' - v)), []), v').
Lemma al_ret : forall A (a : A) v, al (gret a) v a v.
Proof. intros A a v. split; [lia|]. unfold gret. rewrite Z.sub_diag. reflexivity. Qed.
Lemma al_lift : forall A (m : outcome A) a v, m = Ok a -> al (glift m) v a v.
Proof. intros A m a v E. split; [lia|]. unfold glift. rewrite E, Z.sub_diag. reflexivity. Qed.
Lemma al_alloc : forall n v, al (alloc n) v (zrange v n) (v + Z.of_nat n).
Proof. intros n v. split; [lia|]. unfold alloc. replace (Z.to_nat (v + Z.of_nat n - v)) with n by lia. reflexivity. Qed.
Lemma al_bind : forall A B (m : gen A) (k : A -> gen B) v a v1 b v2, al m v a v1 -> al (k a) v1 b v2 -> al (gbind m k) v b v2.
Proof.
  intros A B m k v a v1 b v2 (L1 & E1) (L2 & E2). split; [lia|]. unfold gbind. rewrite E1. cbn [bind]. rewrite E2. cbn [bind app]. do 3 f_equal. f_equal.
  replace (Z.to_nat (v2 - v)) with (Z.to_nat (v1 - v) + Z.to_nat (v2 - v1))%nat by lia. rewrite range_app. do 2 f_equal. lia.
Qed.
Lemma al_allocs_gen : forall m n v, al (gmap (fun _ : unit => alloc m) (repeat tt n)) v (map (fun i => zrange (v + Z.of_nat m * Z.of_nat i) m) (seq 0 n)) (v + Z.of_nat m * Z.of_nat n).
Proof.
  intros m n. induction n as [|n IH]; intros v.
  - cbn [repeat gmap seq map]. replace (v + Z.of_nat m * Z.of_nat 0) with v by lia. apply al_ret.
  - cbn [repeat gmap]. eapply al_bind; [apply al_alloc|]. eapply al_bind; [apply IH|]. cbn [seq map]. rewrite <- seq_shift, map_map.
    replace (zrange (v + Z.of_nat m * Z.of_nat 0) m) with (zrange v m) by (f_equal; lia).
    replace (map (fun x => zrange (v + Z.of_nat m * Z.of_nat (S x)) m) (seq 0 n)) with (map (fun i => zrange (v + Z.of_nat m + Z.of_nat m * Z.of_nat i) m) (seq 0 n)) by (apply map_ext; intros i; f_equal; lia).
    replace (v + Z.of_nat m * Z.of_nat (S n)) with (v + Z.of_nat m + Z.of_nat m * Z.of_nat n) by lia. apply al_ret.
Qed.
Lemma al_allocs : forall m n v, al (allocs n (alloc m)) v (ranges v n m) (v + Z.of_nat m * Z.of_nat n).
Proof. intros. apply al_allocs_gen. Qed.
Lemma al_alloc1s : forall n v, al (allocs n alloc1) v (zrange v n) (v + Z.of_nat n).
Proof.
  unfold allocs. intros n. induction n as [|n IH]; intros v; cbn [repeat gmap zrange].
  - replace (v + Z.of_nat 0) with v by lia. apply al_ret.
  - eapply al_bind; [instantiate (1 := v + 1); instantiate (1 := v); split; [lia|]; unfold alloc1; replace (Z.to_nat (v + 1 - v)) with 1%nat by lia; reflexivity|].
    eapply al_bind; [apply IH|]. replace (v + Z.of_nat (S n)) with (v + 1 + Z.of_nat n) by lia. apply al_ret.
Qed.
Lemma al_at : forall A (m : gen A) v a v' w, al m v a v' -> v = w -> al m w a v'.
Proof. intros A m v a v' w H <-. exact H. Qed.
Lemma al_to : forall A (m : gen A) v a v' w, al m v a v' -> v' = w -> al m v a w.
Proof. intros A m v a v' w H <-. exact H. Qed.

(** ** The addresses *)
Section Tree.
Context (n : nat) (Hn : (0 < n)%nat).
Definition T : Z := Z.of_nat (2 ^ n).
Definition nb : nat := (2 ^ (n + 1) - 1)%nat.
Lemma T_pos : 2 <= T.
Proof. unfold T. destruct n as [|n']; [lia|]. cbn [Nat.pow]. pose proof (Nat.pow_nonzero 2 n' ltac:(lia)). lia. Qed.
Lemma nb_T : Z.of_nat nb = 2 * T - 1.
Proof. unfold nb, T. rewrite Nat.add_1_r. cbn [Nat.pow]. pose proof (Nat.pow_nonzero 2 n ltac:(lia)). lia. Qed.
Definition leaf (r : Z) : bool := r <? T.
Definition lastb (r : Z) : bool := r =? 2 * T - 2.
Definition base (r : Z) : Z := 306 + (if leaf r then 6928 * r else 6928 * T + 6432 * (r - T)).
Definition hoA (r : Z) : Z := if lastb r then 298 else base r + if leaf r then 2176 else 1680.
Definition hbA (r : Z) : Z := base r + if leaf r then 2184 else if lastb r then 1680 else 1688.
Definition aeA (r : Z) : Z := hbA r + 264.
(** The first variable after block [r] *)
Definition nextA (r : Z) : Z := aeA r + 4480.
(** The source of input [q] of block [r] *)
Definition ent (r q : Z) : Z :=
  if q <? 34 then q
  else if q <? 50 then
    if leaf r then base r + (q - 34) else if q <? 42 then hoA (2 * (r - T)) + (q - 34) else hoA (2 * (r - T) + 1) + (q - 42)
  else if q <? 98 then base r + (if leaf r then 16 else 0) + (q - 50)
  else if q <? 578 then
    if leaf r then base r + 64 + (q - 98)
    else let j := (q - 98) / 32 + 1 in
         if j <? 8 then hbA (2 * (r - T)) + 33 * j + (q - 98) mod 32 else hbA (2 * (r - T) + 1) + 33 * (j - 8) + (q - 98) mod 32
  else if q <? 2210 then base r + (if leaf r then 544 else 48) + (q - 578)
  else if q <? 2274 then 34 + (q - 2210)
  else if q <? 2282 then 98 + (q - 2274)
  else if q <? 2290 then hoA r + (q - 2282)
  else if q <? 2554 then hbA r + (q - 2290)
  else if q <? 2746 then 106 + (q - 2554)
  else aeA r + (q - 2746).
Definition size : nat := Z.to_nat 7226.
Definition blk (r : nat) : list Z := map (ent (Z.of_nat r)) (zrange 0 size).
Definition houtf (r : nat) : list Z := if lastb (Z.of_nat r) then [] else zrange (hoA (Z.of_nat r)) 8.
Definition hbf (r : nat) : list (list Z) := ranges (hbA (Z.of_nat r)) 8 33.

(** *** A block as a sequence of ranges *)
Lemma map_seg : forall f a m b, (forall q, a <= q < a + Z.of_nat m -> f q = b + (q - a)) -> map f (zrange a m) = zrange b m.
Proof.
  intros f a m. revert a. induction m as [|m IH]; intros a b H; cbn [zrange map]; [reflexivity|]. f_equal; [rewrite H by lia; lia|]. apply IH. intros q Hq. rewrite H by lia. lia.
Qed.
Lemma size_eq : size = (34 + (16 + (48 + (480 + (1632 + (64 + (8 + (8 + (264 + (192 + 4480))))))))))%nat.
Proof. reflexivity. Qed.
Ltac pick_at := repeat match goal with |- context [?x <? ?y] => first [rewrite (proj2 (Z.ltb_lt x y)) by lia | rewrite (proj2 (Z.ltb_ge x y)) by lia] end; cbv beta iota.
Lemma blk_split : forall r, blk r = zrange 0 34 ++ map (ent (Z.of_nat r)) (zrange 34 16) ++ zrange (base (Z.of_nat r) + if leaf (Z.of_nat r) then 16 else 0) 48 ++
  map (ent (Z.of_nat r)) (zrange 98 480) ++ zrange (base (Z.of_nat r) + if leaf (Z.of_nat r) then 544 else 48) 1632 ++ zrange 34 64 ++ zrange 98 8 ++ zrange (hoA (Z.of_nat r)) 8 ++
  zrange (hbA (Z.of_nat r)) 264 ++ zrange 106 192 ++ zrange (aeA (Z.of_nat r)) 4480.
Proof.
  intros r. unfold blk. rewrite size_eq. rewrite !range_app, !map_app. generalize (Z.of_nat r). clear r. intros r.
  repeat apply f_equal2; try reflexivity; apply map_seg; intros q Hq; unfold ent; pick_at; try reflexivity; lia.
Qed.
Lemma blk_leaf : forall r, leaf (Z.of_nat r) = true -> map (ent (Z.of_nat r)) (zrange 34 16) = zrange (base (Z.of_nat r)) 16 /\ map (ent (Z.of_nat r)) (zrange 98 480) = zrange (base (Z.of_nat r) + 64) 480.
Proof. intros r L. split; apply map_seg; intros q Hq; unfold ent; rewrite L; pick_at; lia. Qed.
Lemma ranges_bits : forall b k m a, (forall i, (i < k)%nat -> map b (zrange (a + 32 * Z.of_nat i) 32) = zrange (m i) 32) -> map b (zrange a (32 * k)) = flat_map (fun i => zrange (m i) 32) (seq 0 k).
Proof.
  intros b k m. revert m. induction k as [|k IH]; intros m a H; [reflexivity|]. replace (32 * S k)%nat with (32 + 32 * k)%nat by lia. rewrite range_app, map_app. cbn [seq flat_map]. f_equal.
  - rewrite <- (H O) by lia. do 2 f_equal. lia.
  - rewrite <- seq_shift. rewrite flat_map_concat_map, map_map, <- flat_map_concat_map. apply (IH (fun i => m (S i))). intros i Hi. rewrite <- (H (S i)) by lia. do 2 f_equal. lia.
Qed.
Lemma firstn_range : forall k m a, (k <= m)%nat -> firstn k (zrange a m) = zrange a k.
Proof. induction k as [|k IH]; intros [|m] a Hm; try lia; cbn [firstn zrange]; try reflexivity. f_equal. apply IH. lia. Qed.
Lemma blk_inner : forall r, leaf (Z.of_nat r) = false ->
  map (ent (Z.of_nat r)) (zrange 34 16) = zrange (hoA (2 * (Z.of_nat r - T))) 8 ++ zrange (hoA (2 * (Z.of_nat r - T) + 1)) 8 /\
  map (ent (Z.of_nat r)) (zrange 98 480) = flat_map (firstn 32) (skipn 1 (ranges (hbA (2 * (Z.of_nat r - T))) 8 33) ++ ranges (hbA (2 * (Z.of_nat r - T) + 1)) 8 33).
Proof.
  intros r L. generalize dependent (Z.of_nat r). clear r. intros r L. split.
  - change 16%nat with (8 + 8)%nat. rewrite range_app, map_app. f_equal; apply map_seg; intros q Hq; unfold ent; rewrite L; pick_at; lia.
  - change 480%nat with (32 * 15)%nat. rewrite (ranges_bits _ _ (fun i => if (i <? 7)%nat then hbA (2 * (r - T)) + 33 * Z.of_nat (S i) else hbA (2 * (r - T) + 1) + 33 * Z.of_nat (i - 7))).
    + unfold ranges. cbn [seq map skipn app flat_map Nat.ltb Nat.leb Nat.sub]. rewrite !firstn_range by lia. repeat (f_equal; [f_equal; lia|]). reflexivity.
    + intros i Hi. apply map_seg. intros q Hq. unfold ent. rewrite L.
      assert (D : (q - 98) / 32 = Z.of_nat i) by (symmetry; apply (Z.div_unique _ _ _ (q - (98 + 32 * Z.of_nat i))); lia).
      assert (M : (q - 98) mod 32 = q - (98 + 32 * Z.of_nat i)) by (symmetry; apply (Z.mod_unique _ _ (Z.of_nat i)); lia).
      rewrite D, M. cbv zeta. pick_at. destruct (Nat.ltb_spec i 7) as [Q|Q].
      * rewrite (proj2 (Z.ltb_lt (Z.of_nat i + 1) 8)) by lia. lia.
      * rewrite (proj2 (Z.ltb_ge (Z.of_nat i + 1) 8)) by lia. lia.
Qed.
Lemma concat_ranges : forall m k a, concat (map (fun i => zrange (a + Z.of_nat m * Z.of_nat i) m) (seq 0 k)) = zrange a (k * m).
Proof.
  intros m k. induction k as [|k IH]; intros a; [reflexivity|]. cbn [seq map concat Nat.mul]. rewrite range_app. f_equal; [f_equal; lia|].
  rewrite <- seq_shift, map_map, <- IH. f_equal. apply map_ext. intros i. f_equal. lia.
Qed.

(** ** The loop *)
Definition start (l : nat) : nat := (2 ^ (n + 1) - 2 ^ (n + 1 - l))%nat.
Definition layerf {A} (f : nat -> A) (l : nat) : list A := map f (seq (start l) (2 ^ (n - l))).
Definition at_layer (l i : nat) : mst :=
  MSt l i (map (layerf houtf) (seq 0 l)) (map houtf (seq (start l) i)) (map (layerf hbf) (seq 0 l)) (map hbf (seq (start l) i)) (map blk (seq 0 (start l + i))).
Lemma pow_step : forall l, (l < n)%nat -> (2 ^ (n - l) = 2 * 2 ^ (n - S l))%nat /\ (2 ^ (n + 1 - l) = 2 * 2 ^ (n - l))%nat.
Proof. intros l Hl. split; [replace (n - l)%nat with (S (n - S l)) by lia; reflexivity|replace (n + 1 - l)%nat with (S (n - l)) by lia; reflexivity]. Qed.
Lemma pow_step' : forall l, (l <= n)%nat -> (2 ^ (n + 1 - l) = 2 * 2 ^ (n - l))%nat.
Proof. intros l Hl. replace (n + 1 - l)%nat with (S (n - l)) by lia; reflexivity. Qed.
Lemma pow_le : forall l, (l <= n)%nat -> (2 ^ (n - l) <= 2 ^ n)%nat /\ (1 <= 2 ^ (n - l))%nat.
Proof. intros l Hl. split; [apply Nat.pow_le_mono_r; lia|]. pose proof (Nat.pow_nonzero 2 (n - l) ltac:(lia)). lia. Qed.
Lemma start_0 : start 0 = 0%nat.
Proof. unfold start. rewrite Nat.sub_0_r. lia. Qed.
Lemma start_S : forall l, (l < n)%nat -> start (S l) = (start l + 2 ^ (n - l))%nat.
Proof.
  intros l Hl. unfold start. pose proof (pow_step' l ltac:(lia)) as A. replace (n + 1 - S l)%nat with (n - l)%nat by lia. pose proof (pow_le l ltac:(lia)) as B. pose proof (pow_step' 0 ltac:(lia)) as C. rewrite !Nat.sub_0_r in C. lia.
Qed.
Lemma start_Z : forall l, (l <= n)%nat -> Z.of_nat (start l) = 2 * T - 2 * Z.of_nat (2 ^ (n - l)).
Proof.
  intros l Hl. unfold start, T. pose proof (pow_step' l ltac:(lia)) as A. pose proof (pow_le l ltac:(lia)) as B. pose proof (pow_step' 0 ltac:(lia)) as C. rewrite !Nat.sub_0_r in C. lia.
Qed.
Lemma rd_map_seq : forall A (f : nat -> A) a m i, (i < m)%nat -> rd (map f (seq a m)) i = Ok (f (a + i)%nat).
Proof. intros A f a m i Hi. unfold rd. rewrite nth_error_map, (nth_error_nth' _ O) by (rewrite seq_length; exact Hi). rewrite seq_nth by exact Hi. reflexivity. Qed.
Lemma map_snoc : forall A (f : nat -> A) a m, map f (seq a m) ++ [f (a + m)%nat] = map f (seq a (S m)).
Proof. intros A f a m. rewrite seq_S, map_app. reflexivity. Qed.
Lemma body_ok : forall l i, (l <= n)%nat -> (i < 2 ^ (n - l))%nat ->
  let r := (start l + i)%nat in
  forall s0, enter n s0 = at_layer l i -> al (merkle_block n (zrange 34 64) (zrange 98 8) (zrange 106 192) (zrange 298 8) nb r s0) (base (Z.of_nat r)) (at_layer l (S i)) (nextA (Z.of_nat r)).
Proof.
  intros l i Hl Hi r s0 E. pose proof T_pos as TP. pose proof (start_Z l Hl) as SZ. pose proof nb_T as NB. pose proof (pow_le l Hl) as PL. fold T in *.
  assert (LB : (r =? nb - 1)%nat = lastb (Z.of_nat r)).
  { unfold lastb. destruct (Nat.eqb_spec r (nb - 1)) as [Q|Q]; symmetry; [apply Z.eqb_eq; lia|apply Z.eqb_neq; lia]. }
  unfold merkle_block. rewrite E, LB.
  assert (RT : 0 <= Z.of_nat r <= 2 * T - 2) by lia.
  assert (LL : leaf (Z.of_nat r) = match l with O => true | _ => false end).
  { unfold leaf. destruct l as [|l].
    - pose proof start_0. apply Z.ltb_lt. subst r. unfold T. rewrite Nat.sub_0_r in Hi. lia.
    - apply Z.ltb_ge. subst r. destruct (pow_step l ltac:(lia)) as (P1 & _). destruct (pow_le l ltac:(lia)) as (P2 & _). unfold T in *. lia. }
  assert (RZ : Z.of_nat r = Z.of_nat (start l) + Z.of_nat i) by (unfold r; lia).
  pose proof (blk_leaf r) as BL. pose proof (blk_inner r) as BN. set (rz := Z.of_nat r) in *. cbv zeta.
  assert (LF : leaf rz = true -> lastb rz = false) by (unfold leaf, lastb; intros Q; apply Z.ltb_lt in Q; apply Z.eqb_neq; lia).
  (* the sixteen words *)
  eapply al_bind.
  { instantiate (1 := base rz + if leaf rz then 16 else 0). instantiate (1 := map (ent rz) (zrange 34 16)). unfold block_words. cbn [at_layer m_layer m_hout m_idx]. destruct l as [|l].
    - rewrite (proj1 (BL LL)). rewrite LL. apply al_alloc.
    - rewrite (proj1 (BN LL)). rewrite LL. destruct (pow_step l ltac:(lia)) as (P1 & _). pose proof (start_Z l ltac:(lia)) as SZ'.
      replace (base rz + 0) with (base rz) by lia.
      eapply al_bind; [apply al_lift; apply rd_map_seq; lia|]. rewrite Nat.add_0_l. unfold layerf.
      eapply al_bind; [apply al_lift; apply rd_map_seq; lia|]. eapply al_bind; [apply al_lift; apply rd_map_seq; lia|].
      unfold houtf. replace (Z.of_nat (start l + 2 * i)) with (2 * (rz - T)) by lia. replace (Z.of_nat (start l + (2 * i + 1))) with (2 * (rz - T) + 1) by lia.
      unfold lastb. rewrite (proj2 (Z.eqb_neq (2 * (rz - T)) _)) by lia. rewrite (proj2 (Z.eqb_neq (2 * (rz - T) + 1) _)) by lia. apply al_ret. }
  eapply al_bind; [apply al_alloc|].
  (* their bits *)
  eapply al_bind.
  { instantiate (1 := base rz + if leaf rz then 544 else 48). instantiate (1 := map (ent rz) (zrange 98 480)). unfold block_bits. cbn [at_layer m_layer m_bits m_idx]. destruct l as [|l].
    - rewrite (proj2 (BL LL)). rewrite LL. change (15 * 32)%nat with 480%nat. change (Z.of_nat 48) with 48. replace (base rz + 16 + 48) with (base rz + 64) by lia.
      eapply al_to; [apply al_alloc|lia].
    - rewrite (proj2 (BN LL)). rewrite LL. destruct (pow_step l ltac:(lia)) as (P1 & _). pose proof (start_Z l ltac:(lia)) as SZ'.
      change (Z.of_nat 48) with 48. replace (base rz + 0 + 48) with (base rz + 48) by lia.
      eapply al_bind; [apply al_lift; apply rd_map_seq; lia|]. rewrite Nat.add_0_l. unfold layerf.
      eapply al_bind; [apply al_lift; apply rd_map_seq; lia|]. eapply al_bind; [apply al_lift; apply rd_map_seq; lia|].
      unfold hbf. replace (Z.of_nat (start l + 2 * i)) with (2 * (rz - T)) by lia. replace (Z.of_nat (start l + (2 * i + 1))) with (2 * (rz - T) + 1) by lia. apply al_ret. }
  eapply al_bind; [apply al_alloc|]. change (Z.of_nat (48 * 34)) with 1632. change (48 * 34)%nat with 1632%nat.
  eapply al_bind.
  { instantiate (1 := hbA rz). instantiate (1 := houtf r). unfold houtf. fold rz. unfold hbA. destruct (lastb rz) eqn:LE.
    - assert (LN : leaf rz = false) by (destruct (leaf rz) eqn:LN; [specialize (LF eq_refl); congruence|reflexivity]). rewrite LN.
      apply al_at with (v := base rz + 1680); [|lia]. eapply al_to; [apply al_ret|lia].
    - unfold hoA. rewrite LE. apply al_at with (v := base rz + if leaf rz then 2176 else 1680); [|destruct (leaf rz); lia]. eapply al_to; [apply al_alloc|destruct (leaf rz); lia]. }
  eapply al_bind; [apply al_allocs|]. change (Z.of_nat 33 * Z.of_nat 8) with 264.
  eapply al_bind; [apply al_alloc|]. change (35 * 64 * 2)%nat with 4480%nat. change (Z.of_nat 4480) with 4480. fold (aeA rz). unfold nextA.
  match goal with |- al (gret ?x) _ ?y _ => replace x with y; [apply al_ret|] end.
  cbn [at_layer m_layer m_idx m_hout m_hout_lay m_bits m_bits_lay m_blocks]. unfold at_layer. fold r. replace (start l + S i)%nat with (S r) by lia.
  rewrite <- (map_snoc _ houtf (start l) i), <- (map_snoc _ hbf (start l) i), <- (map_snoc _ blk 0 r). fold r. rewrite Nat.add_0_l.
  assert (EB : blk r = zrange 0 34 ++ map (ent rz) (zrange 34 16) ++ zrange (base rz + (if leaf rz then 16 else 0)) 48 ++ map (ent rz) (zrange 98 480) ++ zrange (base rz + (if leaf rz then 544 else 48)) 1632 ++
     zrange 34 64 ++ zrange 98 8 ++ (if lastb rz then zrange 298 8 else houtf r) ++ concat (ranges (hbA rz) 8 33) ++ zrange 106 192 ++ zrange (aeA rz) 4480).
  { rewrite blk_split. fold rz. unfold ranges. rewrite concat_ranges. change (8 * 33)%nat with 264%nat. replace (if lastb rz then zrange 298 8 else houtf r) with (zrange (hoA rz) 8); [reflexivity|].
    unfold houtf. fold rz. unfold hoA. destruct (lastb rz); reflexivity. }
  rewrite EB. reflexivity.
Qed.
Lemma enter_ok : forall l i, (l <= n)%nat -> (i <= 2 ^ (n - l))%nat -> (start l + i < nb)%nat ->
  exists l' i', (l' <= n)%nat /\ (i' < 2 ^ (n - l'))%nat /\ (start l' + i' = start l + i)%nat /\ enter n (at_layer l i) = at_layer l' i'.
Proof.
  intros l i Hl Hi Hr. pose proof T_pos as TP. pose proof nb_T as NB. pose proof (start_Z l Hl) as SZ. unfold enter. cbn [at_layer m_idx m_layer]. destruct (Nat.eqb_spec i (2 ^ (n - l))) as [Q|Q].
  - assert (LN : (l < n)%nat). { destruct (Nat.eq_dec l n) as [->|N]; [|lia]. rewrite Nat.sub_diag in *. cbn [Nat.pow] in *. lia. }
    exists (S l), 0%nat. pose proof (start_S l LN) as SS. pose proof (pow_le (S l) ltac:(lia)) as PL. split; [lia|]. split; [lia|]. split; [lia|].
    unfold at_layer. cbn [m_hout m_hout_lay m_bits m_bits_lay m_blocks]. subst i. rewrite SS, Nat.add_0_r. rewrite <- (map_snoc _ (layerf houtf) 0 l), <- (map_snoc _ (layerf hbf) 0 l), Nat.add_0_l. cbn [seq map]. reflexivity.
  - exists l, i. split; [exact Hl|]. split; [lia|]. split; reflexivity.
Qed.
Lemma next_base : forall r, 0 <= r < 2 * T - 2 -> nextA r = base (r + 1).
Proof.
  intros r Hr. pose proof T_pos as TP. unfold nextA, aeA, hbA, base, lastb, leaf. rewrite (proj2 (Z.eqb_neq r _)) by lia.
  destruct (Z.ltb_spec r T); destruct (Z.ltb_spec (r + 1) T); lia.
Qed.
Definition vend : Z := nextA (2 * T - 2).
Lemma gfor_S : forall (S' : Type) k r (f : nat -> S' -> gen S') s, gfor (S k) r f s = gbind (f r s) (fun s => gfor k (S r) f s).
Proof. reflexivity. Qed.
Lemma loop_ok : forall k r l i, (l <= n)%nat -> (i <= 2 ^ (n - l))%nat -> r = (start l + i)%nat -> (r + S k = nb)%nat ->
  exists s, al (gfor (S k) r (merkle_block n (zrange 34 64) (zrange 98 8) (zrange 106 192) (zrange 298 8) nb) (at_layer l i)) (base (Z.of_nat r)) s vend /\ m_blocks s = map blk (seq 0 nb).
Proof.
  pose proof T_pos as TP. pose proof nb_T as NB. induction k as [|k IH]; intros r l i Hl Hi -> Hk.
  - destruct (enter_ok l i Hl Hi ltac:(lia)) as (l' & i' & Hl' & Hi' & ER & EE). rewrite <- ER in *. exists (at_layer l' (S i')). split.
    + cbn [gfor]. eapply al_bind; [apply body_ok; [exact Hl'|exact Hi'|exact EE]|]. replace (Z.of_nat (start l' + i')) with (2 * T - 2) by lia. apply al_ret.
    + unfold at_layer. cbn [m_blocks]. f_equal. f_equal. lia.
  - destruct (enter_ok l i Hl Hi ltac:(lia)) as (l' & i' & Hl' & Hi' & ER & EE). rewrite <- ER in *.
    destruct (IH (S (start l' + i')) l' (S i') Hl' ltac:(lia) ltac:(lia) ltac:(lia)) as (s & A & B). exists s. split; [|exact B].
    rewrite gfor_S. eapply al_bind; [apply body_ok; [exact Hl'|exact Hi'|exact EE]|]. cbv beta. rewrite next_base by lia.
    replace (Z.of_nat (start l' + i') + 1) with (Z.of_nat (S (start l' + i'))) by lia. exact A.
Qed.
Definition inv : list Z := zrange 34 (Z.to_nat (vend - 34)).
Definition bl (r : nat) : nat := Nat.min r (nb - 1).
Definition all : list Z := concat (map (fun r => blk (bl r)) (seq 0 (S nb))).
Lemma blocks_ok : al (merkle_blocks n) 34 (map blk (seq 0 nb)) vend.
Proof.
  pose proof T_pos as TP. pose proof nb_T as NB. unfold merkle_blocks. fold nb.
  eapply al_bind; [apply al_alloc1s|]. change (34 + Z.of_nat 64) with 98. eapply al_bind; [apply al_alloc1s|]. change (98 + Z.of_nat 8) with 106. eapply al_bind; [apply al_alloc|]. change (106 + Z.of_nat (6 * 32)) with 298. change (6 * 32)%nat with 192%nat.
  eapply al_bind; [apply al_alloc1s|]. change (298 + Z.of_nat 8) with 306.
  destruct (loop_ok (nb - 1) 0 0 0 ltac:(lia) ltac:(lia)) as (s & A & B); [rewrite start_0; reflexivity|lia|].
  replace (S (nb - 1)) with nb in A by lia. assert (E0 : at_layer 0 0 = MSt 0 0 [] [] [] [] []) by (unfold at_layer; rewrite start_0; reflexivity). rewrite E0 in A.
  assert (B0 : base (Z.of_nat 0) = 306) by (unfold base, leaf; rewrite (proj2 (Z.ltb_lt _ _)) by lia; lia). rewrite B0 in A.
  eapply al_bind; [exact A|]. rewrite <- B. apply al_ret.
Qed.
Lemma blk_length : forall r, length (blk r) = size.
Proof. intros r. unfold blk. rewrite map_length. apply range_length. Qed.
Lemma all_blocks : map blk (seq 0 nb) ++ [blk (nb - 1)] = map (fun r => blk (bl r)) (seq 0 (S nb)).
Proof.
  pose proof T_pos as TP. pose proof nb_T as NB. rewrite seq_S, map_app. cbn [map]. f_equal; [|unfold bl; do 2 f_equal; lia]. apply map_ext_in. intros r Hr. apply in_seq in Hr. unfold bl. f_equal. lia.
Qed.
Lemma merkle_eq : merkle n = Ok (merkle_file inv vend all).
Proof.
  pose proof T_pos as TP. pose proof nb_T as NB. unfold merkle. rewrite (proj2 (Nat.ltb_lt 0 n) Hn). cbn [assert_ bind]. rewrite (proj2 blocks_ok). cbn [bind].
  rewrite map_length, seq_length, rd_map_seq by lia. rewrite Nat.add_0_l. cbn [bind]. rewrite all_blocks.
  rewrite (proj2 (forallb_forall _ _)); [reflexivity|]. intros b Hb. apply in_map_iff in Hb. destruct Hb as (r & <- & _). rewrite blk_length. unfold size. rewrite Z2Nat.id by lia. reflexivity.
Qed.
(** ** Entries *)
Lemma concat_at : forall A (f : nat -> list A) s m a r q x, (forall r, length (f r) = s) -> (r < m)%nat -> nth_error (f (a + r)%nat) q = Some x -> nth_error (concat (map f (seq a m))) (r * s + q) = Some x.
Proof.
  intros A f s m. induction m as [|m IH]; intros a r q x HL Hr Hx; [lia|]. cbn [seq map concat]. destruct r as [|r].
  - rewrite Nat.add_0_r in Hx. rewrite nth_error_app1; [exact Hx|]. cbn [Nat.mul Nat.add]. apply nth_error_Some. rewrite Hx. discriminate.
  - rewrite nth_error_app2; rewrite HL; [|cbn [Nat.mul]; lia]. replace (S r * s + q - s)%nat with (r * s + q)%nat by (cbn [Nat.mul]; lia). apply IH; [exact HL|lia|]. rewrite <- Hx. do 2 f_equal. lia.
Qed.
Lemma concat_length_eq : forall A (f : nat -> list A) s m a, (forall r, length (f r) = s) -> length (concat (map f (seq a m))) = (m * s)%nat.
Proof. intros A f s m. induction m as [|m IH]; intros a HL; [reflexivity|]. cbn [seq map concat]. rewrite app_length, HL, IH by exact HL. cbn [Nat.mul]. reflexivity. Qed.
Lemma all_length : length all = (2 ^ (n + 1) * size)%nat.
Proof. unfold all. rewrite (concat_length_eq _ _ size); [|intros r; apply blk_length]. f_equal. unfold nb. pose proof (Nat.pow_nonzero 2 (n + 1) ltac:(lia)). lia. Qed.
Lemma all_at : forall r q, (r <= nb)%nat -> 0 <= q < 7226 -> nth_error all (r * size + Z.to_nat q) = Some (ent (Z.of_nat (bl r)) q).
Proof.
  intros r q Hr Hq. unfold all. apply concat_at; [intros; apply blk_length|lia|]. rewrite Nat.add_0_l. unfold blk. rewrite nth_error_map, range_at by (unfold size; lia). cbn [option_map]. do 2 f_equal. lia.
Qed.
Lemma ent_range : forall r q, 0 <= r <= 2 * T - 2 -> 0 <= q < 7226 -> 0 <= ent r q < vend.
Proof.
  intros r q Hr Hq. pose proof T_pos as TP.
  assert (VE : vend = 306 + 6928 * T + 6432 * (T - 2) + 6424).
  { unfold vend, nextA, aeA, hbA, base, lastb, leaf. rewrite Z.eqb_refl. destruct (Z.ltb_spec (2 * T - 2) T); lia. }
  assert (BB : forall x, 0 <= x <= 2 * T - 2 -> 306 <= base x /\ (x < 2 * T - 2 -> base x + (if leaf x then 6928 else 6432) <= base (2 * T - 2)) /\ base (2 * T - 2) + 6424 = vend).
  { intros x Hx. rewrite VE. unfold base, leaf. rewrite (proj2 (Z.ltb_ge (2 * T - 2) T)) by lia. destruct (Z.ltb_spec x T); lia. }
  assert (HO : forall x, 0 <= x <= 2 * T - 2 -> 0 <= hoA x /\ hoA x + 8 <= vend).
  { intros x Hx. destruct (BB x Hx) as (B1 & B2 & B3). unfold hoA, lastb. destruct (Z.eqb_spec x (2 * T - 2)); [lia|]. specialize (B2 ltac:(lia)). destruct (leaf x); lia. }
  assert (HB : forall x, 0 <= x <= 2 * T - 2 -> 0 <= hbA x /\ hbA x + 4744 <= vend).
  { intros x Hx. destruct (BB x Hx) as (B1 & B2 & B3). unfold hbA, lastb. destruct (Z.eqb_spec x (2 * T - 2)) as [->|N].
    - unfold leaf. rewrite (proj2 (Z.ltb_ge (2 * T - 2) T)) by lia. lia.
    - specialize (B2 ltac:(lia)). destruct (leaf x); lia. }
  assert (BR : base r + 6424 <= vend).
  { destruct (BB r Hr) as (B1 & B2 & B3). destruct (Z.eq_dec r (2 * T - 2)) as [->|N]; [lia|]. specialize (B2 ltac:(lia)). destruct (leaf r); lia. }
  pose proof (BB r Hr) as (B1 & _). pose proof (HO r Hr) as H1. pose proof (HB r Hr) as H2. assert (V0 : 13000 <= vend) by lia.
  unfold ent, aeA. destruct (leaf r) eqn:L.
  - repeat match goal with |- context [q <? ?y] => destruct (Z.ltb_spec q y) end; lia.
  - unfold leaf in L. apply Z.ltb_ge in L. pose proof (HO (2 * (r - T)) ltac:(lia)) as H3. pose proof (HO (2 * (r - T) + 1) ltac:(lia)) as H4. pose proof (HB (2 * (r - T)) ltac:(lia)) as H5. pose proof (HB (2 * (r - T) + 1) ltac:(lia)) as H6.
    repeat match goal with |- context [q <? ?y] => destruct (Z.ltb_spec q y) end; try lia.
    assert (D : 0 <= (q - 98) / 32 < 15) by (split; [apply Z.div_pos; lia|apply Z.div_lt_upper_bound; lia]). pose proof (Z.mod_pos_bound (q - 98) 32 ltac:(lia)) as M. cbv zeta.
    destruct (Z.ltb_spec ((q - 98) / 32 + 1) 8); lia.
Qed.
Lemma vend_eq : vend = 13360 * T - 6134.
Proof. pose proof T_pos as TP. unfold vend, nextA, aeA, hbA, base, lastb, leaf. rewrite Z.eqb_refl. destruct (Z.ltb_spec (2 * T - 2) T); lia. Qed.
Lemma all_range : forall x, In x all -> 0 <= x < vend.
Proof.
  intros x Hx. pose proof T_pos as TP. pose proof nb_T as NB. unfold all in Hx. apply in_concat in Hx. destruct Hx as (b & Hb & Hx). apply in_map_iff in Hb. destruct Hb as (r & <- & Hr). unfold blk in Hx. apply in_map_iff in Hx. destruct Hx as (q & <- & Hq).
  apply in_range in Hq. apply ent_range; [unfold bl; lia|unfold size in Hq; lia].
Qed.
End Tree.

(** ** The file *)
Section File.
Context (m : nat) (al : list Z).
Notation N := (length al).
Notation v := (34 + Z.of_nat m).
Notation w := (merkle_file (zrange 34 m) v al).
Context (AR : forall x, In x al -> 0 <= x < v).
Lemma combine_fst : forall A B (C : Type) (f : A -> C) (a : list A) (b : list B), length a = length b -> map (fun '(x, _) => f x) (combine a b) = map f a.
Proof. intros A B C f a. induction a as [|x a IH]; intros [|y b] H; try discriminate H; [reflexivity|]. cbn [combine map]. f_equal. apply IH. injection H as H. exact H. Qed.
Lemma combine_snd : forall A B (C : Type) (f : B -> C) (a : list A) (b : list B), length a = length b -> map (fun '(_, y) => f y) (combine a b) = map f b.
Proof. intros A B C f a. induction a as [|x a IH]; intros [|y b] H; try discriminate H; [reflexivity|]. cbn [combine map]. f_equal. apply IH. injection H as H. exact H. Qed.
Lemma flat_map_one : forall A B (f : A -> list B) g l, (forall x, In x l -> f x = [g x]) -> flat_map f l = map g l.
Proof. intros A B f g l H. induction l as [|x l IH]; [reflexivity|]. cbn [flat_map map]. rewrite H by (left; reflexivity). cbn [app]. f_equal. apply IH. intros y Hy. apply H. right. exact Hy. Qed.
Lemma flat_map_none : forall A B (f : A -> list B) l, (forall x, In x l -> f x = []) -> flat_map f l = [].
Proof. intros A B f l H. induction l as [|x l IH]; [reflexivity|]. cbn [flat_map]. rewrite H by (left; reflexivity). apply IH. intros y Hy. apply H. right. exact Hy. Qed.
Lemma flat_map_map : forall A B C (f : B -> list C) (g : A -> B) l, flat_map f (map g l) = flat_map (fun x => f (g x)) l.
Proof. intros A B C f g l. induction l as [|x l IH]; [reflexivity|]. cbn [map flat_map]. rewrite IH. reflexivity. Qed.
Lemma file_map : forall (C : Type) (f : rstmt -> list C), flat_map f w = flat_map (fun i => f (RConst i (if i =? 0 then 0 else 4 * 2 ^ (i - 1)))) (zrange 0 34) ++ flat_map (fun '(x, i) => f (RIn x i)) (combine (zrange 34 m) (zrange 34 m)) ++
  flat_map (fun '(x, t) => f (RPass t x x)) (combine al (zrange v N)) ++ flat_map (fun '(t, o) => f (ROut o t)) (combine (zrange v N) (zrange v N)).
Proof.
  intros C f. unfold merkle_file. cbn [flat_map]. rewrite !flat_map_app, !flat_map_map, !range_length. change (zrange 0 34) with (0 :: zrange 1 33). cbn [flat_map]. change (0 =? 0) with true. cbv iota. rewrite <- !app_assoc.
  assert (E : forall A B (g h : A -> list B) l, (forall x, In x l -> g x = h x) -> flat_map g l = flat_map h l).
  { intros A B g h l H. rewrite !flat_map_concat_map. f_equal. apply map_ext_in. exact H. }
  apply f_equal2; [reflexivity|]. apply f_equal2; [apply E; intros x Hx; apply in_range in Hx; rewrite (proj2 (Z.eqb_neq x 0)) by lia; reflexivity|].
  apply f_equal2; [apply E; intros (x & y) _; reflexivity|]. apply f_equal2; apply E; intros (x & y) _; reflexivity.
Qed.
Lemma snd_range : forall A a (l : list A), map (fun '(_, t) => t) (combine l (zrange a (length l))) = zrange a (length l).
Proof. intros A a l. rewrite (combine_snd _ _ _ (fun y => y)) by (rewrite range_length; reflexivity). apply map_id. Qed.
Lemma rr_range : forall a k, map (fun '(t, _) => t) (combine (zrange a k) (zrange a k)) = zrange a k /\ map (fun '(_, t) => t) (combine (zrange a k) (zrange a k)) = zrange a k.
Proof. intros a k. rewrite (combine_fst _ _ _ (fun y => y)), (combine_snd _ _ _ (fun y => y)) by reflexivity. rewrite map_id. split; reflexivity. Qed.
Lemma file_targets : flat_map rtarget w = zrange 0 (34 + m + N).
Proof.
  rewrite file_map. rewrite (flat_map_one _ _ _ (fun x => x)) by reflexivity. rewrite (flat_map_one _ _ _ (fun '(t, _) => t)) by (intros (? & ?) _; reflexivity). rewrite (flat_map_one _ _ _ (fun '(_, t) => t)) by (intros (? & ?) _; reflexivity).
  rewrite flat_map_none by (intros (? & ?) _; reflexivity). rewrite app_nil_r, map_id, (proj1 (rr_range _ _)), snd_range. rewrite !range_app. rewrite <- app_assoc. replace (0 + Z.of_nat (34 + m)) with v by lia. reflexivity.
Qed.
Lemma file_sources : sources w = zrange 0 (34 + m).
Proof.
  unfold sources. rewrite file_map. rewrite (flat_map_one _ _ _ (fun x => x)) by reflexivity. rewrite (flat_map_one _ _ _ (fun '(t, _) => t)) by (intros (? & ?) _; reflexivity).
  rewrite !flat_map_none by (intros (? & ?) _; reflexivity). rewrite !app_nil_r, map_id, (proj1 (rr_range _ _)), range_app. reflexivity.
Qed.
Lemma file_nums : out_nums w = zrange v N.
Proof.
  unfold out_nums. rewrite file_map. rewrite (flat_map_none _ _ _ (zrange 0 34)) by reflexivity. rewrite 2!flat_map_none by (intros (? & ?) _; reflexivity). rewrite (flat_map_one _ _ _ (fun '(_, t) => t)) by (intros (? & ?) _; reflexivity). apply rr_range.
Qed.
Lemma file_vars : out_vars w = zrange v N.
Proof.
  unfold out_vars. rewrite file_map. rewrite (flat_map_none _ _ _ (zrange 0 34)) by reflexivity. rewrite 2!flat_map_none by (intros (? & ?) _; reflexivity). rewrite (flat_map_one _ _ _ (fun '(t, _) => t)) by (intros (? & ?) _; reflexivity). apply rr_range.
Qed.
Lemma range_NoDup : forall k a, NoDup (zrange a k).
Proof. induction k as [|k IH]; intros a; cbn [zrange]; constructor; [|apply IH]. rewrite in_range. lia. Qed.
Lemma combine_nth_error : forall (A B : Type) (a : list A) (b : list B) k x y, nth_error a k = Some x -> nth_error b k = Some y -> nth_error (combine a b) k = Some (x, y).
Proof. intros A B a. induction a as [|x0 a IH]; intros [|y0 b] [|k] x y H1 H2; try discriminate; cbn in *; [congruence|]. apply IH; assumption. Qed.
Lemma combine_nth_inv : forall (A B : Type) (a : list A) (b : list B) x y, In (x, y) (combine a b) -> exists k, nth_error a k = Some x /\ nth_error b k = Some y.
Proof. intros A B a. induction a as [|x0 a IH]; intros [|y0 b] x y H; cbn [combine In] in H; try contradiction. destruct H as [H|H]; [injection H as <- <-; exists O; split; reflexivity|]. destruct (IH b x y H) as (k & K1 & K2). exists (S k). split; assumption. Qed.
(** The statements of the file *)
Lemma file_in : forall s, In s w <-> (exists i, s = RConst i (if i =? 0 then 0 else 4 * 2 ^ (i - 1)) /\ 0 <= i < 34) \/ (exists x, s = RIn x x /\ 34 <= x < v) \/
  (exists k x, s = RPass (v + Z.of_nat k) x x /\ nth_error al k = Some x) \/ (exists o, s = ROut o o /\ v <= o < v + Z.of_nat N).
Proof.
  intros s. assert (E : In s w <-> In s (flat_map (fun s => [s]) w)) by (rewrite (flat_map_one _ _ _ (fun x => x)), map_id by reflexivity; reflexivity). rewrite E, file_map. clear E.
  rewrite !in_app_iff, !in_flat_map. split.
  - intros [(i & Hi & [<-|[]])|[((x & i) & Hi & [<-|[]])|[((x & t) & Hi & [<-|[]])|((t & o) & Hi & [<-|[]])]]].
    + left. exists i. apply in_range in Hi. split; [reflexivity|lia].
    + right; left. apply combine_nth_inv in Hi. destruct Hi as (k & K1 & K2). apply nth_range in K1, K2. exists x. split; [f_equal; lia|lia].
    + right; right; left. apply combine_nth_inv in Hi. destruct Hi as (k & K1 & K2). apply nth_range in K2. exists k, x. destruct K2 as (_ & ->). split; [reflexivity|exact K1].
    + right; right; right. apply combine_nth_inv in Hi. destruct Hi as (k & K1 & K2). apply nth_range in K1, K2. exists o. split; [f_equal; lia|lia].
  - intros [(i & -> & Hi)|[(x & -> & Hx)|[(k & x & -> & Hk)|(o & -> & Ho)]]].
    + left. exists i. split; [apply in_range; lia|left; reflexivity].
    + right; left. exists (x, x). split; [|left; reflexivity]. apply nth_error_In with (n := Z.to_nat (x - 34)). apply combine_nth_error; rewrite range_at by lia; f_equal; lia.
    + right; right; left. exists (x, v + Z.of_nat k). split; [|left; reflexivity]. apply nth_error_In with (n := k). apply combine_nth_error; [exact Hk|]. apply range_at. apply nth_error_Some. rewrite Hk. discriminate.
    + right; right; right. exists (o, o). split; [|left; reflexivity]. apply nth_error_In with (n := Z.to_nat (o - v)). apply combine_nth_error; rewrite range_at by lia; f_equal; lia.
Qed.
Lemma file_routes : forall q s, routes w q s <-> 0 <= q /\ nth_error al (Z.to_nat q) = Some s.
Proof.
  intros q s. split.
  - intros (m0 & o & v0 & b & (M1 & M2) & H1 & H2 & H3). rewrite file_nums, in_range in M1. apply file_in in H1, H3.
    destruct H1 as [(? & H1 & _)|[(? & H1 & _)|[(? & ? & H1 & _)|(o' & H1 & HO)]]]; try discriminate H1. injection H1 as -> ->.
    destruct H3 as [(? & H3 & _)|[(? & H3 & _)|[(k & x & H3 & HK)|(? & H3 & _)]]]; try discriminate H3. pose proof (f_equal (fun s => match s with RPass t _ _ => t | _ => 0 end) H3) as E. pose proof (f_equal (fun s => match s with RPass _ t _ => t | _ => 0 end) H3) as Es. cbv beta iota in E, Es. subst x. clear H3.
    assert (M3 : m0 <= v) by (apply M2; rewrite file_nums, in_range; lia). split; [lia|]. assert (EK : Z.to_nat q = k) by (rewrite <- H2, E; lia). rewrite EK. exact HK.
  - intros (Hq & HK). assert (L : (Z.to_nat q < N)%nat) by (apply nth_error_Some; rewrite HK; discriminate). exists v, (v + q), (v + q), s. split; [split; [rewrite file_nums, in_range; lia|intros y Hy; rewrite file_nums, in_range in Hy; lia]|].
    split; [apply file_in; right; right; right; exists (v + q); split; [reflexivity|lia]|]. split; [lia|]. apply file_in. right; right; left. exists (Z.to_nat q), s. split; [f_equal; lia|exact HK].
Qed.
Lemma pow_is_ll : forall i, 0 <= i < 34 -> is_ll (if i =? 0 then 0 else 4 * 2 ^ (i - 1)).
Proof.
  intros i Hi. destruct (Z.eqb_spec i 0); [unfold is_ll; lia|]. assert (0 <= 2 ^ (i - 1) <= 2 ^ 32) by (split; [apply Z.pow_nonneg; lia|apply Z.pow_le_mono_r; lia]). unfold is_ll. lia.
Qed.
Lemma file_ok : v + Z.of_nat N <= 1061109567 -> wiring_ok w.
Proof.
  intros HB. unfold wiring_ok. rewrite file_targets, file_nums, file_vars. split; [apply range_NoDup|]. split; [apply range_NoDup|]. split; [apply range_NoDup|].
  intros s Hs. apply file_in in Hs. destruct Hs as [(i & -> & Hi)|[(x & -> & Hx)|[(k & x & -> & Hk)|(o & -> & Ho)]]].
  - apply pow_is_ll. exact Hi.
  - exact I.
  - assert (L : (k < N)%nat) by (apply nth_error_Some; rewrite Hk; discriminate). split; [rewrite in_range; lia|]. rewrite file_sources, in_range. apply nth_error_In in Hk. apply AR in Hk. lia.
  - unfold is_int. lia.
Qed.
Lemma file_regular : v + Z.of_nat N <= 1061109567 -> wiring_regular w.
Proof.
  intros HB. unfold wiring_regular. rewrite file_nums, range_length. split; [intros x y Hx Hy; apply in_range in Hx, Hy; lia|].
  intros s Hs. apply file_in in Hs. unfold is_int. destruct Hs as [(i & -> & Hi)|[(x & -> & Hx)|[(k & x & -> & Hk)|(o & -> & Ho)]]].
  - lia.
  - lia.
  - assert (L : (k < N)%nat) by (apply nth_error_Some; rewrite Hk; discriminate). apply nth_error_In in Hk. apply AR in Hk. lia.
  - destruct (nth_error al (Z.to_nat (o - v))) as [x|] eqn:E; [|apply nth_error_None in E; lia]. exists x, x. apply file_in. right; right; left. exists (Z.to_nat (o - v)), x. split; [f_equal; lia|exact E].
Qed.
End File.
