(** * What the lines written by the generator mean *)
From Coq Require Import ZArith List Bool Arith Lia Ring.
From Verif Require Import Base Fp Program SpecCompiler SpecSha ShaBits ShaGen LoaderProofs CompilerMaps.
Import ListNotations.
Open Scope Z_scope.

Section Values.
Context (val : Z -> F).

(** The result of a generator satisfies [Q], if the values satisfy the lines it writes. *)
Definition tri {A} (m : gen A) (Q : A -> Prop) : Prop := forall v a i l v',
  m v = Ok (a, (i, l), v') -> (forall s, In s l -> holds val s) -> Q a.
Lemma tri_ret : forall A (a : A) (Q : A -> Prop), Q a -> tri (gret a) Q.
Proof. intros A a Q H v x i l v' E _. unfold gret in E. apply Ok_inj in E. injection E as -> _ _ _. exact H. Qed.
Lemma tri_lift : forall A (m : outcome A) (Q : A -> Prop), (forall a, m = Ok a -> Q a) -> tri (glift m) Q.
Proof.
  intros A m Q H v x i l v' E _. unfold glift in E. apply bind_inv in E. destruct E as (a & Ea & E). apply Ok_inj in E. injection E as -> _ _ _. exact (H _ Ea).
Qed.
Lemma tri_rd : forall A (l : list A) i (Q : A -> Prop), (forall x, nth_error l i = Some x -> Q x) -> tri (glift (rd l i)) Q.
Proof. intros A l i Q H. apply tri_lift. intros a E. apply H. apply rd_inv in E. exact E. Qed.
Lemma tri_bind : forall A B (m : gen A) (k : A -> gen B) (R : A -> Prop) Q, tri m R -> (forall a, R a -> tri (k a) Q) -> tri (gbind m k) Q.
Proof.
  intros A B m k R Q Hm Hk v x i l v' E Hl. unfold gbind in E. apply bind_inv in E. destruct E as (((a & i1 & l1) & v1) & Ea & E).
  apply bind_inv in E. destruct E as (((b & i2 & l2) & v2) & Eb & E). apply Ok_inj in E. injection E as -> _ <- _.
  refine (Hk a _ _ _ _ _ _ Eb _).
  - refine (Hm _ _ _ _ _ Ea _). intros s Hs. apply Hl, in_app_iff. left. exact Hs.
  - intros s Hs. apply Hl, in_app_iff. right. exact Hs.
Qed.
Lemma tri_mono : forall A (m : gen A) (R Q : A -> Prop), tri m R -> (forall a, R a -> Q a) -> tri m Q.
Proof. intros A m R Q H HQ v a i l v' E Hl. apply HQ. exact (H _ _ _ _ _ E Hl). Qed.
Lemma tri_emit : forall f (Q : Z -> Prop), (forall t, holds val (f t) -> Q t) -> tri (emit f) Q.
Proof. intros f Q H v a i l v' E Hl. unfold emit in E. apply Ok_inj in E. injection E as <- <- <- _. apply H, Hl. left. reflexivity. Qed.
Lemma tri_map : forall A B (f : A -> gen B) (R : A -> B -> Prop) l, (forall x, In x l -> tri (f x) (R x)) -> tri (gmap f l) (Forall2 R l).
Proof.
  intros A B f R. induction l as [|x l IH]; intros H; cbn [gmap]; [apply tri_ret; constructor|].
  eapply tri_bind; [apply H; left; reflexivity|]. intros y Hy. eapply tri_bind; [apply IH; intros z Hz; apply H; right; exact Hz|].
  intros ys Hys. apply tri_ret. constructor; assumption.
Qed.
Lemma tri_for : forall S (Inv : nat -> S -> Prop) f n start s,
  (forall i s, (start <= i < start + n)%nat -> Inv i s -> tri (f i s) (Inv (Datatypes.S i))) -> Inv start s -> tri (gfor n start f s) (Inv (start + n)%nat).
Proof.
  intros S Inv f. induction n as [|n IH]; intros start s H Hs; cbn [gfor].
  - apply tri_ret. rewrite Nat.add_0_r. exact Hs.
  - eapply tri_bind; [apply H; [lia|exact Hs]|]. intros s' Hs'. replace (start + Datatypes.S n)%nat with (Datatypes.S start + n)%nat by lia.
    apply IH; [intros i t Hi; apply H; lia|exact Hs'].
Qed.

(** ** Bits *)
Lemma map2_vals : forall (o : opname) xs ys, tri (gmap (fun '(x, y) => emit (fun t => Op o t x y)) (combine xs ys))
  (fun os => map val os = map (fun '(a, b) => op_val o a b) (combine (map val xs) (map val ys))).
Proof.
  intros o xs ys. eapply tri_mono.
  - apply (tri_map _ _ _ (fun '(x, y) z => val z = op_val o (val x) (val y))). intros (x & y) _. apply tri_emit. intros t H. exact H.
  - intros os H. revert ys os H. induction xs as [|x xs IH]; intros [|y ys] os H; cbn [combine map] in *; try (inversion H; reflexivity).
    inversion H as [|p o0 l os' H1 H2]; subst. cbn [map]. rewrite H1. f_equal. exact (IH _ _ H2).
Qed.
Definition bitv (l : list Z) (bl : list bool) : Prop := map val l = map ind bl.
Lemma bitv_map2 : forall o f xs ys bx by_, (forall a b, op_val o (ind a) (ind b) = ind (f a b)) -> bitv xs bx -> bitv ys by_ ->
  tri (gmap (fun '(x, y) => emit (fun t => Op o t x y)) (combine xs ys)) (fun os => bitv os (map2 f bx by_)).
Proof.
  intros o f xs ys bx by_ Hf Hx Hy. eapply tri_mono; [apply map2_vals|]. intros os H. unfold bitv in *. cbn beta in H. rewrite H, Hx, Hy. unfold map2. clear -Hf.
  revert by_. induction bx as [|a bx IH]; intros [|b by_]; cbn [combine map]; try reflexivity. rewrite Hf, IH. reflexivity.
Qed.
Lemma xor_bit : forall a b, op_val OXor (ind a) (ind b) = ind (xorb a b).
Proof. intros [] []; cbn [op_val ind xorb]; ring. Qed.
Lemma mul_bit : forall a b, op_val OMul (ind a) (ind b) = ind (andb a b).
Proof. intros [] []; cbn [op_val ind andb]; ring. Qed.
Lemma naab_bit : forall a b, op_val ONaab (ind a) (ind b) = ind (naab a b).
Proof. intros [] []; cbn [op_val ind naab negb andb]; ring. Qed.
Lemma tri_xors : forall x y z bx by_ bz, bitv x bx -> bitv y by_ -> bitv z bz -> tri (write_xors x y z) (fun o => bitv o (xor3 bx by_ bz)).
Proof.
  intros x y z bx by_ bz Hx Hy Hz. unfold write_xors. eapply tri_bind; [apply (bitv_map2 OXor xorb); [exact xor_bit|exact Hx|exact Hy]|].
  intros p Hp. apply (bitv_map2 OXor xorb); [exact xor_bit|exact Hp|exact Hz].
Qed.
Lemma tri_ch : forall x y z bx by_ bz, bitv x bx -> bitv y by_ -> bitv z bz -> tri (write_ch x y z) (fun o => bitv o (map2 xorb (map2 andb bx by_) (map2 naab bx bz))).
Proof.
  intros x y z bx by_ bz Hx Hy Hz. unfold write_ch. eapply tri_bind; [apply (bitv_map2 OMul andb); [exact mul_bit|exact Hx|exact Hy]|].
  intros p Hp. cbn beta in Hp. eapply tri_bind; [apply (bitv_map2 ONaab naab); [exact naab_bit|exact Hx|exact Hz]|].
  intros q Hq. apply (bitv_map2 OXor xorb); [exact xor_bit|exact Hp|exact Hq].
Qed.
Lemma tri_maj : forall x y z bx by_ bz n, length bx = n -> length by_ = n -> length bz = n ->
  bitv x bx -> bitv y by_ -> bitv z bz -> tri (write_maj x y z) (fun o => bitv o (xor3 (map2 andb bx by_) (map2 andb by_ bz) (map2 andb bx bz))).
Proof.
  intros x y z bx by_ bz n Lx Ly Lz Hx Hy Hz. unfold write_maj. eapply tri_bind.
  - apply (tri_map _ _ _ (fun '(x, y, z) '(p, q, r) => val p = (val x * val y)%F /\ val q = (val y * val z)%F /\ val r = (val x * val z)%F)).
    intros ((a & b) & c) _. eapply tri_bind; [apply tri_emit; intros t H; exact H|]. intros p Hp. eapply tri_bind; [apply tri_emit; intros t H; exact H|]. intros q Hq.
    eapply tri_bind; [apply tri_emit; intros t H; exact H|]. intros r Hr. apply tri_ret. exact (conj Hp (conj Hq Hr)).
  - intros l Hl.
    assert (B : bitv (map (fun '(p, q, r) => p) l) (map2 andb bx by_) /\ bitv (map (fun '(p, q, r) => q) l) (map2 andb by_ bz) /\ bitv (map (fun '(p, q, r) => r) l) (map2 andb bx bz)).
    + unfold bitv in *. revert y z bx by_ bz l n Lx Ly Lz Hx Hy Hz Hl. induction x as [|a x IH]; intros [|b y] [|c z] [|ba bx] [|bb by_] [|bc bz] l n Lx Ly Lz Hx Hy Hz Hl;
        try discriminate Hx; try discriminate Hy; try discriminate Hz; cbn [length] in *; try lia.
      * cbn in Hl. inversion Hl; subst. cbn. auto.
      * cbn [combine] in Hl. inversion Hl as [|u pqr w l' H1 H2]; subst. destruct pqr as ((p & q) & r). destruct H1 as (H1 & H3 & H4).
        cbn [map] in Hx, Hy, Hz. injection Hx as Ha Hx. injection Hy as Hb Hy. injection Hz as Hc Hz.
        destruct (IH y z bx by_ bz l' (length bx)) as (I1 & I2 & I3); try assumption; try lia.
        unfold map2 in *. cbn [combine map]. rewrite I1, I2, I3, H1, H3, H4, Ha, Hb, Hc. rewrite <- !mul_bit. auto.
    + destruct B as (B1 & B2 & B3). apply tri_xors; assumption.
Qed.

(** ** Sums *)
Fixpoint fnum (l : list F) : F := match l with [] => 0 | x :: r => x + (1 + 1) * fnum r end%F.
Lemma fnum_bits : forall bl, fnum (map ind bl) = ofZ (znum bl).
Proof.
  induction bl as [|b bl IH]; [reflexivity|]. cbn [map fnum znum]. rewrite IH, ofZ_add, ofZ_mul. f_equal. destruct b; reflexivity.
Qed.
Lemma fnum_range : forall n a, fnum (map val (zrange a n)) = sumn n (fun k => Fpow (1 + 1) k * val (a + Z.of_nat k)%Z)%F.
Proof.
  induction n as [|n IH]; intros a; [reflexivity|]. cbn [zrange map fnum]. rewrite IH. change (S n) with (1 + n)%nat. rewrite sumn_app. cbn [sumn Fpow]. rewrite <- sumn_scal.
  replace (a + Z.of_nat 0) with a by lia.
  rewrite (sumn_ext n (fun i => ((1 + 1) * (Fpow (1 + 1) i * val (a + 1 + Z.of_nat i)%Z))%F) (fun i => (Fpow (1 + 1) (1 + i) * val (a + Z.of_nat (1 + i))%Z)%F)).
  - ring.
  - intros i _. cbn [Nat.add Fpow]. replace (a + Z.of_nat (S i)) with (a + 1 + Z.of_nat i) by lia. ring.
Qed.
Lemma consecutive_range : forall l a, consecutive (a :: l) = true -> a :: l = zrange a (S (length l)) /\ last (a :: l) 0 = a + Z.of_nat (length l).
Proof.
  induction l as [|b l IH]; intros a H.
  - split; [reflexivity|]. cbn. lia.
  - change (consecutive (a :: b :: l)) with ((a + 1 =? b) && consecutive (b :: l)) in H. apply andb_true_iff in H. destruct H as (H1 & H2). apply Z.eqb_eq in H1. destruct (IH b H2) as (I1 & I2). split.
    + cbn [length]. change (zrange a (S (S (length l)))) with (a :: zrange (a + 1) (S (length l))). rewrite H1, I1. reflexivity.
    + change (last (a :: b :: l) 0) with (last (b :: l) 0). rewrite I2. cbn [length]. lia.
Qed.
Lemma tri_addition : forall l, tri (do_addition l) (fun t => val t = fnum (map val l)).
Proof.
  intros l. unfold do_addition. eapply (tri_bind _ _ _ _ (fun _ => consecutive l = true)).
  - apply tri_lift. intros [] H. apply assert_inv in H. exact H.
  - intros _ Hc. eapply tri_bind; [apply tri_rd; intros x H; exact H|]. intros a Ha. cbn beta in Ha. apply tri_emit. intros t H. cbn [holds] in H.
    destruct l as [|b l]; [discriminate Ha|]. injection Ha as ->. destruct (consecutive_range l a Hc) as (I1 & I2). rewrite I2 in H. rewrite H.
    replace (Z.to_nat (a + Z.of_nat (length l) + 1 - a)) with (S (length l)) by lia. rewrite I1, fnum_range. reflexivity.
Qed.

(** ** Numbers in [n] bits *)
Definition bitsn (n : nat) (l : list Z) (x : Z) : Prop := exists bl, bitv l bl /\ length bl = n /\ znum bl = x.
Lemma bitsn_range : forall n l x, bitsn n l x -> 0 <= x < 2 ^ Z.of_nat n.
Proof. intros n l x (bl & _ & <- & <-). apply znum_range. Qed.
Lemma bitsn_low : forall n l x m, bitsn n l x -> (m <= n)%nat -> bitsn m (firstn m l) (x mod 2 ^ Z.of_nat m).
Proof.
  intros n l x m (bl & H & Hn & <-) Hm. exists (firstn m bl). split; [|split].
  - unfold bitv in *. rewrite <- !firstn_map, H. reflexivity.
  - rewrite firstn_length. lia.
  - apply znum_low. lia.
Qed.
Lemma bitsn_same : forall n l x, bitsn n l x -> firstn n l = l.
Proof.
  intros n l x (bl & H & Hn & _). apply firstn_all2. rewrite <- (map_length val), H, map_length. lia.
Qed.
Lemma bitv_rot : forall n l bl, bitv l bl -> bitv (rot n l) (rotb n bl).
Proof. intros n l bl H. unfold bitv, rot, rotb in *. rewrite !map_app, <- !skipn_map, <- !firstn_map, H. reflexivity. Qed.
Lemma bitv_shf : forall n l bl, val 0 = 0%F -> bitv l bl -> bitv (shf n l) (shfb n bl).
Proof.
  intros n l bl H0 H. unfold bitv, shf, shfb in *. rewrite !map_app, <- !skipn_map, H. f_equal. induction n as [|n IH]; [reflexivity|]. cbn [repeat map]. rewrite H0, IH. reflexivity.
Qed.
Lemma tri_Sigma0 : forall l x, bitsn 32 l x -> tri (write_Sigma0 l) (fun o => bitsn 32 o (Sigma0 x)).
Proof.
  intros l x (bl & H & L & <-). unfold write_Sigma0. eapply tri_mono; [apply tri_xors; apply bitv_rot; exact H|]. intros o Ho. eexists. split; [exact Ho|]. split; [apply xor3_length; rewrite rotb_length; exact L|apply num_Sigma0, L].
Qed.
Lemma tri_Sigma1 : forall l x, bitsn 32 l x -> tri (write_Sigma1 l) (fun o => bitsn 32 o (Sigma1 x)).
Proof.
  intros l x (bl & H & L & <-). unfold write_Sigma1. eapply tri_mono; [apply tri_xors; apply bitv_rot; exact H|]. intros o Ho. eexists. split; [exact Ho|]. split; [apply xor3_length; rewrite rotb_length; exact L|apply num_Sigma1, L].
Qed.
Lemma tri_sigma0 : forall l x, val 0 = 0%F -> bitsn 32 l x -> tri (write_sigma0 l) (fun o => bitsn 32 o (sigma0 x)).
Proof.
  intros l x H0 (bl & H & L & <-). unfold write_sigma0. eapply tri_mono; [apply tri_xors; [apply bitv_rot; exact H|apply bitv_rot; exact H|apply bitv_shf; [exact H0|exact H]]|].
  intros o Ho. eexists. split; [exact Ho|]. split; [apply xor3_length; rewrite ?rotb_length, ?shfb_length by lia; exact L|apply num_sigma0, L].
Qed.
Lemma tri_sigma1 : forall l x, val 0 = 0%F -> bitsn 32 l x -> tri (write_sigma1 l) (fun o => bitsn 32 o (sigma1 x)).
Proof.
  intros l x H0 (bl & H & L & <-). unfold write_sigma1. eapply tri_mono; [apply tri_xors; [apply bitv_rot; exact H|apply bitv_rot; exact H|apply bitv_shf; [exact H0|exact H]]|].
  intros o Ho. eexists. split; [exact Ho|]. split; [apply xor3_length; rewrite ?rotb_length, ?shfb_length by lia; exact L|apply num_sigma1, L].
Qed.
Lemma tri_Maj : forall l m n x y z, bitsn 32 l x -> bitsn 32 m y -> bitsn 32 n z -> tri (write_maj l m n) (fun o => bitsn 32 o (Maj x y z)).
Proof.
  intros l m n x y z (bx & Hx & Lx & <-) (by_ & Hy & Ly & <-) (bz & Hz & Lz & <-). eapply tri_mono; [apply (tri_maj _ _ _ bx by_ bz 32); assumption|].
  intros o Ho. eexists. split; [exact Ho|]. split; [apply xor3_length; rewrite map2_length; congruence|apply num_maj; assumption].
Qed.
Lemma tri_Ch : forall l m n x y z, bitsn 32 l x -> bitsn 32 m y -> bitsn 32 n z -> tri (write_ch l m n) (fun o => bitsn 32 o (Ch x y z)).
Proof.
  intros l m n x y z (bx & Hx & Lx & <-) (by_ & Hy & Ly & <-) (bz & Hz & Lz & <-). eapply tri_mono; [apply (tri_ch _ _ _ bx by_ bz); assumption|].
  intros o Ho. eexists. split; [exact Ho|]. split; [rewrite !map2_length; rewrite ?map2_length; congruence|apply num_ch; assumption].
Qed.
Lemma tri_add : forall n l x, bitsn n l x -> tri (do_addition l) (fun t => val t = ofZ x).
Proof. intros n l x (bl & H & L & <-). eapply tri_mono; [apply tri_addition|]. intros t Ht. cbn beta in Ht. rewrite Ht, H. apply fnum_bits. Qed.
Lemma tri_test : forall n l x f y, bitsn n l x -> val f = ofZ y -> tri (test_bitvec_field l f) (fun t => val t = ofZ (x - y)).
Proof.
  intros n l x f y H Hf. unfold test_bitvec_field. eapply tri_bind; [apply (tri_add n l x H)|]. intros b Hb. cbn beta in Hb. apply tri_emit. intros t Ht. cbn [holds op_val] in Ht.
  rewrite Ht, Hb, Hf, ofZ_sub. reflexivity.
Qed.
Lemma tri_plus : forall a b x y, val a = ofZ x -> val b = ofZ y -> tri (emit (fun t => Op OAdd t a b)) (fun t => val t = ofZ (x + y)).
Proof. intros a b x y Ha Hb. apply tri_emit. intros t Ht. cbn [holds op_val] in Ht. rewrite Ht, Ha, Hb, ofZ_add. reflexivity. Qed.
End Values.
