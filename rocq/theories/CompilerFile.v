(** * The files that the compiler writes *)
From Coq Require Import ZArith List Bool Arith Lia.
From Verif Require Import Base Fp Circuit Loader SpecLoader LoaderProofs LoadedProofs ZkEval SpecZk ZkLoaded ZkPhaseProofs ZkPredProofs Program SpecCompiler Compiler
  CompilerMaps CompilerLayers CompilerShape CompilerWiring.
Import ListNotations.
Open Scope Z_scope.

(** ** Rows made of blocks *)
Definition blocks {A B} (h : nat -> A -> B) (n : nat) (gs : list A) : list B := flat_map (fun r => map (h r) gs) (seq 0 n).
Lemma blocks_S : forall A B (h : nat -> A -> B) n gs, blocks h (S n) gs = blocks h n gs ++ map (h n) gs.
Proof. intros. unfold blocks. rewrite seq_S, flat_map_app. cbn [flat_map]. rewrite app_nil_r. reflexivity. Qed.
Lemma blocks_length : forall A B (h : nat -> A -> B) n gs, length (blocks h n gs) = (n * length gs)%nat.
Proof. intros A B h n gs. induction n as [|n IH]; [reflexivity|]. rewrite blocks_S, app_length, map_length, IH. lia. Qed.
Lemma blocks_nth : forall A B (h : nat -> A -> B) n gs r j, (r < n)%nat -> (j < length gs)%nat ->
  nth_error (blocks h n gs) (r * length gs + j) = option_map (h r) (nth_error gs j).
Proof.
  intros A B h n gs r j. induction n as [|n IH]; intros Hr Hj; [lia|]. rewrite blocks_S. destruct (Nat.eq_dec r n) as [->|N].
  - rewrite nth_error_app2 by (rewrite blocks_length; lia). rewrite blocks_length. replace (n * length gs + j - n * length gs)%nat with j by lia. apply nth_error_map.
  - rewrite nth_error_app1 by (rewrite blocks_length; nia). apply IH; lia.
Qed.
Lemma block_split : forall n m x, (x < n * m)%nat -> exists r j, x = (r * m + j)%nat /\ (r < n)%nat /\ (j < m)%nat.
Proof.
  intros n m x H. assert (m <> 0)%nat by nia. exists (x / m)%nat, (x mod m)%nat. pose proof (Nat.div_mod x m ltac:(assumption)). pose proof (Nat.mod_upper_bound x m ltac:(assumption)).
  split; [lia|]. split; [apply Nat.div_lt_upper_bound; [assumption|lia]|assumption].
Qed.
Lemma blocks_all : forall A B (h : nat -> A -> B) n gs y, In y (blocks h n gs) -> exists r j g, (r < n)%nat /\ nth_error gs j = Some g /\ y = h r g.
Proof.
  intros A B h n gs y H. unfold blocks in H. apply in_flat_map in H. destruct H as (r & Hr & Hy). apply in_seq in Hr. apply in_map_iff in Hy. destruct Hy as (g & <- & Hg).
  apply In_nth_error in Hg. destruct Hg as (j & Hg). exists r, j, g. split; [lia|]. split; [exact Hg|reflexivity].
Qed.

(** ** What is printed *)
Lemma gate_tokens_app : forall a b k, gate_tokens k (a ++ b) = gate_tokens k a ++ gate_tokens (k + length a) b.
Proof.
  induction a as [|x a IH]; intros b k; [cbn [app length gate_tokens]; rewrite Nat.add_0_r; reflexivity|]. cbn [app length gate_tokens]. rewrite IH. cbn [app].
  do 4 f_equal. f_equal. f_equal. lia.
Qed.
Lemma layer_tokens_eq : forall l, layer_tokens l = Z.of_nat (length l) :: gate_tokens 0 l.
Proof. reflexivity. Qed.
Lemma cat_gates : forall A (f : A -> outcome (list Z)) (h : A -> fgate) gs k t, cat_map f gs = Ok t ->
  (forall j g t, nth_error gs j = Some g -> f g = Ok t -> t = [f_ty (h g); Z.of_nat (k + j); f_u (h g); f_v (h g)]) -> t = gate_tokens k (map h gs).
Proof.
  intros A f h. induction gs as [|g gs IH]; intros k t E H; [apply Ok_inj in E; subst t; reflexivity|]. cbn [cat_map] in E. apply bind_inv in E. destruct E as (a & E1 & E).
  apply bind_inv in E. destruct E as (b & E2 & E). apply Ok_inj in E. subst t. rewrite (H 0%nat g a eq_refl E1), Nat.add_0_r. cbn [map gate_tokens]. f_equal.
  apply (IH (S k) b E2). intros j g' t Hg Ht. rewrite (H (S j) g' t Hg Ht). do 2 f_equal. lia.
Qed.
Lemma cat_map_all : forall A B (f : A -> outcome (list B)) l t, cat_map f l = Ok t -> forall x, In x l -> exists y, f x = Ok y.
Proof.
  intros A B f. induction l as [|x l IH]; intros t E y Hy; [destruct Hy|]. cbn [cat_map] in E. apply bind_inv in E. destruct E as (a & E1 & E). apply bind_inv in E. destruct E as (b & E2 & E).
  destruct Hy as [<-|Hy]; [exists a; exact E1|apply (IH b E2 y Hy)].
Qed.
Lemma cat_blocks : forall A (f : nat -> outcome (list Z)) (h : nat -> A -> fgate) gs n a t, cat_map f (seq a n) = Ok t ->
  (forall r t, (a <= r < a + n)%nat -> f r = Ok t -> t = gate_tokens (r * length gs) (map (h r) gs)) ->
  t = gate_tokens (a * length gs) (flat_map (fun r => map (h r) gs) (seq a n)).
Proof.
  intros A f h gs. induction n as [|n IH]; intros a t E H; [apply Ok_inj in E; subst t; reflexivity|]. cbn [seq cat_map flat_map] in *. apply bind_inv in E. destruct E as (x & E1 & E).
  apply bind_inv in E. destruct E as (y & E2 & E). apply Ok_inj in E. subst t. rewrite gate_tokens_app, map_length. f_equal; [apply H; [lia|exact E1]|].
  replace (a * length gs + length gs)%nat with (S a * length gs)%nat by lia. apply (IH (S a) y E2). intros r t Hr Ht. apply H; [lia|exact Ht].
Qed.

(** ** The description of the files *)
Definition opt_fgate (o : option sgate) : fgate := match o with Some g => FGate (sg_ty g) (sg_u g) (sg_v g) | None => FGate 0 0 0 end.
Definition first_fgate (n r : nat) (g : sgate) : fgate := if sg_ty g =? 3 then FGate 10 (sg_g g + Z.of_nat (r * n)) 0 else FGate 2 0 0.
Definition later_fgate (p r : nat) (g : sgate) : fgate :=
  FGate (sg_ty g) (sg_u g + Z.of_nat (r * p)) (if (sg_ty g =? 10) || (sg_ty g =? 6) then 0 else sg_v g + Z.of_nat (r * p)).
Fixpoint later_rows (p rep : nat) (L : list slayer) : list (list fgate) :=
  match L with
  | [] => []
  | l :: r => blocks (later_fgate p) rep (sl_gates l) :: later_rows (length (sl_gates l)) rep r
  end.
Definition meta_of (flag : Z) (rep : nat) (lr : Z) (L : slayer) : fmeta := FMeta flag (Z.of_nat (length (sl_gates L))) (Z.of_nat rep) (sl_bits L) lr.
Definition file_of (r0 : Z) (l0 : list sgate) (l1 : list (option sgate)) (rep : nat) (lr : Z) (L0 : slayer) (L : list slayer) : desc :=
  Desc (map (fun g => FGate 3 (sg_u g) (sg_v g)) l0 :: map opt_fgate l1 :: blocks (first_fgate (length (sl_gates L0))) rep (sl_gates L0) :: later_rows (length (sl_gates L0)) rep L)
       (FMeta 0 0 r0 0 0 :: meta_of 0 rep lr L0 :: map (meta_of 1 rep lr) (L0 :: L)).

Definition indexed (S : slayer) : Prop := forall j g, nth_error (sl_gates S) j = Some g -> sg_g g = Z.of_nat j.
Lemma print_first_inv : forall S rep t, indexed S -> print_first S (Z.of_nat rep) = Ok t ->
  t = gate_tokens 0 (blocks (first_fgate (length (sl_gates S))) rep (sl_gates S)) /\ ((0 < rep)%nat -> forall g, In g (sl_gates S) -> sg_ty g = 3 \/ sg_ty g = 2).
Proof.
  intros S rep t IX E. unfold print_first in E. rewrite Nat2Z.id in E. split.
  - apply (cat_blocks _ _ _ (sl_gates S) _ _ _ E). intros r t' Hr E'. apply (cat_gates _ _ _ _ _ _ E'). intros j g x Hg Ex.
    apply bind_inv in Ex. destruct Ex as (s & Q & Ex). apply int_op_inv in Q. destruct Q as [-> _]. apply bind_inv in Ex. destruct Ex as (n & Q & Ex). apply int_op_inv in Q. destruct Q as [-> _].
    unfold first_fgate. rewrite (IX _ _ Hg) in *. destruct (Z.eqb_spec (sg_ty g) 3).
    + apply Ok_inj in Ex. subst x. cbn [f_ty f_u f_v]. do 2 f_equal; [lia|]. f_equal. lia.
    + destruct (Z.eqb_spec (sg_ty g) 2); [|discriminate Ex]. apply Ok_inj in Ex. subst x. cbn [f_ty f_u f_v]. do 2 f_equal. lia.
  - intros Hr g Hg. destruct (cat_map_all _ _ _ _ _ E 0%nat) as (y & Ey); [apply in_seq; lia|]. destruct (cat_map_all _ _ _ _ _ Ey g Hg) as (z & Ez). cbv beta in Ez.
    apply bind_inv in Ez. destruct Ez as (s & _ & Ez). apply bind_inv in Ez. destruct Ez as (n & _ & Ez).
    destruct (Z.eqb_spec (sg_ty g) 3); [left; assumption|]. destruct (Z.eqb_spec (sg_ty g) 2); [right; assumption|discriminate Ez].
Qed.
Lemma print_layer_inv : forall p S rep t, indexed S -> print_layer p S (Z.of_nat rep) = Ok t ->
  t = gate_tokens 0 (blocks (later_fgate p) rep (sl_gates S)).
Proof.
  intros p S rep t IX E. unfold print_layer in E. rewrite Nat2Z.id in E.
  apply (cat_blocks _ _ _ (sl_gates S) _ _ _ E). intros r t' Hr E'. apply (cat_gates _ _ _ _ _ _ E'). intros j g x Hg Ex.
  apply bind_inv in Ex. destruct Ex as (s & Q & Ex). apply int_op_inv in Q. destruct Q as [-> _]. apply bind_inv in Ex. destruct Ex as (n & Q & Ex). apply int_op_inv in Q. destruct Q as [-> _].
  apply bind_inv in Ex. destruct Ex as (q & Q & Ex). apply int_op_inv in Q. destruct Q as [-> _].
  unfold later_fgate. rewrite (IX _ _ Hg) in *. cbn [f_ty f_u f_v]. destruct ((sg_ty g =? 10) || (sg_ty g =? 6)).
  - apply bind_inv in Ex. destruct Ex as (u & Q & Ex). apply assert_inv in Q. apply Z.eqb_eq in Q. apply Ok_inj in Ex. subst x. rewrite Q. do 2 f_equal; [lia|]. f_equal. lia.
  - apply Ok_inj in Ex. subst x. do 2 f_equal; [lia|]. rewrite Nat2Z.inj_mul. reflexivity.
Qed.
Lemma print_layers_inv : forall L p rep t, Forall indexed L -> print_layers p L (Z.of_nat rep) = Ok t ->
  t = concat (map layer_tokens (later_rows p rep L)) /\ Forall (fun S => Z.of_nat (length (sl_gates S)) * Z.of_nat rep < 2 ^ 31) L.
Proof.
  induction L as [|S L IH]; intros p rep t IX E; [apply Ok_inj in E; subst t; split; [reflexivity|constructor]|]. inversion IX as [|? ? I1 I2]; subst. cbn [print_layers] in E.
  apply bind_inv in E. destruct E as (n & Q & E). apply int_op_inv in Q. destruct Q as [-> Hn]. apply bind_inv in E. destruct E as (a & Ea & E). apply bind_inv in E. destruct E as (b & Eb & E).
  apply Ok_inj in E. subst t. apply print_layer_inv in Ea; [|exact I1]. apply IH in Eb; [|exact I2]. destruct Eb as [-> Hb]. split; [|constructor; [lia|exact Hb]].
  cbn [later_rows map concat]. unfold layer_tokens at 2. rewrite blocks_length, <- Ea. cbn [app]. f_equal. lia.
Qed.
Lemma log_rep_pow : forall f k l x, log_rep f (2 ^ Z.of_nat k) l = Ok x -> x = l + Z.of_nat k.
Proof.
  induction f as [|f IH]; intros k l x E; destruct k as [|k].
  - cbn in E. apply Ok_inj in E. lia.
  - exfalso. cbn [log_rep] in E. assert (2 <= 2 ^ Z.of_nat (S k)) by (change 2 with (2 ^ 1) at 1; apply Z.pow_le_mono_r; lia).
    destruct (Z.eqb_spec (2 ^ Z.of_nat (S k)) 1); [lia|]. destruct (Z.eqb_spec (2 ^ Z.of_nat (S k)) 0); [lia|discriminate E].
  - cbn in E. apply Ok_inj in E. lia.
  - cbn [log_rep] in E. assert (2 <= 2 ^ Z.of_nat (S k)) by (change 2 with (2 ^ 1) at 1; apply Z.pow_le_mono_r; lia).
    destruct (Z.eqb_spec (2 ^ Z.of_nat (S k)) 1); [lia|]. destruct (Z.eqb_spec (2 ^ Z.of_nat (S k)) 0); [lia|].
    replace (2 ^ Z.of_nat (S k) / 2) with (2 ^ Z.of_nat k) in E; [apply IH in E; lia|]. rewrite Nat2Z.inj_succ, Z.pow_succ_r by lia. rewrite Z.mul_comm, Z.div_mul by lia. reflexivity.
Qed.
Lemma l1_row : forall l1 t k, cat_map print_opt l1 = Ok t -> (forall j g, nth_error l1 j = Some (Some g) -> sg_g g = Z.of_nat (k + j)) -> t = gate_tokens k (map opt_fgate l1).
Proof.
  intros l1 t k E IX. apply (cat_gates _ _ _ _ _ _ E). intros j [g|] x Hg Ex; [|discriminate Ex]. apply Ok_inj in Ex. subst x. unfold sgate_tokens. rewrite (IX _ _ Hg). reflexivity.
Qed.

Record filed (l0 : list sgate) (l1 : list (option sgate)) (k : nat) (L0 : slayer) (L : list slayer) : Prop := {
  fd_l1 : forall x, In x l1 -> exists g, x = Some g;
  fd_size : Forall (fun S => Z.of_nat (length (sl_gates S)) * 2 ^ Z.of_nat k < 2 ^ 31) (L0 :: L);
  fd_first : forall g, In g (sl_gates L0) -> sg_ty g = 3 \/ sg_ty g = 2 }.
Lemma merge_inv : forall r0 l0 l1 k L0 L ct mt, Forall indexed (L0 :: L) -> (forall j g, nth_error l0 j = Some g -> sg_g g = Z.of_nat j) ->
  length l1 = (length (sl_gates L0) * 2 ^ k)%nat ->
  (forall j g, nth_error l1 j = Some (Some g) -> sg_g g = Z.of_nat j) -> merge r0 l0 l1 (2 ^ Z.of_nat k) (L0 :: L) = Ok (ct, mt) ->
  let D := file_of r0 l0 l1 (2 ^ k) (Z.of_nat k) L0 L in ct = circuit_tokens (d_layers D) /\ mt = meta_tokens (d_meta D) /\ filed l0 l1 k L0 L.
Proof.
  intros r0 l0 l1 k L0 L ct mt IX I0 LN I1 E D. unfold merge in E. apply bind_inv in E. destruct E as (t1 & E1 & E). apply bind_inv in E. destruct E as (lr & E2 & E).
  apply log_rep_pow in E2. rewrite Z.add_0_l in E2. subst lr. rewrite <- pow_Z in E. cbn [rd nth_error bind tl] in E. apply bind_inv in E. destruct E as (n2 & Q & E).
  apply int_op_inv in Q. destruct Q as [-> Hn]. inversion IX as [|? ? X1 X2]; subst. apply bind_inv in E. destruct E as (t2 & E2 & E). apply print_first_inv in E2; [|exact X1]. destruct E2 as [-> FT].
  apply bind_inv in E. destruct E as (t3 & E3 & E). apply print_layers_inv in E3; [|exact X2]. destruct E3 as [-> SZ]. apply Ok_inj in E. injection E as <- <-.
  assert (AL : forall x, In x l1 -> exists g, x = Some g).
  { intros x Hx. destruct (cat_map_all _ _ _ _ _ E1 x Hx) as (y & Ey). destruct x as [g|]; [exists g; reflexivity|discriminate Ey]. }
  apply (l1_row _ _ 0%nat) in E1; [|exact I1]. subst t1. split; [|split].
  - unfold D, file_of, circuit_tokens. cbn [d_layers map concat length].
    assert (LR : forall L p, length (later_rows p (2 ^ k) L) = length L) by (clear; induction L as [|S L IH]; intro p; [reflexivity|cbn [later_rows length]; rewrite IH; reflexivity]).
    rewrite LR. cbn [Nat.add app]. f_equal. rewrite !layer_tokens_eq, !map_length, blocks_length. cbn [app]. f_equal.
    assert (E0 : concat (map (fun g => [3; sg_g g; sg_u g; sg_v g]) l0) = gate_tokens 0 (map (fun g => FGate 3 (sg_u g) (sg_v g)) l0)).
    { assert (G : forall l j, (forall i g, nth_error l i = Some g -> sg_g g = Z.of_nat (j + i)) -> concat (map (fun g => [3; sg_g g; sg_u g; sg_v g]) l) = gate_tokens j (map (fun g => FGate 3 (sg_u g) (sg_v g)) l)).
      { induction l as [|g l IH]; intros j H; [reflexivity|]. cbn [map concat gate_tokens f_ty f_u f_v app]. rewrite (H 0%nat g eq_refl), Nat.add_0_r. do 4 f_equal. apply IH.
        intros i g' Hg. rewrite (H (S i) g' Hg). f_equal. lia. }
      apply G. exact I0. }
    rewrite E0. f_equal. f_equal. f_equal. rewrite Nat2Z.inj_mul, Z.mul_comm. reflexivity.
  - unfold D, file_of, meta_tokens. cbn [d_meta map concat meta_of m_para m_block m_repeat m_log_block m_log_repeat app]. unfold meta_line. do 15 f_equal.
    rewrite map_map. reflexivity.
  - constructor; [exact AL| |].
    + constructor; [rewrite <- pow_Z; lia|]. eapply Forall_impl; [|exact SZ]. intros S H. cbv beta in H. rewrite pow_Z in H. exact H.
    + apply FT. pose proof (Nat.pow_nonzero 2 k). lia.
Qed.
