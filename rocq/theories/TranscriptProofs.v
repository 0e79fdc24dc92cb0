(** * Proofs about the transcript *)
From Coq Require Import ZArith List Bool Arith Lia.
From Verif Require Import Limbs LimbsProofs Field FieldProofs Fp SpecArith ArithProofs Base Transcript SpecTranscript.
Import ListNotations.
Open Scope nat_scope.

(** ** Lists *)
Lemma firstn_add : forall A (l : list A) n m, firstn (n + m) l = firstn n l ++ firstn m (skipn n l).
Proof.
  induction l; intros n m; [rewrite !firstn_nil, skipn_nil, firstn_nil; reflexivity|].
  destruct n; [reflexivity|]. cbn [Nat.add firstn skipn app]. rewrite IHl. reflexivity.
Qed.
Lemma skipn_skipn' : forall A (l : list A) n m, skipn n (skipn m l) = skipn (m + n) l.
Proof.
  induction l; intros n m; [rewrite !skipn_nil; reflexivity|].
  destruct m; [reflexivity|]. cbn [Nat.add skipn]. apply IHl.
Qed.
Lemma nth_firstn' : forall A (l : list A) n i, i < n -> nth_error (firstn n l) i = nth_error l i.
Proof.
  induction l; intros n i H; [rewrite firstn_nil; destruct i; reflexivity|].
  destruct n; [lia|]. destruct i; [reflexivity|]. cbn. apply IHl. lia.
Qed.
Lemma firstn_snoc : forall A (l : list A) n x, nth_error l n = Some x -> firstn (S n) l = firstn n l ++ [x].
Proof.
  induction l; intros n x H; [destruct n; discriminate|].
  destruct n; [injection H as ->; reflexivity|]. cbn [firstn app]. f_equal. apply IHl. exact H.
Qed.
Lemma skipn_cons : forall A (l : list A) n x, nth_error l n = Some x -> skipn n l = x :: skipn (S n) l.
Proof.
  induction l; intros n x H; [destruct n; discriminate|].
  destruct n; [injection H as ->; reflexivity|]. cbn [skipn]. apply IHl. exact H.
Qed.

Lemma bind_rd : forall A B (l : list A) i x (k : A -> outcome B), nth_error l i = Some x -> bind (rd l i) k = k x.
Proof. intros A B l i x k E. unfold rd. rewrite E. reflexivity. Qed.

Lemma for_S : forall S n start (body : nat -> S -> outcome S) s,
  for_ (Datatypes.S n) start body s = bind (body start s) (fun s' => for_ n (Datatypes.S start) body s').
Proof. reflexivity. Qed.

Lemma bind_ok : forall A B (x : A) (k : A -> outcome B), bind (Ok x) k = k x.
Proof. reflexivity. Qed.

(** ** The byte file *)
Lemma byte_bits_length : forall b, length (byte_bits b) = 8.
Proof. reflexivity. Qed.
Lemma flat_bytes_length : forall B, length (flat_map byte_bits B) = 8 * length B.
Proof. induction B; [reflexivity|]. cbn [flat_map length]. rewrite app_length, byte_bits_length. lia. Qed.
Lemma flat_bytes_nth : forall B i b, nth_error B (i / 8) = Some b ->
  nth_error (flat_map byte_bits B) i = Some (Z.testbit b (Z.of_nat (i mod 8))).
Proof.
  induction B; intros i b H; [destruct (i / 8); discriminate|].
  cbn [flat_map]. destruct (Nat.lt_ge_cases i 8) as [L|L].
  - rewrite nth_error_app1 by (rewrite byte_bits_length; exact L).
    rewrite Nat.div_small in H by exact L. injection H as ->. rewrite Nat.mod_small by exact L.
    unfold byte_bits. do 8 (destruct i as [|i]; [reflexivity|]). lia.
  - rewrite nth_error_app2, byte_bits_length by (rewrite byte_bits_length; exact L).
    assert (E : i = (i - 8) + 1 * 8) by lia.
    assert (D : i / 8 = S ((i - 8) / 8)) by (rewrite E at 1; rewrite Nat.div_add by lia; lia).
    assert (M : i mod 8 = (i - 8) mod 8) by (rewrite E at 1; apply Nat.mod_add; lia).
    rewrite M. apply IHB. rewrite D in H. exact H.
Qed.
Lemma byte_step : forall b k, (0 <= b)%Z -> (0 <= k)%Z ->
  Z.lor (b mod 2 ^ k) (Z.shiftl (Z.b2z (Z.testbit b k)) k) = (b mod 2 ^ (k + 1))%Z.
Proof.
  intros b k Hb Hk. apply Z.bits_inj'. intros n Hn.
  rewrite Z.lor_spec, Z.shiftl_spec by exact Hn.
  destruct (Z.lt_trichotomy n k) as [L|[->|L]].
  - rewrite !Z.mod_pow2_bits_low by lia. rewrite (Z.testbit_neg_r _ (n - k)) by lia. apply orb_false_r.
  - rewrite Z.mod_pow2_bits_high, Z.mod_pow2_bits_low, Z.sub_diag by lia.
    rewrite Z.b2z_bit0. reflexivity.
  - rewrite !Z.mod_pow2_bits_high by lia.
    destruct (Z.testbit b k); cbn [Z.b2z]; [|apply Z.testbit_0_l].
    destruct (n - k)%Z as [|p|p] eqn:E; [lia| |lia]. destruct p; reflexivity.
Qed.
Definition pack_inv (B : list Z) (i : nat) (buf : list Z) : Prop :=
  length buf = length B /\
  forall m b, nth_error B m = Some b ->
    nth_error buf m = Some (if m <? i / 8 then b else if m =? i / 8 then (b mod 2 ^ Z.of_nat (i mod 8))%Z else 0%Z).
Lemma pack_ok : forall B, Forall (fun b => (0 <= b < 256)%Z) B ->
  let vec := flat_map byte_bits B in
  returns (for_ (length vec) 0 (fun i buf =>
      b <- rd vec i ;; o <- rd buf (i / 8) ;;
      wr buf (i / 8) (Z.lor o (Z.shiftl (Z.b2z b) (Z.of_nat (i mod 8))))) (repeat 0%Z (length B)))
    (fun buf => buf = B).
Proof.
  intros B HB vec. eapply returns_conseq.
  - apply (returns_for _ _ _ _ (pack_inv B)).
    + split; [apply repeat_length|]. intros m b H. change (0 / 8) with 0. change (0 mod 8) with 0.
      assert (L : m < length B) by (apply nth_error_Some; congruence).
      rewrite (nth_error_nth' _ 0%Z) by (rewrite repeat_length; exact L). rewrite nth_repeat.
      destruct m; cbn; [rewrite Z.mod_1_r|]; reflexivity.
    + intros i buf Hi (L & I).
      assert (Lv : i < 8 * length B) by (unfold vec in Hi; rewrite flat_bytes_length in Hi; lia).
      assert (Lb : i / 8 < length B) by (apply Nat.div_lt_upper_bound; lia).
      destruct (nth_error_lt _ B (i / 8) Lb) as (b & Eb).
      rewrite (bind_rd _ _ _ _ _ _ (flat_bytes_nth B i b Eb)), (bind_rd _ _ _ _ _ _ (I _ _ Eb)).
      apply returns_wr; [rewrite L; exact Lb|].
      rewrite Nat.ltb_irrefl, Nat.eqb_refl.
      assert (Rb : (0 <= b < 256)%Z) by (rewrite Forall_forall in HB; apply HB; eapply nth_error_In, Eb).
      rewrite byte_step by lia.
      split; [rewrite upd_length; exact L|]. intros m c Hc.
      pose proof (Nat.div_mod i 8 ltac:(lia)) as DM. pose proof (Nat.mod_upper_bound i 8 ltac:(lia)) as MB.
      set (q := i / 8) in *. set (r := i mod 8) in *.
      assert (C : (S i / 8 = q /\ S i mod 8 = S r /\ r < 7) \/ (S i / 8 = S q /\ S i mod 8 = 0 /\ r = 7)).
      { destruct (Nat.eq_dec r 7) as [E|E].
        - right. assert (S i = S q * 8) by lia. rewrite H. rewrite Nat.div_mul, Nat.mod_mul by lia. auto.
        - left. assert (ES : S i = S r + q * 8) by lia. rewrite ES.
          rewrite Nat.div_add, Nat.mod_add, Nat.div_small, Nat.mod_small by lia. lia. }
      destruct (Nat.eq_dec m q) as [->|N].
      * rewrite nth_upd_same by (rewrite L; exact Lb). rewrite Hc in Eb. injection Eb as <-.
        destruct C as [(-> & -> & Hr)|(-> & -> & Hr)].
        -- rewrite Nat.ltb_irrefl, Nat.eqb_refl. do 3 f_equal. lia.
        -- replace (q <? S q) with true by (symmetry; apply Nat.ltb_lt; lia). f_equal. rewrite Hr.
           apply Z.mod_small. exact Rb.
      * rewrite nth_upd_other by congruence. rewrite (I _ _ Hc). f_equal.
        destruct C as [(-> & -> & Hr)|(-> & -> & Hr)].
        -- destruct (Nat.eqb_spec m q); [contradiction|reflexivity].
        -- destruct (Nat.eqb_spec m q); [contradiction|].
           destruct (Nat.ltb_spec m q); destruct (Nat.ltb_spec m (S q)); try lia; try reflexivity.
           destruct (Nat.eqb_spec m (S q)); [|reflexivity]. cbn [Z.of_nat]. rewrite Z.pow_0_r, Z.mod_1_r. reflexivity.
  - intros buf (L & I). cbn [Nat.add] in I.
    assert (D : length vec / 8 = length B) by (unfold vec; rewrite flat_bytes_length, Nat.mul_comm; apply Nat.div_mul; lia).
    rewrite D in I. apply (nth_ext _ _ 0%Z 0%Z); [exact L|].
    intros m Hm. rewrite L in Hm. destruct (nth_error_lt _ B m Hm) as (b & Eb).
    rewrite (nth_error_nth _ _ _ Eb). apply nth_error_nth. rewrite (I _ _ Eb).
    destruct (Nat.ltb_spec m (length B)); [reflexivity|lia].
Qed.

(** ** Streams of messages *)
Lemma bits_value_nonneg : forall l, (0 <= bits_value l)%Z.
Proof. induction l as [|[|] l IH]; cbn [bits_value]; lia. Qed.
Lemma bits_value_bound : forall l, (0 <= bits_value l < 2 ^ Z.of_nat (length l))%Z.
Proof.
  induction l as [|b l IH]; [cbn; lia|]. cbn [bits_value length].
  rewrite Nat2Z.inj_succ, Z.pow_succ_r by lia. destruct b; lia.
Qed.
Lemma bits_value_inj : forall l m, length l = length m -> bits_value l = bits_value m -> l = m.
Proof.
  induction l as [|b l IH]; intros [|c m] L H; try discriminate; [reflexivity|].
  cbn [bits_value] in H. injection L as L.
  assert (b = c /\ bits_value l = bits_value m) as [-> E] by (destruct b, c; split; try reflexivity; lia).
  f_equal. apply IH; assumption.
Qed.
Lemma le_bytes_length : forall n z, length (le_bytes n z) = n.
Proof. induction n; intro z; cbn; auto. Qed.
Lemma le_bytes_range : forall n z, Forall (fun b => (0 <= b < 256)%Z) (le_bytes n z).
Proof. induction n; intro z; cbn [le_bytes]; constructor; [apply Z.mod_pos_bound; lia|apply IHn]. Qed.
Lemma byte_bits_value : forall b, (0 <= b < 256)%Z -> bits_value (byte_bits b) = b.
Proof.
  intros b H. unfold byte_bits. rewrite bits_value_testbits. cbn [Z.of_nat]. rewrite Z.shiftr_0_r.
  apply Z.mod_small. exact H.
Qed.
Lemma le_bytes_value : forall n z, bits_value (flat_map byte_bits (le_bytes n z)) = (z mod 2 ^ Z.of_nat (8 * n))%Z.
Proof.
  induction n; intro z; [cbn; rewrite Z.mod_1_r; reflexivity|].
  cbn [le_bytes flat_map]. rewrite bits_value_app, byte_bits_length, IHn.
  rewrite byte_bits_value by (apply Z.mod_pos_bound; lia).
  replace (Z.of_nat (8 * S n)) with (8 + Z.of_nat (8 * n))%Z by lia.
  rewrite Z.pow_add_r by lia. change (2 ^ Z.of_nat 8)%Z with 256%Z. change (2 ^ 8)%Z with 256%Z.
  rewrite Z.rem_mul_r by (try lia; apply Z.pow_pos_nonneg; lia). reflexivity.
Qed.
Lemma fe_bit_stream_length : forall x, length (fe_bit_stream x) = 256.
Proof. intro x. unfold fe_bit_stream. rewrite app_length, !word_bits_length. reflexivity. Qed.
Lemma fe_stream_bytes : forall x, wf512 x -> fe_bit_stream x = flat_map byte_bits (le_bytes 32 (val512 x)).
Proof.
  intros x W. destruct (fe_bit_stream_value x W) as [L V]. apply bits_value_inj.
  - rewrite L, flat_bytes_length, le_bytes_length. reflexivity.
  - rewrite V, le_bytes_value. reflexivity.
Qed.
Lemma stream_bytes : forall ec1 t, Forall (ok_msg ec1) t ->
  output_bit_stream false t = flat_map byte_bits (flat_map message_bytes t) /\
  Forall (fun b => (0 <= b < 256)%Z) (flat_map message_bytes t).
Proof.
  intros ec1 t H. unfold output_bit_stream. induction H as [|m t Hm Ht IH]; [split; [reflexivity|constructor]|].
  destruct IH as [IH1 IH2]. cbn [flat_map]. rewrite flat_map_app, IH1.
  destruct m as [x|l|x]; cbn [is_rand negb andb msg_output message_bytes].
  - split; [rewrite (fe_stream_bytes x Hm); reflexivity|]. apply Forall_app. split; [apply le_bytes_range|exact IH2].
  - split; [reflexivity|]. apply Forall_app. split; [apply Hm|exact IH2].
  - split; [reflexivity|exact IH2].
Qed.
Theorem output_to_file_ok : forall ec1 t, Forall (ok_msg ec1) t ->
  (8 * Z.of_nat (length (flat_map message_bytes t)) < 2 ^ 31)%Z ->
  output_to_file t = Ok (flat_map message_bytes t).
Proof.
  intros ec1 t H B. destruct (stream_bytes ec1 t H) as [E R]. unfold output_to_file. cbv zeta. rewrite E.
  set (b := flat_map message_bytes t) in *.
  assert (L : length (flat_map byte_bits b) = length b * 8) by (rewrite flat_bytes_length; lia).
  destruct (Z.ltb_spec (Z.of_nat (length (flat_map byte_bits b))) (2 ^ 31)) as [_|N]; [|rewrite L in N; lia].
  replace (if length (flat_map byte_bits b) mod 8 =? 0 then length (flat_map byte_bits b) / 8
           else length (flat_map byte_bits b) / 8 + 1) with (length b)
    by (rewrite L, Nat.mod_mul, Nat.div_mul by lia; reflexivity).
  destruct (pack_ok b R) as (x & Ex & ->). exact Ex.
Qed.
Theorem output_to_file_big : forall ec1 t, Forall (ok_msg ec1) t ->
  (2 ^ 31 <= 8 * Z.of_nat (length (flat_map message_bytes t)))%Z ->
  output_to_file t = UB.
Proof.
  intros ec1 t H B. destruct (stream_bytes ec1 t H) as [E R]. unfold output_to_file. cbv zeta. rewrite E.
  rewrite flat_bytes_length.
  destruct (Z.ltb_spec (Z.of_nat (8 * length (flat_map message_bytes t))) (2 ^ 31)); [lia|reflexivity].
Qed.
Definition msg_size (ec1 : nat) (m : msg) : nat := match m with MFld _ => 32 | MCurve _ => ec1 | MRand _ => 0 end.
Lemma message_bytes_length : forall ec1 m, ok_msg ec1 m -> length (message_bytes m) = msg_size ec1 m.
Proof. intros ec1 [x|l|x] H; [apply le_bytes_length|apply H|reflexivity]. Qed.
Theorem get_proof_size_ok : forall ec1 t, Forall (ok_msg ec1) t ->
  (Z.of_nat (length (flat_map message_bytes t)) < 2 ^ 31)%Z ->
  get_proof_size ec1 t = Ok (Z.of_nat (length (flat_map message_bytes t))).
Proof.
  intros ec1 t H B.
  assert (G : forall i, i <= length t -> length (flat_map message_bytes (firstn i t)) <= length (flat_map message_bytes t)).
  { intros i Hi. rewrite <- (firstn_skipn i t) at 2. rewrite flat_map_app, app_length. lia. }
  assert (X : returns (get_proof_size ec1 t) (fun r => r = Z.of_nat (length (flat_map message_bytes t)))).
  2:{ destruct X as (r & -> & ->). reflexivity. }
  unfold get_proof_size.
  eapply returns_conseq.
  - apply (returns_for _ _ _ _ (fun i r => r = Z.of_nat (length (flat_map message_bytes (firstn i t))))); [reflexivity|].
    intros i r Hi ->. destruct (nth_error_lt _ t i ltac:(lia)) as (m & Em).
    rewrite (bind_rd _ _ _ _ _ _ Em). cbv zeta.
    pose proof (G (S i) ltac:(lia)) as GS. rewrite (firstn_snoc _ _ _ _ Em) in *.
    rewrite flat_map_app, app_length in *. cbn [flat_map] in *. rewrite app_nil_r in *.
    assert (Om : ok_msg ec1 m) by (rewrite Forall_forall in H; apply H; eapply nth_error_In, Em).
    rewrite (message_bytes_length ec1 m Om) in *.
    rewrite Nat2Z.inj_add.
    destruct m; cbn [msg_size] in *; change (64 / 2)%Z with 32%Z;
      match goal with |- returns (if ?a then _ else _) _ => destruct a eqn:E end;
      try (apply returns_ok; lia); apply Z.ltb_ge in E; lia.
  - intros r ->. rewrite Nat.add_0_l, firstn_all. reflexivity.
Qed.

(** ** Challenges *)
Lemma pad_while_ok : forall fuel x, (512 - length x mod 512) mod 512 <= fuel ->
  pad_while fuel x = Ok (x ++ repeat false ((512 - length x mod 512) mod 512)).
Proof.
  induction fuel; intros x H; unfold pad_while; fold pad_while.
  - destruct (Nat.eqb_spec (length x mod 512) 0) as [E|E].
    + rewrite E. change ((512 - 0) mod 512) with 0. cbn [repeat]. rewrite app_nil_r. reflexivity.
    + pose proof (Nat.mod_upper_bound (length x) 512 ltac:(lia)). rewrite Nat.mod_small in H by lia. lia.
  - destruct (Nat.eqb_spec (length x mod 512) 0) as [E|E].
    + rewrite E. change ((512 - 0) mod 512) with 0. cbn [repeat]. rewrite app_nil_r. reflexivity.
    + pose proof (Nat.mod_upper_bound (length x) 512 ltac:(lia)) as U.
      assert (K : (512 - length (x ++ [false]) mod 512) mod 512 = (512 - length x mod 512) mod 512 - 1).
      { rewrite app_length. cbn [length]. rewrite <- Nat.add_mod_idemp_l by lia.
        set (r := length x mod 512) in *. rewrite (Nat.mod_small (512 - r)) by lia.
        destruct (Nat.eq_dec r 511) as [->|N]; [reflexivity|].
        rewrite (Nat.mod_small (r + 1)) by lia. rewrite Nat.mod_small by lia. lia. }
      rewrite IHfuel by (rewrite K; lia). rewrite K, <- app_assoc. f_equal. f_equal.
      rewrite (Nat.mod_small (512 - length x mod 512)) by lia.
      destruct (512 - length x mod 512) as [|k] eqn:Ek; [lia|]. rewrite Nat.sub_succ, Nat.sub_0_r. reflexivity.
Qed.
Lemma pad_length : forall (x : bits), length (x ++ repeat false ((512 - length x mod 512) mod 512)) mod 512 = 0.
Proof.
  intro x. rewrite app_length, repeat_length. rewrite Nat.add_mod_idemp_r by lia.
  pose proof (Nat.mod_upper_bound (length x) 512 ltac:(lia)) as U.
  pose proof (Nat.div_mod (length x) 512 ltac:(lia)) as D.
  replace (length x + (512 - length x mod 512)) with ((length x / 512 + 1) * 512) by lia.
  apply Nat.mod_mul. lia.
Qed.
Lemma output_all : forall t, output_bit_stream true t = flat_map msg_output t.
Proof.
  intro t. unfold output_bit_stream. apply flat_map_ext. intro m. rewrite andb_false_r. reflexivity.
Qed.
Lemma padded_eq : forall t x, padded t x ->
  x = flat_map msg_output t ++ repeat false ((512 - length (flat_map msg_output t) mod 512) mod 512).
Proof.
  intros t x (k & Hk & -> & M). f_equal. f_equal. rewrite app_length, repeat_length in M.
  set (n := length (flat_map msg_output t)) in *. clearbody n.
  pose proof (Nat.div_mod n 512 ltac:(lia)) as D. pose proof (Nat.mod_upper_bound n 512 ltac:(lia)) as U.
  set (r := n mod 512) in *. set (q := n / 512) in *. clearbody q r. subst n.
  replace (512 * q + r + k) with (r + k + q * 512) in M by lia. rewrite Nat.mod_add in M by lia.
  apply Nat.mod_divides in M; [|lia]. destruct M as (c & M).
  destruct (Nat.eq_dec r 0) as [->|N]; [change ((512 - 0) mod 512) with 0; lia|].
  rewrite Nat.mod_small by lia. lia.
Qed.
Lemma padded_exists : forall t, exists x, padded t x.
Proof.
  intro t. eexists. exists ((512 - length (flat_map msg_output t) mod 512) mod 512).
  split; [apply Nat.mod_upper_bound; lia|]. split; [reflexivity|apply pad_length].
Qed.
Lemma pad_stream : forall t x, padded t x -> pad_while 512 (output_bit_stream true t) = Ok x.
Proof.
  intros t x H. rewrite output_all, pad_while_ok, <- (padded_eq t x H); [reflexivity|].
  pose proof (Nat.mod_upper_bound (512 - length (flat_map msg_output t) mod 512) 512 ltac:(lia)). lia.
Qed.
Lemma read_loop : forall n (x : bits) a acc, a + n <= length x ->
  for_ n a (fun i data => b <- rd x i ;; Ok (data ++ [b])) acc = Ok (acc ++ firstn n (skipn a x)).
Proof.
  induction n; intros x a acc H; [cbn [for_ firstn]; rewrite app_nil_r; reflexivity|].
  destruct (nth_error_lt _ x a ltac:(lia)) as (b & Eb).
  rewrite for_S, (bind_rd _ _ _ _ _ _ Eb). unfold bind at 1.
  rewrite IHn by lia. rewrite (skipn_cons _ _ _ _ Eb). rewrite <- app_assoc. reflexivity.
Qed.
Lemma my_hhash_halves : forall aes a b, length a = 256 -> length b = 256 ->
  my_hhash aes (a ++ b) = half aes a ++ half aes b.
Proof.
  intros aes a b La Lb. unfold my_hhash, half, load128.
  replace (128 * 0) with 0 by reflexivity. replace (128 * 1) with 128 by reflexivity.
  replace (128 * 2) with 256 by reflexivity. replace (128 * 3) with 384 by reflexivity.
  assert (A0 : firstn 128 (skipn 0 (a ++ b)) = firstn 128 a).
  { rewrite skipn_O, firstn_app, La. replace (128 - 256) with 0 by reflexivity. rewrite firstn_O. apply app_nil_r. }
  assert (A1 : firstn 128 (skipn 128 (a ++ b)) = skipn 128 a).
  { rewrite skipn_app, La. replace (128 - 256) with 0 by reflexivity. rewrite skipn_O.
    rewrite firstn_app, skipn_length, La. replace (128 - (256 - 128)) with 0 by reflexivity. rewrite firstn_O, app_nil_r. apply firstn_all2. rewrite skipn_length, La. apply Nat.le_refl. }
  assert (A2 : firstn 128 (skipn 256 (a ++ b)) = firstn 128 b).
  { rewrite skipn_app, La, skipn_all2 by lia. replace (256 - 256) with 0 by reflexivity. reflexivity. }
  assert (A3 : firstn 128 (skipn 384 (a ++ b)) = skipn 128 b).
  { rewrite skipn_app, La, skipn_all2 by lia. replace (384 - 256) with 128 by reflexivity. cbn [app].
    apply firstn_all2. rewrite skipn_length, Lb. apply Nat.le_refl. }
  rewrite A0, A1, A2, A3. reflexivity.
Qed.
Lemma xor_length : forall a b, length (xor_bits a b) = Nat.min (length a) (length b).
Proof. intros a b. unfold xor_bits. rewrite map_length, combine_length. reflexivity. Qed.
Lemma half_length : forall aes b, is_cipher aes -> length b = 256 -> length (half aes b) = 128.
Proof. intros aes b C L. unfold half. rewrite xor_length, C, skipn_length, L. reflexivity. Qed.
Lemma chain_length : forall aes l h, is_cipher aes -> length h = 256 -> Forall (fun b => length b = 256) l ->
  length (chain aes h l) = 256.
Proof.
  induction l; intros h C L F; [exact L|]. inversion F; subst. cbn [chain]. apply IHl; [exact C| |assumption].
  rewrite app_length, !half_length by assumption. reflexivity.
Qed.
Lemma chunks_length : forall n x, 256 * n <= length x -> Forall (fun b => length b = 256) (chunks n x).
Proof.
  induction n; intros x H; constructor; [rewrite firstn_length; lia|]. apply IHn. rewrite skipn_length. lia.
Qed.
Lemma absorb_ok : forall aes n fuel x cur h, is_cipher aes -> length h = 256 ->
  n <= fuel -> cur + 256 * n = length x ->
  absorb aes fuel x cur h = Ok (chain aes h (chunks n (skipn cur x))).
Proof.
  intros aes n. induction n; intros fuel x cur h C L F E.
  - destruct fuel; unfold absorb; fold absorb; (destruct (Nat.ltb_spec cur (length x)); [lia|reflexivity]).
  - destruct fuel; [lia|]. unfold absorb; fold absorb. destruct (Nat.ltb_spec cur (length x)); [|lia].
    rewrite read_loop by lia. unfold bind at 1.
    assert (Lf : length (firstn 256 (skipn cur x)) = 256) by (rewrite firstn_length, skipn_length; lia).
    rewrite my_hhash_halves by assumption.
    rewrite IHn; [|exact C|rewrite app_length, !half_length by assumption; reflexivity|lia|lia].
    cbn [chunks chain]. rewrite skipn_skipn'. reflexivity.
Qed.
Lemma stream_digest_length : forall aes x, is_cipher aes -> 512 <= length x -> length x mod 512 = 0 ->
  length (stream_digest aes x) = 256.
Proof.
  intros aes x C L M. unfold stream_digest. apply chain_length; [exact C| |].
  - rewrite app_length, !half_length; try assumption; [reflexivity|rewrite firstn_length, skipn_length; lia|rewrite firstn_length; lia].
  - apply chunks_length. rewrite skipn_length. pose proof (Nat.mul_div_le (length x) 256 ltac:(lia)). lia.
Qed.
Lemma iter_r : forall A n (g : A -> A) x, Nat.iter (S n) g x = Nat.iter n g (g x).
Proof. intros A n g x. induction n; [reflexivity|]. cbn [Nat.iter nat_rect] in *. unfold Nat.iter in *. cbn [nat_rect] in *. rewrite <- IHn. reflexivity. Qed.
Lemma squeeze_gen : forall (f : bits -> fe) (g : bits -> bits) size start r h,
  for_ size start (fun (i : nat) st => let '(r, h) := st in Ok (r ++ [f h], g h)) (r, h)
  = Ok (r ++ map (fun i => f (Nat.iter i g h)) (seq 0 size), Nat.iter size g h).
Proof.
  intros f g size. induction size; intros start r h; [cbn; rewrite app_nil_r; reflexivity|].
  rewrite for_S. unfold bind at 1. rewrite IHsize, <- app_assoc. cbn [seq map app].
  rewrite <- seq_shift, map_map. f_equal. f_equal.
  - f_equal. f_equal. apply map_ext. intro i. f_equal. symmetry. apply iter_r.
  - symmetry. apply iter_r.
Qed.
Lemma nth_digest_iter : forall aes i h, is_cipher aes -> length h = 256 ->
  Nat.iter i (fun h => my_hhash aes (h ++ repeat false 256)) h = nth_digest aes i h.
Proof.
  intros aes i. induction i; intros h C L; [reflexivity|].
  rewrite iter_r. cbn [nth_digest]. rewrite <- IHi; [|exact C|].
  - rewrite my_hhash_halves by (try exact L; apply repeat_length). reflexivity.
  - rewrite app_length, !half_length; try assumption; try reflexivity; apply repeat_length.
Qed.
Theorem random_ok : forall aes t x k, is_cipher aes -> padded t x -> 0 < length (flat_map msg_output t) ->
  (Z.of_nat (length x) < 2 ^ 31)%Z ->
  transcript_random aes t k =
  Ok (map (fun i => fe_of_digest (nth_digest aes i (stream_digest aes x))) (seq 0 k),
      t ++ map MRand (map (fun i => fe_of_digest (nth_digest aes i (stream_digest aes x))) (seq 0 k))).
Proof.
  intros aes t x k C Hp Hn Hb.
  assert (M : length x mod 512 = 0) by (destruct Hp as (? & ? & ? & ?); assumption).
  assert (Lx : 512 <= length x).
  { apply Nat.mod_divides in M; [|lia]. destruct M as (c & M).
    destruct Hp as (j & _ & Ex & _). rewrite Ex, app_length in M. rewrite Ex, app_length. destruct c; lia. }
  assert (E2 : length x = 256 * 2 + 256 * (length x / 256 - 2)).
  { apply Nat.mod_divides in M; [|lia]. destruct M as (c & M). rewrite M.
    replace (512 * c) with (2 * c * 256) by lia. rewrite Nat.div_mul by lia. lia. }
  unfold transcript_random. cbv zeta. rewrite (pad_stream t x Hp). unfold bind at 1.
  destruct (Z.ltb_spec (Z.of_nat (length x)) (2 ^ 31)); [|lia]. unfold bind at 1.
  unfold first_block. rewrite read_loop by lia. unfold bind at 1. rewrite app_nil_l, skipn_O.
  replace (firstn 512 x) with (firstn 256 x ++ firstn 256 (skipn 256 x)) by (symmetry; exact (firstn_add _ x 256 256)).
  rewrite my_hhash_halves by (rewrite firstn_length; try rewrite skipn_length; lia).
  rewrite (absorb_ok aes (length x / 256 - 2)); [|exact C| |lia|lia].
  2:{ rewrite app_length, !half_length; try assumption; [reflexivity|rewrite firstn_length, skipn_length; lia|rewrite firstn_length; lia]. }
  unfold bind at 1. fold (stream_digest aes x).
  pose proof (squeeze_gen fe_of_digest (fun h => my_hhash aes (h ++ repeat false 256)) k 0 [] (stream_digest aes x)) as E.
  cbv beta in E. rewrite E. rewrite bind_ok, app_nil_l.
  rewrite (map_ext _ (fun i => fe_of_digest (nth_digest aes i (stream_digest aes x))));
    [reflexivity|]. intro i. f_equal. apply nth_digest_iter; [exact C|].
  exact (stream_digest_length aes x C Lx M).
Qed.
Lemma word_of_bits_value : forall l, word_of_bits l = bits_value l.
Proof. induction l; cbn; [reflexivity|]. rewrite IHl. reflexivity. Qed.
Lemma nth_digest_length : forall aes i h, is_cipher aes -> length h = 256 -> length (nth_digest aes i h) = 256.
Proof.
  intros aes i. induction i; intros h C L; [exact L|]. cbn [nth_digest]. apply IHi; [exact C|].
  rewrite app_length, !half_length; try assumption; try reflexivity; apply repeat_length.
Qed.
Lemma fe_of_digest_ok : forall h, length h = 256 ->
  reduced (fe_of_digest h) /\ val512 (fe_of_digest h) = (digest_number h mod P)%Z.
Proof.
  intros h L. unfold fe_of_digest.
  assert (E0 : load128 h 0 = firstn 128 h) by reflexivity.
  assert (E1 : load128 h 1 = skipn 128 h).
  { unfold load128. apply firstn_all2. rewrite skipn_length, L. apply Nat.le_refl. }
  rewrite E0, E1. set (a := word_of_bits (firstn 128 h)). set (b := word_of_bits (skipn 128 h)).
  assert (Ra : (0 <= a < W128)%Z).
  { unfold a. rewrite word_of_bits_value. pose proof (bits_value_bound (firstn 128 h)) as B.
    rewrite firstn_length, L in B. exact B. }
  assert (Rb : (0 <= b < W128)%Z).
  { unfold b. rewrite word_of_bits_value. pose proof (bits_value_bound (skipn 128 h)) as B.
    rewrite skipn_length, L in B. exact B. }
  set (v := U512 a b (U256 0 0 0)).
  assert (W : wf512 v) by (split; [exact Ra|split; [exact Rb|apply wf256_zero]]).
  assert (V : val512 v = digest_number h).
  { unfold val512, v, val256, digest_number. cbn [lo5 mid5 hi5 lo6 mid6 hi6]. fold a b. rewrite W128_pow. ring. }
  assert (B : (val512 v < W508)%Z).
  { unfold val512, v, val256. cbn [lo5 mid5 hi5 lo6 mid6 hi6]. replace (a + W128 * b + W256 * (0 + W64 * 0 + W128 * 0))%Z with (a + W128 * b)%Z by ring.
    assert (W128 + W128 * W128 < W508)%Z by (vm_compute; reflexivity). nia. }
  split; [apply FieldProofs.u512_mod_reduced; assumption|].
  rewrite (proj2 (FieldProofs.u512_mod_exact v W B)), V. reflexivity.
Qed.

(** ** What the digest depends on *)
Lemma chain_snoc : forall aes l h b, chain aes h (l ++ [b]) = half aes (chain aes h l) ++ half aes b.
Proof. induction l; intros h b; [reflexivity|]. cbn [app chain]. apply IHl. Qed.
Lemma chunks_snoc : forall n x, chunks (S n) x = chunks n x ++ [firstn 256 (skipn (256 * n) x)].
Proof.
  induction n; intro x; [rewrite Nat.mul_0_r, skipn_O; reflexivity|].
  change (chunks (S (S n)) x) with (firstn 256 x :: chunks (S n) (skipn 256 x)). rewrite IHn.
  change (chunks (S n) x) with (firstn 256 x :: chunks n (skipn 256 x)).
  rewrite skipn_skipn'. replace (256 + 256 * n) with (256 * S n) by lia. reflexivity.
Qed.
Lemma skipn_app_exact : forall A (a b : list A) n, length a = n -> skipn n (a ++ b) = b.
Proof. intros A a b n <-. rewrite skipn_app, skipn_all, Nat.sub_diag. reflexivity. Qed.
Lemma firstn_app_exact : forall A (a b : list A) n, length a = n -> firstn n (a ++ b) = a.
Proof. intros A a b n <-. rewrite firstn_app, firstn_all, Nat.sub_diag, firstn_O. apply app_nil_r. Qed.
Lemma digest_upper : forall aes x, is_cipher aes -> 512 <= length x -> length x mod 512 = 0 ->
  skipn 128 (stream_digest aes x) = half aes (skipn (length x - 256) x).
Proof.
  intros aes x C L M.
  assert (E : exists n, length x = 512 + 256 * n /\ length x / 256 - 2 = n).
  { apply Nat.mod_divides in M; [|lia]. destruct M as (c & M). exists (2 * c - 2). rewrite M.
    replace (512 * c) with (2 * c * 256) by lia. rewrite Nat.div_mul by lia. lia. }
  destruct E as (n & E & Q). unfold stream_digest. rewrite Q, E. destruct n as [|n].
  - cbn [chunks chain]. rewrite skipn_app_exact by (apply half_length; [exact C|rewrite firstn_length; lia]).
    replace (512 + 256 * 0 - 256) with 256 by reflexivity. f_equal. apply firstn_all2. rewrite skipn_length. lia.
  - rewrite chunks_snoc, chain_snoc. rewrite skipn_app_exact.
    + rewrite skipn_skipn'. replace (512 + 256 * S n - 256) with (512 + 256 * n) by lia. f_equal.
      apply firstn_all2. rewrite skipn_length. lia.
    + apply half_length; [exact C|]. apply chain_length; [exact C| |apply chunks_length; rewrite skipn_length; lia].
      rewrite app_length, !half_length; try exact C; [reflexivity|rewrite firstn_length, skipn_length; lia|rewrite firstn_length; lia].
Qed.
Lemma later_upper : forall aes i h, is_cipher aes -> length h = 256 ->
  skipn 128 (nth_digest aes (S i) h) = half aes (repeat false 256).
Proof.
  intros aes i. induction i; intros h C L.
  - cbn [nth_digest]. apply skipn_app_exact. apply half_length; assumption.
  - change (nth_digest aes (S (S i)) h) with (nth_digest aes (S i) (half aes h ++ half aes (repeat false 256))).
    apply IHi; [exact C|]. rewrite app_length, !half_length; try assumption; try reflexivity; apply repeat_length.
Qed.
Lemma chunks_concat : forall l, Forall (fun b : bits => length b = 256) l -> chunks (length l) (concat l) = l.
Proof.
  induction l; intro H; [reflexivity|]. inversion H; subst. cbn [length chunks concat].
  rewrite firstn_app_exact, skipn_app_exact by assumption. f_equal. apply IHl. assumption.
Qed.
Lemma concat_length : forall l, Forall (fun b : bits => length b = 256) l -> length (concat l) = length l * 256.
Proof. induction l; intro H; [reflexivity|]. inversion H; subst. cbn [concat length]. rewrite app_length, IHl by assumption. lia. Qed.
Lemma digest_concat : forall aes a b l, Forall (fun b : bits => length b = 256) (a :: b :: l) ->
  stream_digest aes (concat (a :: b :: l)) = chain aes (half aes a ++ half aes b) l.
Proof.
  intros aes a b l H. unfold stream_digest. rewrite concat_length by exact H. rewrite Nat.div_mul by lia.
  inversion H as [|? ? La H1]; subst. inversion H1 as [|? ? Lb H2]; subst.
  replace (length (a :: b :: l) - 2) with (length l) by (cbn [length]; lia). cbn [concat].
  rewrite (firstn_app_exact _ a) by exact La. rewrite (skipn_app_exact _ a _ 256) by exact La.
  rewrite (firstn_app_exact _ b) by exact Lb.
  replace (skipn 512 (a ++ b ++ concat l)) with (concat l).
  2:{ rewrite app_assoc. symmetry. apply skipn_app_exact. rewrite app_length, La, Lb. reflexivity. }
  rewrite chunks_concat by exact H2. reflexivity.
Qed.
Lemma chain_ext : forall aes l m h, map (half aes) l = map (half aes) m -> chain aes h l = chain aes h m.
Proof.
  induction l; intros [|b m] h E; try discriminate; [reflexivity|]. cbn [map] in E. injection E as E1 E2.
  cbn [chain]. rewrite E1. apply IHl. exact E2.
Qed.
Lemma digest_ext : forall aes l m, 2 <= length l -> Forall (fun b : bits => length b = 256) l ->
  Forall (fun b : bits => length b = 256) m -> map (half aes) l = map (half aes) m ->
  stream_digest aes (concat l) = stream_digest aes (concat m).
Proof.
  intros aes [|a [|b l]] m L Hl Hm E; [cbn in L; lia|cbn in L; lia|].
  destruct m as [|c [|d m]]; try discriminate. cbn [map] in E. injection E as E1 E2 E3.
  rewrite !digest_concat by assumption. rewrite E1, E2. apply chain_ext. exact E3.
Qed.

(** ** A collision of a half exists between field elements *)
Fixpoint allbits (n : nat) : list bits :=
  match n with O => [[]] | S n' => map (cons false) (allbits n') ++ map (cons true) (allbits n') end.
Lemma allbits_in : forall b, In b (allbits (length b)).
Proof.
  induction b as [|c b IH]; [left; reflexivity|]. cbn [length allbits]. apply in_or_app.
  destruct c; [right|left]; apply in_map, IH.
Qed.
Lemma allbits_length : forall n, Z.of_nat (length (allbits n)) = (2 ^ Z.of_nat n)%Z.
Proof.
  unfold bits in *. induction n; [reflexivity|]. cbn [allbits]. unfold bits in *. rewrite app_length, !map_length, Nat2Z.inj_add, IHn.
  rewrite Nat2Z.inj_succ, Z.pow_succ_r by lia. lia.
Qed.
Lemma bits_eq_dec : forall a b : bits, {a = b} + {a <> b}.
Proof. apply list_eq_dec. apply bool_dec. Qed.
Lemma pigeon : forall n (l : list bits) (f : nat -> bits), length l < n -> (forall i, i < n -> In (f i) l) ->
  exists i j, i < j /\ j < n /\ f i = f j.
Proof.
  intros n l f L H.
  assert (D : (exists i j, i < j /\ j < n /\ f i = f j) \/ NoDup (map f (seq 0 n))).
  { clear L H. induction n; [right; constructor|]. destruct IHn as [(i & j & A & B & E)|N].
    - left. exists i, j. repeat split; [exact A|lia|exact E].
    - destruct (in_dec bits_eq_dec (f n) (map f (seq 0 n))) as [I|I].
      + apply in_map_iff in I. destruct I as (i & E & I). apply in_seq in I. left. exists i, n. repeat split; [lia|lia|exact E].
      + right. rewrite seq_S, map_app. cbn [map]. rewrite Nat.add_0_l.
        apply (NoDup_Add (a := f n) (l := map f (seq 0 n))); [|split; assumption].
        replace (map f (seq 0 n)) with (map f (seq 0 n) ++ []) at 1 by apply app_nil_r. apply Add_app. }
  destruct D as [D|N]; [exact D|]. exfalso.
  assert (length (map f (seq 0 n)) <= length l).
  { apply NoDup_incl_length; [exact N|]. intros b I. apply in_map_iff in I. destruct I as (i & <- & I).
    apply in_seq in I. apply H. lia. }
  rewrite map_length, seq_length in H0. lia.
Qed.
Lemma half_collision : forall aes, is_cipher aes -> exists x y, reduced x /\ reduced y /\ x <> y /\
  half aes (fe_bit_stream x) = half aes (fe_bit_stream y).
Proof.
  intros aes C. set (n := length (allbits 128)).
  assert (Ln : (Z.of_nat n < P)%Z) by (unfold n; rewrite allbits_length; vm_compute; reflexivity).
  set (g := fun i => U512 (Z.of_nat i mod W128) (Z.of_nat i / W128) (U256 0 0 0)).
  assert (W : (0 < W128)%Z) by (vm_compute; reflexivity).
  assert (PW : (P < W128 * W128)%Z) by (vm_compute; reflexivity).
  assert (V : forall i, val512 (g i) = Z.of_nat i).
  { intro i. unfold val512, val256, g. cbn [lo5 mid5 hi5 lo6 mid6 hi6].
    pose proof (Z.div_mod (Z.of_nat i) W128 ltac:(lia)). nia. }
  assert (R : forall i, i < S n -> reduced (g i)).
  { intros i Hi. split; [|rewrite V; lia]. split; [apply Z.mod_pos_bound, W|]. split; [|apply wf256_zero].
    cbn [mid5 g]. split; [apply Z.div_pos; lia|]. apply Z.div_lt_upper_bound; lia. }
  destruct (pigeon (S n) (allbits 128) (fun i => half aes (fe_bit_stream (g i)))) as (i & j & A & B & E).
  - unfold n. lia.
  - intros i _. pose proof (allbits_in (half aes (fe_bit_stream (g i)))) as I.
    rewrite (half_length aes _ C (fe_bit_stream_length _)) in I. exact I.
  - exists (g i), (g j). split; [apply R; lia|]. split; [apply R; lia|]. split; [|exact E].
    intro X. apply (f_equal val512) in X. rewrite !V in X. lia.
Qed.

(** ** Padding *)
Lemma repeat_app_cancel : forall (a b : bits) k l, k <= l -> a ++ repeat false k = b ++ repeat false l ->
  a = b ++ repeat false (l - k).
Proof.
  intros a b k l H E. replace l with ((l - k) + k) in E by lia. rewrite repeat_app, app_assoc in E.
  apply app_inv_tail in E. exact E.
Qed.
Lemma padded_collision : forall t t' x, padded t x -> padded t' x ->
  exists k, k < 512 /\ (flat_map msg_output t = flat_map msg_output t' ++ repeat false k \/
                       flat_map msg_output t' = flat_map msg_output t ++ repeat false k).
Proof.
  intros t t' x (k & Hk & E & _) (l & Hl & E' & _). rewrite E in E'.
  destruct (Nat.le_ge_cases k l) as [L|L].
  - exists (l - k). split; [lia|]. left. apply repeat_app_cancel; [exact L|exact E'].
  - exists (k - l). split; [lia|]. right. apply repeat_app_cancel; [exact L|symmetry; exact E'].
Qed.
Lemma byte_bits_inj : forall a b, (0 <= a < 256)%Z -> (0 <= b < 256)%Z -> byte_bits a = byte_bits b -> a = b.
Proof. intros a b Ha Hb E. rewrite <- (byte_bits_value a Ha), E. apply byte_bits_value, Hb. Qed.
Lemma app_split : forall A (a b c d : list A), length a = length c -> a ++ b = c ++ d -> a = c /\ b = d.
Proof.
  induction a; intros b [|z c] d L E; try discriminate; [split; [reflexivity|exact E]|].
  injection L as L. injection E as -> E. destruct (IHa _ _ _ L E) as [-> ->]. split; reflexivity.
Qed.
Lemma bytes_inj : forall l m, length l = length m -> Forall (fun b => (0 <= b < 256)%Z) l ->
  Forall (fun b => (0 <= b < 256)%Z) m -> flat_map byte_bits l = flat_map byte_bits m -> l = m.
Proof.
  induction l; intros [|z m] L Hl Hm E; try discriminate; [reflexivity|].
  injection L as L. inversion Hl; subst. inversion Hm; subst. cbn [flat_map] in E.
  apply app_split in E; [|reflexivity]. destruct E as [E1 E2]. f_equal; [apply byte_bits_inj; assumption|].
  apply IHl; assumption.
Qed.
Lemma msg_output_length : forall ec1 m m', ok_msg ec1 m -> ok_msg ec1 m' -> msg_kind m = msg_kind m' ->
  length (msg_output m) = length (msg_output m').
Proof.
  intros ec1 m m' H H' K. destruct m, m'; cbn in K; try discriminate; cbn [msg_output];
    try (rewrite !fe_bit_stream_length; reflexivity).
  rewrite !flat_bytes_length. destruct H as [-> _], H' as [-> _]. reflexivity.
Qed.
Definition small_msg (m : msg) : Prop := match m with MFld x | MRand x => reduced x | MCurve _ => True end.
Lemma msg_output_inj : forall ec1 m m', ok_msg ec1 m -> ok_msg ec1 m' -> small_msg m -> small_msg m' ->
  msg_kind m = msg_kind m' -> msg_output m = msg_output m' -> m = m'.
Proof.
  assert (PW : (P < W256)%Z) by (vm_compute; reflexivity).
  assert (F : forall x y, reduced x -> reduced y -> fe_bit_stream x = fe_bit_stream y -> x = y).
  { intros x y [Wx Bx] [Wy By] E. apply fe_bit_stream_inj; try assumption; lia. }
  intros ec1 m m' H H' S S' K E. destruct m, m'; cbn in K; try discriminate; cbn [msg_output] in E;
    f_equal; try (apply F; assumption).
  destruct H as [L B], H' as [L' B']. apply bytes_inj; try assumption. congruence.
Qed.
Lemma stream_inj : forall ec1 t t', Forall (ok_msg ec1) t -> Forall (ok_msg ec1) t' ->
  Forall small_msg t -> Forall small_msg t' -> map msg_kind t = map msg_kind t' ->
  flat_map msg_output t = flat_map msg_output t' -> t = t'.
Proof.
  induction t as [|m t IH]; intros [|m' t'] H H' S S' K E; try discriminate; [reflexivity|].
  inversion H; subst. inversion H'; subst. inversion S; subst. inversion S'; subst.
  cbn [map] in K. injection K as K1 K2. cbn [flat_map] in E.
  apply app_split in E; [|eapply msg_output_length; eassumption]. destruct E as [E1 E2].
  f_equal; [eapply msg_output_inj; eassumption|]. apply IH; assumption.
Qed.
Lemma stream_length : forall ec1 t t', Forall (ok_msg ec1) t -> Forall (ok_msg ec1) t' ->
  map msg_kind t = map msg_kind t' -> length (flat_map msg_output t) = length (flat_map msg_output t').
Proof.
  induction t as [|m t IH]; intros [|m' t'] H H' K; try discriminate; [reflexivity|].
  inversion H; subst. inversion H'; subst. cbn [map] in K. injection K as K1 K2. cbn [flat_map].
  rewrite !app_length. rewrite (msg_output_length ec1 m m') by assumption. rewrite (IH t') by assumption. reflexivity.
Qed.
Theorem same_kinds_inj : forall ec1 t t' x, Forall (ok_msg ec1) t -> Forall (ok_msg ec1) t' ->
  Forall small_msg t -> Forall small_msg t' -> map msg_kind t = map msg_kind t' ->
  padded t x -> padded t' x -> t = t'.
Proof.
  intros ec1 t t' x H H' S S' K Hp Hp'.
  pose proof (stream_length ec1 t t' H H' K) as L.
  apply (stream_inj ec1); try assumption.
  destruct (padded_collision t t' x Hp Hp') as (k & _ & [E|E]);
    (rewrite E in L |- *; rewrite app_length, repeat_length in L; replace k with 0 by lia; apply app_nil_r) ||
    (rewrite E; rewrite E, app_length, repeat_length in L; replace k with 0 by lia; symmetry; apply app_nil_r).
Qed.
Lemma field_stream : forall t, (forall m, In m t -> msg_kind m <> 0) ->
  exists l, flat_map msg_output t = concat l /\ Forall (fun b => length b = 256) l /\ length l = length t /\
            l = map msg_output t.
Proof.
  intros t H. exists (map msg_output t). split; [apply flat_map_concat_map|]. split; [|split; [apply map_length|reflexivity]].
  apply Forall_forall. intros b I. apply in_map_iff in I. destruct I as (m & <- & I).
  specialize (H m I). destruct m; cbn [msg_output msg_kind] in *; try apply fe_bit_stream_length. congruence.
Qed.
Lemma padded_blocks : forall t x, (forall m, In m t -> msg_kind m <> 0) -> padded t x ->
  x = concat (map msg_output t ++ if Nat.even (length t) then [] else [repeat false 256]).
Proof.
  intros t x H Hp. destruct (field_stream t H) as (l & E & F & L & El).
  rewrite (padded_eq t x Hp), E, concat_app, <- El. f_equal.
  pose proof (concat_length l F) as CL. unfold bits in *. rewrite CL, L. clear. destruct (Nat.Even_or_Odd (length t)) as [(c & Ec)|(c & Ec)].
  - rewrite Ec. replace (2 * c * 256) with (c * 512) by lia. rewrite Nat.mod_mul by lia.
    rewrite Nat.even_mul. reflexivity.
  - rewrite Ec. replace ((2 * c + 1) * 256) with (256 + c * 512) by lia. rewrite Nat.mod_add by lia.
    replace (Nat.even (2 * c + 1)) with false by (rewrite Nat.even_add, Nat.even_mul; reflexivity). 
    cbn [concat]. rewrite app_nil_r. reflexivity.
Qed.
Theorem swap_message : forall aes k pre post x y, is_cipher aes ->
  (forall m, In m (pre ++ post) -> msg_kind m <> 0) ->
  (Z.of_nat (256 * (length (pre ++ post) + 2)) < 2 ^ 31)%Z ->
  half aes (fe_bit_stream x) = half aes (fe_bit_stream y) ->
  exists r, transcript_random aes (pre ++ MFld x :: post) k = Ok (r, (pre ++ MFld x :: post) ++ map MRand r) /\
            transcript_random aes (pre ++ MFld y :: post) k = Ok (r, (pre ++ MFld y :: post) ++ map MRand r).
Proof.
  intros aes k pre post x y C H B E.
  assert (K : forall z m, In m (pre ++ MFld z :: post) -> msg_kind m <> 0).
  { intros z m I. apply in_app_or in I. destruct I as [I|[<-|I]]; [apply H, in_or_app; auto|discriminate|apply H, in_or_app; auto]. }
  assert (Ll : forall z, length (pre ++ MFld z :: post) = S (length (pre ++ post)))
    by (intro z; rewrite !app_length; cbn [length]; lia).
  assert (N : forall z, 0 < length (flat_map msg_output (pre ++ MFld z :: post))).
  { intro z. rewrite flat_map_app, app_length. cbn [flat_map msg_output]. rewrite app_length, fe_bit_stream_length. lia. }
  set (tl := if Nat.even (S (length (pre ++ post))) then [] else [repeat false 256]) in *.
  assert (Ft : Forall (fun b : bits => length b = 256) tl).
  { unfold tl. destruct (Nat.even _); constructor; [apply repeat_length|constructor]. }
  assert (Fz : forall z, Forall (fun b : bits => length b = 256) (map msg_output (pre ++ MFld z :: post) ++ tl)).
  { intro z. apply Forall_app. split; [|exact Ft]. destruct (field_stream _ (K z)) as (l & _ & F & _ & ->). exact F. }
  assert (Lt : length (pre ++ post) = 0 \/ length tl <= 1 /\ 2 <= length (map msg_output (pre ++ MFld x :: post) ++ tl)).
  { destruct (Nat.eq_dec (length (pre ++ post)) 0); [left; assumption|right]. unfold tl.
    split; [destruct (Nat.even _); cbn; lia|]. rewrite app_length, map_length, Ll. lia. }
  assert (L2 : 2 <= length (map msg_output (pre ++ MFld x :: post) ++ tl)).
  { destruct Lt as [Z0|[_ ?]]; [|assumption]. rewrite app_length, map_length, Ll. unfold tl. rewrite Z0. cbn. lia. }
  assert (Lt1 : length tl <= 1) by (unfold tl; destruct (Nat.even _); cbn; lia).
  destruct (padded_exists (pre ++ MFld x :: post)) as (sx & Px).
  destruct (padded_exists (pre ++ MFld y :: post)) as (sy & Py).
  pose proof (padded_blocks _ _ (K x) Px) as Ex. pose proof (padded_blocks _ _ (K y) Py) as Ey.
  rewrite Ll in Ex, Ey. fold tl in Ex, Ey.
  assert (Bl : forall z, length (concat (map msg_output (pre ++ MFld z :: post) ++ tl)) <= 256 * (length (pre ++ post) + 2)).
  { intro z. rewrite (concat_length _ (Fz z)), app_length, map_length, Ll. unfold bits in *. lia. }
  assert (D : stream_digest aes sx = stream_digest aes sy).
  { rewrite Ex, Ey. apply digest_ext; [exact L2|apply Fz|apply Fz|].
    rewrite !map_app. cbn [map msg_output]. rewrite E. reflexivity. }
  eexists. split.
  - apply random_ok; [exact C|exact Px|apply N|]. rewrite Ex. eapply Z.le_lt_trans; [apply inj_le, (Bl x)|exact B].
  - rewrite D. apply random_ok; [exact C|exact Py|apply N|]. rewrite Ey. eapply Z.le_lt_trans; [apply inj_le, (Bl y)|exact B].
Qed.
