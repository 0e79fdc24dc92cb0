(** * Files in order, from the text to the verdict of the fast track *)
From Coq Require Import ZArith List Bool Arith Lia Permutation.
From Verif Require Import Limbs LimbsProofs Field FieldProofs Fp Base Circuit FastProver Lazy TablesProofs FastProverProofs PhaseProofs FastVerifier FastVerifierProofs
  Loader SpecLoader LoaderProofs LoadedProofs FastLoader SpecFastLoader FastLoaderProofs.
Import ListNotations.
Open Scope nat_scope.

Lemma numbered_fst : forall l, map fst (numbered l) = seq 0 (length l).
Proof.
  intro l. unfold numbered. generalize 0. induction l as [|f l IH]; intro s; [reflexivity|]. cbn [length seq combine map fst]. rewrite IH. reflexivity.
Qed.
Lemma numbered_length : forall l, length (numbered l) = length l.
Proof. intro l. etransitivity; [apply combine_length|]. rewrite seq_length. lia. Qed.
Lemma numbered_in : forall l k f, In (k, f) (numbered l) -> nth_error l k = Some f.
Proof.
  intro l. unfold numbered. assert (G : forall s k f, In (k, f) (combine (seq s (length l)) l) -> s <= k /\ nth_error l (k - s) = Some f).
  { induction l as [|x l IH]; intros s k f I; [contradiction|]. cbn [length seq combine In] in I. destruct I as [E|I].
    - injection E as <- <-. rewrite Nat.sub_diag. split; [lia|reflexivity].
    - apply IH in I. destruct I as [A B]. split; [lia|]. replace (k - s) with (S (k - S s)) by lia. exact B. }
  intros k f I. destruct (G 0 k f I) as [_ E]. rewrite Nat.sub_0_r in E. exact E.
Qed.
Lemma last_seq : forall n d, 1 <= n -> last (seq 0 n) d = n - 1.
Proof.
  intros n d H. destruct n as [|n]; [lia|]. replace (S n) with (n + 1) by lia. rewrite seq_app. cbn [seq]. rewrite last_last. lia.
Qed.
Lemma numbered_last : forall l, 1 <= length l -> last_id (numbered l) = length l - 1.
Proof. intros l H. unfold last_id. rewrite numbered_fst. apply last_seq, H. Qed.
Lemma numbered_bits : forall l, 1 <= length l -> last_bits (numbered l) = least_bits (length l).
Proof.
  intros l H. unfold last_bits. rewrite numbered_length, numbered_last by exact H. unfold least_bits.
  destruct (Nat.eqb_spec (length l) 1) as [E|E]; [rewrite E; reflexivity|]. replace (S (length l - 1)) with (length l) by lia.
  pose proof (Nat.log2_up_pos (length l) ltac:(lia)). lia.
Qed.
Lemma fast_gates_length : forall l, length (fast_gates l) = length l + pad (length l).
Proof. intro l. unfold fast_gates, pad. rewrite app_length, map_length. destruct (Nat.eqb (length l) 1); reflexivity. Qed.
Lemma numbered_placed : forall l, placed (numbered l) (fast_gates l).
Proof.
  intro l. unfold placed. rewrite numbered_length. split; [apply fast_gates_length|]. split.
  - intros k f I. apply numbered_in in I. unfold fast_gates. assert (k < length l) by (apply nth_error_Some; congruence).
    rewrite nth_error_app1 by (rewrite map_length; assumption). apply map_nth_error, I.
  - intro E. destruct l as [|f [|]]; try discriminate. reflexivity.
Qed.
Lemma numbered_ok : forall first l, 1 <= length l -> (Z.of_nat (length l) <= 2 ^ 30)%Z -> Forall (fun f => entry_ok first (0, f)) l -> flayer_ok first (numbered l).
Proof.
  intros first l H1 H2 F. unfold flayer_ok. rewrite numbered_length, numbered_fst, numbered_last by exact H1.
  split; [exact H1|]. split; [lia|]. split; [apply Permutation_refl|]. split; [lia|].
  apply Forall_forall. intros [k f] I. apply numbered_in in I. rewrite Forall_forall in F. exact (F f (nth_error_In _ _ I)).
Qed.
Definition tokens_ok (first : bool) (l : list fgate) : Prop :=
  1 <= length l /\ (Z.of_nat (length l) <= 2 ^ 30)%Z /\ Forall (fun f => entry_ok first (0, f)) l.
Lemma in_order_loads : forall l L r, tokens_ok true l -> Forall (tokens_ok false) L -> (Z.of_nat (S (length L)) + 1 < 2 ^ 31)%Z ->
  fread_circuit (fcircuit_tokens (in_order (l :: L)) ++ r) = Ok (fast_circuit (l :: L), Z.of_nat (fast_bits (l :: L))).
Proof.
  intros l L r (A & B & D) F H. apply fread_circuit_iff. exists (in_order (l :: L)), r. split; [reflexivity|]. split; [|split].
  - split.
    + cbn [in_order map]. split; [apply numbered_ok; assumption|]. apply Forall_forall. intros y I. apply in_map_iff in I. destruct I as (x & <- & I).
      rewrite Forall_forall in F. destruct (F x I) as (A' & B' & D'). apply numbered_ok; assumption.
    + unfold in_order. rewrite map_length. exact H.
  - cbn [in_order map fdenotes]. exists (fast_gates l), (map fast_layer L). split; [apply numbered_placed|]. split.
    + clear - F. induction F as [|x L (A & _) F IH]; cbn [map]; constructor; [|exact IH].
      exists (fast_gates x). split; [apply numbered_placed|]. rewrite numbered_bits by exact A. reflexivity.
    + unfold fast_circuit, fast_layer. rewrite numbered_bits by exact A. rewrite map_length. reflexivity.
  - f_equal. unfold fast_bits, fmax_bits, in_order. rewrite map_map. f_equal. apply map_ext_in. intros x [<-|I]; [symmetry; apply numbered_bits, A|].
    rewrite Forall_forall in F. symmetry. apply numbered_bits, (F x I).
Qed.

(** ** The protocol on such a circuit *)
Definition row (L : list (list fgate)) (i : nat) : list fgate := nth (i - 1) L [].
Lemma fast_layer_at : forall L i, 2 <= i <= length L -> layer_at (fast_circuit L) i = fast_layer (row L i).
Proof.
  intros [|l L] i H; cbn [length] in H; [lia|]. unfold layer_at, row. cbn [fast_circuit circuit].
  destruct i as [|[|i]]; try lia. cbn [nth Nat.sub].
  change (plain_layer [] 0) with (plain_layer [] 0). rewrite (nth_indep _ _ (fast_layer [])) by (rewrite map_length; lia). apply map_nth.
Qed.
Lemma pow2_least : forall l, pow2_size l -> 2 ^ least_bits (length l) = positions l.
Proof.
  intros l H. rewrite full_layer by exact H. destruct H as [k E]. pose proof (pow2_pos k). unfold positions.
  rewrite file_gates_length by lia. destruct (Nat.eqb_spec (length l) 1); lia.
Qed.
Lemma fast_gates_positions : forall l, 1 <= length l -> length (fast_gates l) = positions l.
Proof. intros l H. rewrite fast_gates_length. unfold positions, pad. destruct (Nat.eqb_spec (length l) 1); lia. Qed.
Lemma fast_gate_at : forall l k, (exists f, In f l /\ nth k (fast_gates l) (Gate 2 0 0) = fast_gate f) \/ nth k (fast_gates l) (Gate 2 0 0) = Gate 2 0 0.
Proof.
  intros l k. unfold fast_gates. destruct (nth_error l k) as [f|] eqn:E.
  - left. exists f. split; [eapply nth_error_In, E|]. assert (k < length l) by (apply nth_error_Some; congruence).
    rewrite app_nth1 by (rewrite map_length; assumption). apply nth_error_nth. apply map_nth_error, E.
  - right. apply nth_error_None in E. rewrite app_nth2 by (rewrite map_length; exact E). rewrite map_length.
    destruct (Nat.eqb (length l) 1); destruct (k - length l) as [|[|q]]; reflexivity.
Qed.
Lemma int32_le : forall z n, (Z.of_nat n <= 2 ^ 30)%Z -> (0 <= z <= Z.of_nat n)%Z -> int32 z = z.
Proof. intros z n H Hz. apply int32_small. lia. Qed.
Lemma fast_gate_proto : forall n f, (Z.of_nat n <= 2 ^ 30)%Z -> fast_gate_ok n f -> proto_gate n (fast_gate f).
Proof.
  intros n [ty u v] Hn (_ & _ & H). unfold proto_gate, fast_gate. cbn [f_ty f_u f_v g_ty g_u g_v In] in *.
  destruct H as [(T & U & V)|[(-> & U)|[(-> & U & ->)|[(-> & U & V)| ->]]]].
  - destruct T as [<-|[<-|[<-|[<-|[<-|[]]]]]]; cbn [Z.eqb Pos.eqb]; rewrite (int32_le u n), (int32_le v n) by (exact Hn || lia); split; assumption.
  - cbn [Z.eqb Pos.eqb]. rewrite (int32_le u n) by (exact Hn || lia). split; [exact U|reflexivity].
  - cbn [Z.eqb Pos.eqb]. rewrite (int32_le u n) by (exact Hn || lia). split; [exact U|reflexivity].
  - cbn [Z.eqb Pos.eqb]. rewrite (int32_le u n), (int32_le v n) by (exact Hn || lia). split; assumption.
  - exact I.
Qed.
Lemma fast_rows : forall L n, fast_upper n L -> Forall (fun l => pow2_size l /\ (Z.of_nat (length l) <= 2 ^ 30)%Z) L.
Proof. induction L as [|l L IH]; intros n H; constructor; destruct H as (A & B & _ & U); [split; assumption|]. eapply IH, U. Qed.
Lemma fast_upper_nth : forall L l i, fast_upper (positions l) L -> i < length L -> Forall (fast_gate_ok (positions (nth i (l :: L) []))) (nth i L []).
Proof.
  induction L as [|x L IH]; intros l i U H; cbn [length] in H; [lia|]. destruct U as (_ & _ & F & U).
  destruct i; [exact F|]. cbn [nth]. apply (IH x i U). lia.
Qed.
Lemma positions_30 : forall l, (Z.of_nat (length l) <= 2 ^ 30)%Z -> (Z.of_nat (positions l) <= 2 ^ 30)%Z.
Proof. intros l H. unfold positions. lia. Qed.
Lemma fast_complete : forall L, fast_file L -> complete_circuit (fast_circuit L).
Proof.
  intros [|l L] [A Hd]; [contradiction|]. destruct A as (P & B & I & U). pose proof (fast_rows _ _ U) as FR.
  assert (PR : forall i, 2 <= i <= S (length L) -> pow2_size (row (l :: L) i) /\ (Z.of_nat (length (row (l :: L) i)) <= 2 ^ 30)%Z).
  { intros i Hi. unfold row. destruct i as [|[|i]]; try lia. cbn [Nat.sub nth]. rewrite Forall_forall in FR. apply FR, nth_In. lia. }
  assert (P1 : forall x, pow2_size x -> 1 <= length x) by (intros x [k ->]; apply pow2_pos).
  constructor.
  - cbn [fast_circuit total_depth circuit length]. rewrite map_length. reflexivity.
  - cbn [fast_circuit total_depth]. lia.
  - cbn [fast_circuit total_depth]. cbn [length] in Hd. lia.
  - intros i Hi. cbn [fast_circuit total_depth] in Hi. destruct i as [|[|i]].
    + unfold layer_at. cbn [fast_circuit circuit nth fast_layer plain_layer bit_length gates]. rewrite pow2_least, fast_gates_positions by auto. lia.
    + unfold layer_at. cbn [fast_circuit circuit nth plain_layer bit_length gates]. unfold copies. rewrite map_length, seq_length, pow2_least, fast_gates_positions by auto. lia.
    + destruct (PR (S (S i)) ltac:(lia)) as [Pi _]. rewrite fast_layer_at by (cbn [length]; lia). cbn [fast_layer plain_layer bit_length gates].
      rewrite pow2_least, fast_gates_positions by auto. lia.
  - intros g Hg. unfold layer_at, gate_at. cbn [fast_circuit circuit nth fast_layer plain_layer gates].
    destruct (fast_gate_at l g) as [(f & If & ->)| ->]; [|right; split; reflexivity].
    rewrite Forall_forall in I. destruct (I f If) as (_ & _ & [T|[T Z]]); unfold fast_gate; cbn [g_ty g_u]; [left; exact T|].
    right. split; [exact T|]. rewrite Z. reflexivity.
  - intros _. unfold copy_layer, layer_at, gate_at. cbn [fast_circuit circuit nth fast_layer plain_layer gates bit_length]. split; [reflexivity|].
    intros g Hg. rewrite pow2_least in Hg by exact P. rewrite (nth_error_nth _ _ _ (copies_nth _ _ (eq_ind_r (fun n => g < n) Hg (fast_gates_positions l (P1 l P))))).
    reflexivity.
  - intros i g Hi Hg. cbn [fast_circuit total_depth] in Hi.
    assert (BB : 2 ^ bit_length (layer_at (fast_circuit (l :: L)) (i - 1)) = positions (row (l :: L) (i - 1)) /\ (Z.of_nat (length (row (l :: L) (i - 1))) <= 2 ^ 30)%Z).
    { destruct (Nat.eq_dec i 2) as [->|N].
      - unfold layer_at, row. cbn [fast_circuit circuit nth Nat.sub plain_layer bit_length]. split; [apply pow2_least, P|exact B].
      - destruct (PR (i - 1) ltac:(lia)) as [Pi Bi]. rewrite fast_layer_at by (cbn [length]; lia). cbn [fast_layer plain_layer bit_length].
        split; [apply pow2_least, Pi|exact Bi]. }
    destruct BB as [-> B30]. rewrite fast_layer_at by (cbn [length]; lia). unfold gate_at. cbn [fast_layer plain_layer gates].
    destruct (fast_gate_at (row (l :: L) i) g) as [(f & If & ->)| ->]; [|exact Logic.I].
    apply fast_gate_proto; [apply positions_30, B30|]. pose proof (fast_upper_nth L l (i - 2) U ltac:(lia)) as FU. rewrite Forall_forall in FU.
    unfold row in *. replace (i - 1 - 1) with (i - 2) by lia. apply FU. destruct i as [|[|i]]; try lia. cbn [Nat.sub nth] in If |- *.
    rewrite ?Nat.sub_0_r in *. exact If.
Qed.
Lemma fast_file_tokens : forall L, fast_file L -> exists l r, L = l :: r /\ tokens_ok true l /\ Forall (tokens_ok false) r /\ (Z.of_nat (S (length r)) + 1 < 2 ^ 31)%Z.
Proof.
  intros [|l L] [A Hd]; [contradiction|]. destruct A as (P & B & I & U). exists l, L. split; [reflexivity|].
  assert (P1 : forall x, pow2_size x -> 1 <= length x) by (intros x [k ->]; apply pow2_pos).
  split; [|split].
  - split; [auto|]. split; [exact B|]. eapply Forall_impl; [|exact I]. intros f (Iu & Iv & T). unfold entry_ok. cbn [snd].
    split; [unfold is_int; destruct T as [->|[-> _]]; lia|]. split; [exact Iu|]. split; [exact Iv|]. intros _. tauto.
  - clear - U P1. revert l U. induction L as [|x L IH]; intros l U; constructor; destruct U as (P & B & F & U).
    + split; [auto|]. split; [exact B|]. eapply Forall_impl; [|exact F]. intros f (Iu & Iv & T). unfold entry_ok. cbn [snd].
      split; [|split; [exact Iu|]; split; [exact Iv|discriminate]]. unfold is_int. cbn [In] in T. decompose [or and] T; try contradiction; lia.
    + apply (IH x), U.
  - cbn [length] in Hd. lia.
Qed.
Lemma fast_end_to_end : forall L r, fast_file L ->
  fread_circuit (fcircuit_tokens (in_order L) ++ r) = Ok (fast_circuit L, Z.of_nat (fast_bits L)) /\
  complete_circuit (fast_circuit L) /\ max_bit_length (fast_circuit L) = fast_bits L.
Proof.
  intros L r H. destruct (fast_file_tokens L H) as (l & R & -> & A & B & D).
  split; [apply in_order_loads; assumption|]. split; [apply fast_complete, H|].
  unfold max_bit_length, fast_bits, fast_circuit, fast_layer. cbn [circuit map fold_right plain_layer bit_length]. rewrite map_map. cbn [plain_layer bit_length]. lia.
Qed.
