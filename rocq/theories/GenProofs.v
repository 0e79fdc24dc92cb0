(** * Proofs about the circuit generators *)
From Coq Require Import ZArith List Bool Arith Lia.
From Verif Require Import Limbs LimbsProofs Field FieldProofs Fp Base Circuit FastProver Lazy TablesProofs FastProverProofs FastVerifier FastVerifierProofs
  Loader SpecLoader LoaderProofs ZkEval ZkEvalProofs LoadedProofs SpecTranscript Transcript ZkProver ZkVerifier ZkPhaseProofs ZkPredProofs
  ZkLinkProofs ZkVerifierProofs ZkComplete SpecZk ZkFacts ZkLoaded Gen SpecGen.
Import ListNotations.
Open Scope nat_scope.

(** ** Nested loops *)
Lemma flat_map_ext_in : forall A B (f g : A -> list B) l, (forall x, In x l -> f x = g x) -> flat_map f l = flat_map g l.
Proof.
  induction l as [|x l IH]; intro H; [reflexivity|]. cbn [flat_map]. rewrite H by (left; reflexivity). rewrite IH; [reflexivity|].
  intros y Hy. apply H. right. exact Hy.
Qed.
Lemma flat_map_shift : forall A (f : nat -> list A) n s, flat_map f (seq s n) = flat_map (fun x => f (s + x)) (seq 0 n).
Proof.
  intros A f n. revert f. induction n as [|n IH]; intros f s; [reflexivity|]. cbn [seq flat_map]. rewrite Nat.add_0_r. f_equal.
  rewrite (IH f (S s)), (IH _ 1). apply flat_map_ext_in. intros x _. f_equal. lia.
Qed.
Lemma flat_map_app' : forall A B (f : A -> list B) l l', flat_map f (l ++ l') = flat_map f l ++ flat_map f l'.
Proof. intros A B f l l'. induction l as [|x l IH]; [reflexivity|]. cbn [app flat_map]. rewrite IH, app_assoc. reflexivity. Qed.
Lemma loop_mul : forall A (f : nat -> list A) b a,
  flat_map (fun i => flat_map (fun j => f (i * b + j)) (seq 0 b)) (seq 0 a) = flat_map f (seq 0 (a * b)).
Proof.
  intros A f b a. induction a as [|a IH]; [reflexivity|].
  rewrite seq_S, flat_map_app', IH. replace (S a * b) with (a * b + b) by lia. rewrite seq_app, flat_map_app'. f_equal.
  cbn [flat_map Nat.add]. rewrite app_nil_r. rewrite (flat_map_shift _ f b (a * b)). reflexivity.
Qed.
Lemma loop3_flat : forall A a b c (f : nat -> nat -> nat -> list A) (g : nat -> list A),
  (forall i j k, i < a -> j < b -> k < c -> f i j k = g ((i * b + j) * c + k)) -> loop3 a b c f = flat_map g (seq 0 (a * b * c)).
Proof.
  intros A a b c f g H. unfold loop3. rewrite <- loop_mul. rewrite <- loop_mul. apply flat_map_ext_in. intros i Hi. apply in_seq in Hi.
  apply flat_map_ext_in. intros j Hj. apply in_seq in Hj. apply flat_map_ext_in. intros k Hk. apply in_seq in Hk. apply H; lia.
Qed.
Lemma loop2_flat : forall A a b (f : nat -> nat -> list A) (g : nat -> list A),
  (forall i j, i < a -> j < b -> f i j = g (i * b + j)) -> loop2 a b f = flat_map g (seq 0 (a * b)).
Proof.
  intros A a b f g H. unfold loop2. rewrite <- loop_mul. apply flat_map_ext_in. intros i Hi. apply in_seq in Hi.
  apply flat_map_ext_in. intros j Hj. apply in_seq in Hj. apply H; lia.
Qed.

(** ** Tokens *)
Lemma tokens_app : forall a b, tokens (a ++ b) = tokens a ++ tokens b.
Proof. intros a b. apply flat_map_app'. Qed.
Lemma tokens_flat : forall A (f : A -> list item) l, tokens (flat_map f l) = flat_map (fun x => tokens (f x)) l.
Proof. intros A f l. induction l as [|x l IH]; [reflexivity|]. cbn [flat_map]. rewrite tokens_app, IH. reflexivity. Qed.
Lemma gate_tokens_flat : forall (h : nat -> fgate) n s,
  gate_tokens s (map h (seq s n)) = flat_map (fun x => [f_ty (h x); Z.of_nat x; f_u (h x); f_v (h x)]) (seq s n).
Proof. intros h n. induction n as [|n IH]; intro s; [reflexivity|]. cbn [seq map gate_tokens flat_map]. rewrite IH. reflexivity. Qed.
(** A layer of [n] gates. *)
Definition row (n : nat) (h : nat -> fgate) : list fgate := map h (seq 0 n).
Lemma row_length : forall n h, length (row n h) = n.
Proof. intros. unfold row. rewrite map_length, seq_length. reflexivity. Qed.
Lemma row_nth : forall n h x, x < n -> nth_error (row n h) x = Some (h x).
Proof.
  intros n h x H. unfold row. apply map_nth_error. rewrite (nth_error_nth' _ 0) by (rewrite seq_length; exact H).
  rewrite seq_nth by exact H. reflexivity.
Qed.
Lemma row_tokens : forall n h (f : nat -> list item),
  (forall x, x < n -> tokens (f x) = [f_ty (h x); Z.of_nat x; f_u (h x); f_v (h x)]) ->
  Z.of_nat n :: tokens (flat_map f (seq 0 n)) = layer_tokens (row n h).
Proof.
  intros n h f H. unfold layer_tokens. rewrite row_length. f_equal. unfold row. rewrite gate_tokens_flat, tokens_flat.
  apply flat_map_ext_in. intros x Hx. apply in_seq in Hx. apply H. lia.
Qed.
Definition pair_gate (ty : Z) (x : nat) : fgate := FGate ty (Z.of_nat (x * 2)) (Z.of_nat (x * 2 + 1)).

(** ** The addition-tree generator *)
(** The input gate at position [y] of the expanded input. *)
Definition tree_in (n : nat) (A B : nat -> nat -> Z) (y : nat) : fgate :=
  let x := y / 2 in
  FGate 3 (if Nat.even y then A (x / (n * n)) (x mod n) else B (x mod n) (x / n mod n)) 0.
Lemma split3 : forall n i j k, i < n -> j < n -> k < n ->
  ((i * n + j) * n + k) / (n * n) = i /\ ((i * n + j) * n + k) mod n = k /\ ((i * n + j) * n + k) / n mod n = j.
Proof.
  intros n i j k Hi Hj Hk.
  assert (D1 : ((i * n + j) * n + k) / n = i * n + j) by (rewrite Nat.div_add_l by lia; rewrite Nat.div_small by lia; lia).
  assert (D2 : (i * n + j) / n = i) by (rewrite Nat.div_add_l by lia; rewrite Nat.div_small by lia; lia).
  split; [|split].
  - rewrite <- Nat.div_div by lia. rewrite D1. exact D2.
  - rewrite Nat.add_comm, Nat.mod_add by lia. apply Nat.mod_small. exact Hk.
  - rewrite D1. rewrite Nat.add_comm, Nat.mod_add by lia. apply Nat.mod_small. exact Hj.
Qed.
Lemma tree_input_flat : forall n A B, loop3 n n n (fun i j k => input_items (2 * (i * n * n + j * n + k) + 0) (A i k) ++
                            input_items (2 * (i * n * n + j * n + k) + 1) (B k j)) =
  flat_map (fun y => input_items y (f_u (tree_in n A B y))) (seq 0 (n * n * n * 2)).
Proof.
  intros n A B. rewrite <- loop_mul. apply loop3_flat. intros i j k Hi Hj Hk.
  destruct (split3 n i j k Hi Hj Hk) as (E1 & E2 & E3). set (x := (i * n + j) * n + k) in *.
  replace (i * n * n + j * n + k) with x by (unfold x; lia).
  cbn [seq flat_map]. rewrite app_nil_r.
  assert (F0 : f_u (tree_in n A B (x * 2 + 0)) = A i k).
  { unfold tree_in. cbv zeta. cbn [f_u]. replace (x * 2 + 0) with (x * 2) by lia. rewrite Nat.div_mul, E1, E2 by lia.
    replace (Nat.even (x * 2)) with true; [reflexivity|]. symmetry. rewrite Nat.even_mul. cbn [Nat.even]. apply orb_true_r. }
  assert (F1 : f_u (tree_in n A B (x * 2 + 1)) = B k j).
  { unfold tree_in. cbv zeta. cbn [f_u]. replace (x * 2 + 1) with (1 + x * 2) by lia. rewrite Nat.div_add by lia.
    change (1 / 2 + x) with x. rewrite E2, E3. change (1 + x * 2) with (S (x * 2)).
    replace (Nat.even (S (x * 2))) with false; [reflexivity|]. symmetry. rewrite Nat.even_succ, <- Nat.negb_even, Nat.even_mul. cbn [Nat.even]. rewrite orb_true_r. reflexivity. }
  cbn [seq flat_map] in *. rewrite F0, F1. replace (2 * x + 0) with (x * 2 + 0) by lia. replace (2 * x + 1) with (x * 2 + 1) by lia. reflexivity.
Qed.
Lemma tree_input_tokens : forall n A B, tokens (tree_input n A B) = layer_tokens (row (n * n * n * 2) (tree_in n A B)).
Proof.
  intros n A B. unfold tree_input. rewrite tree_input_flat. cbn [tokens flat_map item_val app]. fold tokens.
  change (flat_map item_val) with tokens. rewrite tokens_app. cbn [tokens flat_map item_val]. rewrite app_nil_r.
  apply row_tokens. intros y _. reflexivity.
Qed.
Lemma tree_mult_tokens : forall n, tokens (tree_mult n) = layer_tokens (row (n * n * n) (pair_gate 1)).
Proof.
  intro n. unfold tree_mult. cbn [tokens flat_map item_val app]. change (flat_map item_val) with tokens. rewrite tokens_app.
  cbn [tokens flat_map item_val]. rewrite app_nil_r.
  rewrite (loop3_flat _ n n n _ (fun x => gate_items 1 x (x * 2) (x * 2 + 1))).
  - apply row_tokens. intros x _. reflexivity.
  - intros i j k _ _ _. cbv zeta. replace (i * n * n + j * n + k) with ((i * n + j) * n + k) by lia. reflexivity.
Qed.
Lemma tree_add_tokens : forall n l, tokens (tree_add n l) = layer_tokens (row (n * n * l) (pair_gate 0)).
Proof.
  intros n l. unfold tree_add. cbn [tokens flat_map item_val app]. change (flat_map item_val) with tokens. rewrite tokens_app.
  cbn [tokens flat_map item_val]. rewrite app_nil_r.
  rewrite (loop3_flat _ n n l _ (fun x => gate_items 0 x (x * 2) (x * 2 + 1))).
  - replace (l * n * n) with (n * n * l) by lia. apply row_tokens. intros x _. reflexivity.
  - intros i j k _ _ _. cbv zeta. replace (i * n * l + j * l + k) with ((i * n + j) * l + k) by lia. reflexivity.
Qed.
Fixpoint tree_rows (n c : nat) : list (list fgate) :=
  match c with O => [] | S c => row (n * n * 2 ^ c) (pair_gate 0) :: tree_rows n c end.

(** ** Lengths of the printed lines *)
Definition olen (o : list item) : Z := fold_right (fun x a => (item_len x + a)%Z) 0%Z o.
Lemma olen_app : forall a b, olen (a ++ b) = (olen a + olen b)%Z.
Proof. unfold olen. induction a as [|x a IH]; intro b; cbn [app fold_right]; [reflexivity|]. rewrite IH. lia. Qed.
Lemma digits_bound : forall f z, (1 <= digits f z <= 1 + Z.of_nat f)%Z.
Proof. induction f as [|f IH]; intro z; cbn [digits]; [lia|]. destruct (z <? 10)%Z; [lia|]. specialize (IH (z / 10)%Z). lia. Qed.
Lemma item_bound : forall x, (1 <= item_len x <= 12)%Z.
Proof. intros [z|z|]; cbn [item_len]; try (pose proof (digits_bound 10 z)); lia. Qed.
Lemma olen_flat : forall A (f : A -> list item) lo hi l, (forall x, lo <= olen (f x) <= hi)%Z ->
  (lo * Z.of_nat (length l) <= olen (flat_map f l) <= hi * Z.of_nat (length l))%Z.
Proof.
  intros A f lo hi l H. induction l as [|x l IH]; [cbn; lia|]. cbn [flat_map length]. rewrite olen_app. specialize (H x). lia.
Qed.
Lemma gate_items_bound : forall ty g u v, (4 <= olen (gate_items ty g u v) <= 48)%Z.
Proof.
  intros. unfold gate_items, olen. cbn [fold_right].
  pose proof (item_bound (Dec ty)). pose proof (item_bound (Dec (Z.of_nat g))). pose proof (item_bound (Dec (Z.of_nat u))). pose proof (item_bound (Dec (Z.of_nat v))). lia.
Qed.
Lemma input_items_bound : forall g x, (17 <= olen (input_items g x) <= 48)%Z.
Proof.
  intros. unfold input_items, olen. cbn [fold_right item_len].
  pose proof (digits_bound 10 3). pose proof (digits_bound 10 0). pose proof (digits_bound 10 (Z.of_nat g)). pose proof (digits_bound 10 x). lia.
Qed.
Lemma str_length_ok : forall o, (0 <= olen o < 2 ^ 31)%Z -> str_length o = Ok (olen o).
Proof.
  intros o H. unfold str_length, int_op. change (fold_right _ _ o) with (olen o). unfold in_int.
  assert (E : ((- 2 ^ 31 <=? olen o) && (olen o <? 2 ^ 31))%Z = true) by (apply andb_true_iff; split; [apply Z.leb_le|apply Z.ltb_lt]; lia).
  rewrite E. reflexivity.
Qed.
Lemma str_length_ub : forall o, (2 ^ 31 <= olen o)%Z -> str_length o = UB.
Proof.
  intros o H. unfold str_length, int_op. change (fold_right _ _ o) with (olen o). unfold in_int.
  assert (E : (olen o <? 2 ^ 31)%Z = false) by (apply Z.ltb_ge; lia). rewrite E, andb_false_r. reflexivity.
Qed.
Lemma layer_len : forall c (f : nat -> list item) n lo hi, (forall x, lo <= olen (f x) <= hi)%Z ->
  (lo * Z.of_nat n <= olen (Dec c :: flat_map f (seq 0 n) ++ [Newline]) <= hi * Z.of_nat n + 13)%Z.
Proof.
  intros c f n lo hi H. pose proof (olen_flat _ f lo hi (seq 0 n) H) as B. rewrite seq_length in B.
  change (olen (Dec c :: flat_map f (seq 0 n) ++ [Newline])) with (item_len (Dec c) + olen (flat_map f (seq 0 n) ++ [Newline]))%Z.
  rewrite olen_app. change (olen [Newline]) with 1%Z. pose proof (item_bound (Dec c)). lia.
Qed.
Lemma tree_input_len : forall n A B, let N := Z.of_nat (n * n * n) in (34 * N <= olen (tree_input n A B) <= 96 * N + 13)%Z.
Proof.
  intros n A B N. unfold tree_input. rewrite tree_input_flat.
  pose proof (layer_len (Z.of_nat (n * n * n * 2)) (fun y => input_items y (f_u (tree_in n A B y))) (n * n * n * 2) 17 48 ltac:(intro; apply input_items_bound)) as H.
  unfold N. lia.
Qed.
Lemma tree_mult_len : forall n, let N := Z.of_nat (n * n * n) in (0 <= olen (tree_mult n) <= 48 * N + 13)%Z.
Proof.
  intros n N. unfold tree_mult. rewrite (loop3_flat _ n n n _ (fun x => gate_items 1 x (x * 2) (x * 2 + 1))).
  - pose proof (layer_len (Z.of_nat (n * n * n)) (fun x => gate_items 1 x (x * 2) (x * 2 + 1)) (n * n * n) 4 48 ltac:(intro; apply gate_items_bound)) as H. unfold N. lia.
  - intros i j k _ _ _. cbv zeta. replace (i * n * n + j * n + k) with ((i * n + j) * n + k) by lia. reflexivity.
Qed.
Lemma tree_add_len : forall n l, (0 <= olen (tree_add n l) <= 48 * Z.of_nat (n * n * l) + 13)%Z.
Proof.
  intros n l. unfold tree_add. rewrite (loop3_flat _ n n l _ (fun x => gate_items 0 x (x * 2) (x * 2 + 1))).
  - pose proof (layer_len (Z.of_nat (l * n * n)) (fun x => gate_items 0 x (x * 2) (x * 2 + 1)) (n * n * l) 4 48 ltac:(intro; apply gate_items_bound)) as H. lia.
  - intros i j k _ _ _. cbv zeta. replace (i * n * l + j * l + k) with ((i * n + j) * l + k) by lia. reflexivity.
Qed.
Lemma tree_layers_ok : forall n k c dep, (48 * Z.of_nat (n * n * 2 ^ c) + 13 < 2 ^ 31)%Z ->
  exists o m, tree_layers n k c dep (2 ^ c) = Ok (o, m) /\ tokens o = concat (map layer_tokens (tree_rows n c)).
Proof.
  intros n k. induction c as [|c IH]; intros dep H; [exists [], []; split; reflexivity|].
  cbn [tree_layers]. replace (2 ^ S c / 2) with (2 ^ c) by (rewrite Nat.pow_succ_r', Nat.mul_comm, Nat.div_mul by lia; reflexivity).
  rewrite Nat.pow_succ_r' in H.
  destruct (IH (S dep)) as (o & m & E & T); [nia|].
  pose proof (tree_add_len n (2 ^ c)) as L. rewrite str_length_ok by nia. rewrite bind_ok, E, bind_ok.
  eexists _, _. split; [reflexivity|]. rewrite tokens_app, T, tree_add_tokens. reflexivity.
Qed.

Lemma mat_size_pow : forall k, k < 31 -> mat_size (2 ^ Z.of_nat k) = Ok k.
Proof.
  assert (E : forallb (fun k => match mat_size (2 ^ Z.of_nat k) with Ok l => l =? k | _ => false end) (seq 0 31) = true) by (vm_compute; reflexivity).
  intros k H. rewrite forallb_forall in E. specialize (E k ltac:(apply in_seq; lia)).
  destruct (mat_size _); try discriminate. apply Nat.eqb_eq in E. subst. reflexivity.
Qed.

(** ** The described circuits *)
Definition zmeta : fmeta := FMeta 0 0 0 0 0.
Definition tree_desc (k : nat) (A B : nat -> nat -> Z) : desc :=
  let n := 2 ^ k in Desc (row (n * n * n * 2) (tree_in n A B) :: row (n * n * n) (pair_gate 1) :: tree_rows n k) (repeat zmeta (k + 2)).
Lemma meta_zero : forall j, meta_tokens (repeat zmeta j) = repeat 0%Z (5 * j).
Proof.
  induction j as [|j IH]; [reflexivity|]. replace (5 * S j) with (5 + 5 * j) by lia. rewrite repeat_app, <- IH. reflexivity.
Qed.
Lemma tree_rows_length : forall n c, length (tree_rows n c) = c.
Proof. induction c; cbn [tree_rows length]; congruence. Qed.
Lemma least_bits_pow : forall m, 1 <= m -> least_bits (2 ^ m) = m.
Proof. intros m H. unfold least_bits. rewrite log2_up_pow2. lia. Qed.
Lemma size_pow : forall l m, length l = 2 ^ m -> m <= 30 -> layer_size_ok l.
Proof.
  intros l m E H. unfold layer_size_ok. rewrite E. split; [pose proof (Nat.pow_nonzero 2 m); lia|]. rewrite LoadedProofs.pow_Z. apply Z.pow_le_mono_r; lia.
Qed.
Lemma pair_row_ok : forall ty m, m < 30 -> (ty = 0 \/ ty = 1)%Z -> Forall (gate_ok (S m)) (row (2 ^ m) (pair_gate ty)).
Proof.
  intros ty m Hm Hty. apply Forall_forall. intros f Hf. unfold row in Hf. apply in_map_iff in Hf. destruct Hf as (x & <- & Hx). apply in_seq in Hx.
  assert (E : (2 ^ Z.of_nat (S m) = 2 * Z.of_nat (2 ^ m))%Z) by (rewrite Nat2Z.inj_succ, Z.pow_succ_r by lia; rewrite LoadedProofs.pow_Z; reflexivity).
  assert (M : (2 * Z.of_nat (2 ^ m) <= 2 ^ 30)%Z) by (rewrite <- E; apply Z.pow_le_mono_r; lia).
  unfold gate_ok, pair_gate, is_int, is_ll. cbn [f_ty f_u f_v]. rewrite E. lia.
Qed.
Lemma tree_rows_ok : forall k c, 1 <= k -> 2 * k + c <= 30 -> upper_ok (2 * k + c) (tree_rows (2 ^ k) c).
Proof.
  intros k c Hk. induction c as [|c IH]; intro H; [exact I|]. cbn [tree_rows upper_ok].
  assert (E : 2 ^ k * 2 ^ k * 2 ^ c = 2 ^ (2 * k + c)) by (rewrite !Nat.pow_add_r; cbn [Nat.mul]; rewrite Nat.add_0_r, Nat.pow_add_r; reflexivity).
  rewrite E. split; [|split].
  - apply size_pow with (2 * k + c); [apply row_length|lia].
  - replace (2 * k + S c) with (S (2 * k + c)) by lia. apply pair_row_ok; [lia|auto].
  - rewrite row_length, least_bits_pow by lia. apply IH. lia.
Qed.
Lemma cube_pow : forall k, 2 ^ k * 2 ^ k * 2 ^ k = 2 ^ (3 * k).
Proof. intro k. replace (3 * k) with (k + k + k) by lia. rewrite !Nat.pow_add_r. reflexivity. Qed.
Lemma tree_desc_ok : forall k A B, k <= 9 -> (forall i j, 0 <= A i j < 10)%Z -> (forall i j, 0 <= B i j < 10)%Z -> desc_ok (tree_desc k A B).
Proof.
  intros k A B Hk HA HB. unfold desc_ok, tree_desc. cbv zeta. cbn [d_layers d_meta]. rewrite cube_pow.
  assert (E2 : 2 ^ (3 * k) * 2 = 2 ^ S (3 * k)) by (rewrite Nat.pow_succ_r'; lia). rewrite E2.
  split; [split; [|split]|split; [|split]].
  - apply size_pow with (S (3 * k)); [apply row_length|lia].
  - apply Forall_forall. intros f Hf. unfold row in Hf. apply in_map_iff in Hf. destruct Hf as (y & <- & _). unfold input_ok, tree_in, is_ll. cbn [f_ty f_u f_v].
    split; [|lia]. destruct (Nat.even y); [pose proof (HA (y / 2 / (2 ^ k * 2 ^ k)) ((y / 2) mod 2 ^ k))|pose proof (HB ((y / 2) mod 2 ^ k) (y / 2 / 2 ^ k mod 2 ^ k))]; lia.
  - rewrite row_length, least_bits_pow by lia. cbn [upper_ok]. split; [|split].
    + apply size_pow with (3 * k); [apply row_length|lia].
    + apply pair_row_ok; [lia|auto].
    + destruct (Nat.eq_dec k 0) as [->|Hk0]; [exact I|]. rewrite row_length, least_bits_pow by lia.
      replace (3 * k) with (2 * k + k) by lia. apply tree_rows_ok; lia.
  - cbn [length]. rewrite tree_rows_length. lia.
  - cbn [length]. rewrite tree_rows_length, repeat_length. lia.
  - apply Forall_forall. intros m Hm. apply repeat_spec in Hm. subst m. unfold meta_ok, zmeta, is_int. cbn [m_para m_block m_repeat m_log_block m_log_repeat]. lia.
Qed.
Lemma tree_pow2 : forall k A B, Forall pow2_size (d_layers (tree_desc k A B)).
Proof.
  intros k A B. unfold tree_desc. cbv zeta. cbn [d_layers]. rewrite cube_pow.
  constructor; [exists (S (3 * k)); rewrite row_length, Nat.pow_succ_r'; lia|].
  constructor; [exists (3 * k); apply row_length|].
  generalize k at 2 as c. induction c as [|c IH]; [constructor|]. cbn [tree_rows]. constructor; [|exact IH].
  exists (k + k + c). rewrite row_length, !Nat.pow_add_r. reflexivity.
Qed.

(** ** Values of loaded circuits *)
Lemma loaded_input_value : forall D x f, desc_ok D -> nth_error (file_row D 1) x = Some f -> (0 <= f_u f < 2 ^ 31)%Z ->
  vals (denotes D) 0 x = ofZ (f_u f).
Proof.
  intros D x f H E Hf. destruct (denotes_depth D H) as [T LC].
  rewrite vals_0 by (intro K; rewrite K in LC; discriminate). unfold input_spec, gate_at.
  destruct (denotes_layer D 0 H ltac:(lia)) as [G _]. rewrite G. unfold row_gates. cbn [Nat.eqb]. change (file_row D 0) with (file_row D 1).
  rewrite (file_gate_some _ _ _ E). unfold file_gate. cbn [g_u]. rewrite W64_val. apply int32_field; [unfold is_ll; lia|exact Hf].
Qed.
Lemma loaded_copy_value : forall D x, desc_ok D -> x < length (file_gates (file_row D 1)) -> 1 <= length (d_layers D) ->
  vals (denotes D) 1 x = vals (denotes D) 0 x.
Proof.
  intros D x H Hx HL. destruct (denotes_depth D H) as [T LC]. rewrite vals_S by lia. unfold gate_at.
  destruct (denotes_layer D 1 H ltac:(lia)) as [G _]. rewrite G. unfold row_gates. cbn [Nat.eqb]. rewrite copy_gate_at by exact Hx.
  unfold gate_spec. cbn [g_ty g_u]. rewrite Nat2Z.id. reflexivity.
Qed.
Lemma loaded_gate_value : forall D i x f, desc_ok D -> 2 <= i <= length (d_layers D) -> nth_error (file_row D i) x = Some f ->
  vals (denotes D) i x = gate_spec (vals (denotes D) (i - 1)) (file_gate f).
Proof.
  intros D i x f H Hi E. destruct (denotes_depth D H) as [T LC]. destruct i as [|i]; [lia|]. rewrite vals_S by lia. unfold gate_at.
  destruct (denotes_layer D (S i) H ltac:(lia)) as [G _]. rewrite G. unfold row_gates. destruct (Nat.eqb_spec (S i) 1); [lia|].
  rewrite (file_gate_some _ _ _ E). replace (S i - 1) with i by lia. reflexivity.
Qed.
Lemma pair_value : forall V ty x m, x < 2 ^ m -> m < 30 -> (ty = 0 \/ ty = 1)%Z ->
  gate_spec V (file_gate (pair_gate ty x)) = (if (ty =? 0)%Z then V (x * 2)%nat + V (x * 2 + 1)%nat else V (x * 2)%nat * V (x * 2 + 1)%nat)%F.
Proof.
  intros V ty x m Hx Hm Hty. assert (B : (Z.of_nat x < 2 ^ 29)%Z).
  { apply Z.lt_le_trans with (Z.of_nat (2 ^ m)); [lia|]. rewrite LoadedProofs.pow_Z. apply Z.pow_le_mono_r; lia. }
  unfold gate_spec, file_gate, pair_gate. cbn [f_ty f_u f_v g_ty g_u g_v].
  destruct Hty as [-> | ->]; cbn [Z.eqb Pos.eqb orb]; rewrite !int32_small, !Nat2Z.id by lia; reflexivity.
Qed.
Lemma sumn_Z : forall n f, sumn n (fun t => ofZ (f t)) = ofZ (sumz n f).
Proof. induction n as [|n IH]; intro f; [reflexivity|]. cbn [sumn sumz]. rewrite IH, ofZ_add. reflexivity. Qed.
Lemma tree_row_at : forall n c d, d < c -> nth d (tree_rows n c) [] = row (n * n * 2 ^ (c - 1 - d)) (pair_gate 0).
Proof.
  intros n c. induction c as [|c IH]; intros d H; [lia|]. destruct d as [|d]; cbn [tree_rows nth].
  - do 3 f_equal. lia.
  - rewrite IH by lia. do 3 f_equal. lia.
Qed.
Lemma tree_values : forall k A B, k <= 9 -> (forall i j, 0 <= A i j < 10)%Z -> (forall i j, 0 <= B i j < 10)%Z ->
  let n := 2 ^ k in let C := denotes (tree_desc k A B) in
  forall i j, i < n -> j < n -> vals C (k + 2) (i * n + j) = ofZ (mat_mul n A B i j).
Proof.
  intros k A B Hk HA HB n C i j Hi Hj. pose proof (tree_desc_ok k A B Hk HA HB) as OK.
  assert (LD : length (d_layers (tree_desc k A B)) = k + 2) by (unfold tree_desc; cbn [d_layers length]; rewrite tree_rows_length; lia).
  assert (N3 : n * n * n = 2 ^ (3 * k)) by apply cube_pow.
  (* the products *)
  assert (V2 : forall x, x < n * n * n -> vals C 2 x = ofZ (A (x / (n * n))%nat (x mod n)%nat * B (x mod n)%nat (x / n mod n)%nat)).
  { intros x Hx. unfold C. rewrite (loaded_gate_value _ 2 x (pair_gate 1 x) OK); [|lia|apply row_nth; exact Hx].
    rewrite (pair_value _ 1 x (3 * k)) by (try rewrite <- N3; try lia; auto). cbn [Z.eqb Pos.eqb Nat.sub].
    assert (V1 : forall y, y < n * n * n * 2 -> vals (denotes (tree_desc k A B)) 1 y = ofZ (f_u (tree_in n A B y))).
    { intros y Hy. rewrite loaded_copy_value; [|exact OK| |lia].
      - apply (loaded_input_value _ y (tree_in n A B y) OK); [apply row_nth; exact Hy|].
        unfold tree_in. cbv zeta. cbn [f_u]. destruct (Nat.even y); [pose proof (HA (y / 2 / (n * n)) ((y / 2) mod n))|pose proof (HB ((y / 2) mod n) (y / 2 / n mod n))]; lia.
      - unfold file_gates. rewrite app_length, map_length. change (file_row (tree_desc k A B) 1) with (row (n * n * n * 2) (tree_in n A B)).
        rewrite row_length. lia. }
    rewrite !V1 by lia. rewrite <- ofZ_mul. f_equal. unfold tree_in. cbv zeta. cbn [f_u].
    replace (Nat.even (x * 2)) with true by (symmetry; rewrite Nat.even_mul; cbn [Nat.even]; apply orb_true_r).
    replace (Nat.even (x * 2 + 1)) with false by (symmetry; rewrite Nat.add_comm; cbn [Nat.add]; rewrite Nat.even_succ, <- Nat.negb_even, Nat.even_mul; cbn [Nat.even]; rewrite orb_true_r; reflexivity).
    rewrite Nat.div_mul by lia. replace (x * 2 + 1) with (1 + x * 2) by lia. rewrite Nat.div_add by lia. change (1 / 2 + x) with x. reflexivity. }
  (* the sums *)
  assert (VS : forall d x, d <= k -> x < n * n * 2 ^ (k - d) -> vals C (2 + d) x = sumn (2 ^ d) (fun t => vals C 2 (x * 2 ^ d + t))).
  { intros d. induction d as [|d IH]; intros x Hd Hx.
    - cbn [Nat.pow sumn Nat.add]. rewrite Nat.mul_1_r, Nat.add_0_r. ring.
    - unfold C. rewrite (loaded_gate_value _ (2 + S d) x (pair_gate 0 x) OK); [|lia|].
      2:{ unfold file_row, tree_desc. cbv zeta. cbn [d_layers]. replace (2 + S d - 1) with (S (S d)) by lia. cbn [nth]. fold n.
          rewrite tree_row_at by lia. apply row_nth. replace (k - 1 - d) with (k - S d) by lia. exact Hx. }
      assert (PB : n * n * 2 ^ (k - S d) = 2 ^ (2 * k + (k - S d))) by (unfold n; rewrite !Nat.pow_add_r; cbn [Nat.mul]; rewrite Nat.add_0_r, Nat.pow_add_r; reflexivity).
      rewrite (pair_value _ 0 x (2 * k + (k - S d))) by (try rewrite <- PB; try exact Hx; try lia; auto). cbn [Z.eqb].
      replace (2 + S d - 1) with (2 + d) by lia. fold C.
      assert (PK : 2 ^ (k - d) = 2 * 2 ^ (k - S d)) by (rewrite <- Nat.pow_succ_r'; f_equal; lia).
      rewrite !IH by (try lia; rewrite PK; lia). rewrite Nat.pow_succ_r'. replace (2 * 2 ^ d) with (2 ^ d + 2 ^ d) by lia.
      rewrite sumn_app. f_equal; apply sumn_ext; intros t _; f_equal; lia. }
  replace (k + 2) with (2 + k) by lia. rewrite VS; [|lia|rewrite Nat.sub_diag; cbn [Nat.pow]; nia].
  fold n. unfold mat_mul. rewrite <- sumn_Z. apply sumn_ext. intros t Ht. rewrite V2 by nia.
  destruct (split3 n i j t Hi Hj Ht) as (E1 & E2 & E3). rewrite E1, E2, E3. reflexivity.
Qed.

(** ** Results of the addition-tree generator *)
Lemma int_op_ok : forall z, (- 2 ^ 31 <= z < 2 ^ 31)%Z -> int_op z = Ok z.
Proof.
  intros z H. unfold int_op, in_int. assert (E : ((- 2 ^ 31 <=? z) && (z <? 2 ^ 31))%Z = true) by (apply andb_true_iff; split; [apply Z.leb_le|apply Z.ltb_lt]; lia).
  rewrite E. reflexivity.
Qed.
Lemma int_op_ub : forall z, (2 ^ 31 <= z)%Z -> int_op z = UB.
Proof. intros z H. unfold int_op, in_int. assert (E : (z <? 2 ^ 31)%Z = false) by (apply Z.ltb_ge; lia). rewrite E, andb_false_r. reflexivity. Qed.
Lemma mat_digit : forall n rnd, (forall i j, 0 <= mat_A n rnd i j < 10)%Z /\ (forall i j, 0 <= mat_B n rnd i j < 10)%Z.
Proof. intros n rnd. split; intros i j; apply Z.mod_pos_bound; lia. Qed.
Lemma to_nat_pow : forall k, Z.to_nat (2 ^ Z.of_nat k) = 2 ^ k.
Proof. intro k. rewrite <- LoadedProofs.pow_Z. apply Nat2Z.id. Qed.
Lemma cube_Z : forall k, (Z.of_nat (2 ^ k * 2 ^ k * 2 ^ k) = 2 ^ Z.of_nat (3 * k))%Z.
Proof. intro k. rewrite cube_pow. apply LoadedProofs.pow_Z. Qed.
Lemma cube_Z' : forall k, (2 ^ Z.of_nat k * 2 ^ Z.of_nat k * 2 ^ Z.of_nat k = 2 ^ Z.of_nat (3 * k))%Z.
Proof. intro k. rewrite <- cube_Z, !Nat2Z.inj_mul, !LoadedProofs.pow_Z. reflexivity. Qed.
Lemma gen_tree_ok : forall k rnd, k <= 8 -> exists mt o,
  gen_tree (2 ^ Z.of_nat k) rnd =
    Ok (circuit_tokens (d_layers (tree_desc k (mat_A (2 ^ k) rnd) (mat_B (2 ^ k) rnd))),
        [Z.of_nat (2 ^ k * 2); Z.of_nat (2 ^ k * 2 ^ k); Z.of_nat (k + 1); Z.of_nat (2 * k); olen o] ++ mt) /\
  (34 <= olen o < 2 ^ 31)%Z.
Proof.
  intros k rnd Hk. unfold gen_tree. rewrite mat_size_pow, bind_ok by lia. cbv zeta. rewrite to_nat_pow. set (n := 2 ^ k).
  assert (N3 : (1 <= Z.of_nat (n * n * n) <= 2 ^ 24)%Z).
  { unfold n. rewrite cube_Z. split; [pose proof (Z.pow_pos_nonneg 2 (Z.of_nat (3 * k))); lia|]. apply Z.pow_le_mono_r; lia. }
  assert (N3' : (2 ^ Z.of_nat k * 2 ^ Z.of_nat k * 2 ^ Z.of_nat k = Z.of_nat (n * n * n))%Z) by (rewrite cube_Z'; symmetry; apply cube_Z).
  rewrite int_op_ok, bind_ok by lia.
  set (A := mat_A n rnd). set (B := mat_B n rnd).
  pose proof (tree_input_len n A B) as L1. pose proof (tree_mult_len n) as L2. cbv zeta in L1, L2.
  rewrite str_length_ok, bind_ok by lia. rewrite str_length_ok, bind_ok by lia.
  destruct (tree_layers_ok n k k 0) as (o3 & m3 & E3 & T3); [fold n; lia|]. fold n in E3. rewrite E3, bind_ok.
  eexists _, (tree_input n A B). split; [|lia]. f_equal. f_equal.
  unfold circuit_tokens, tree_desc. fold n. cbn [d_layers length map concat]. rewrite tree_rows_length.
  cbn [tokens flat_map item_val app]. change (flat_map item_val) with tokens. replace (1 + 1 + k) with (S (S k)) by lia. f_equal.
  rewrite !tokens_app, tree_input_tokens, tree_mult_tokens, T3. reflexivity.
Qed.
Lemma gen_tree_ub : forall k rnd, 9 <= k < 31 -> gen_tree (2 ^ Z.of_nat k) rnd = UB.
Proof.
  intros k rnd Hk. unfold gen_tree. rewrite mat_size_pow, bind_ok by lia. cbv zeta. rewrite to_nat_pow. set (n := 2 ^ k).
  rewrite cube_Z'. destruct (Nat.eq_dec k 9) as [->|K].
  - rewrite int_op_ok, bind_ok by (split; vm_compute; [discriminate|reflexivity]).
    pose proof (tree_input_len n (mat_A n rnd) (mat_B n rnd)) as L1. cbv zeta in L1. unfold n in L1 at 1 2 3. rewrite cube_Z in L1.
    rewrite str_length_ub; [reflexivity|]. change (2 ^ Z.of_nat (3 * 9))%Z with 134217728%Z in L1. lia.
  - rewrite int_op_ub; [reflexivity|]. assert (2 ^ 30 <= 2 ^ Z.of_nat (3 * k))%Z by (apply Z.pow_le_mono_r; lia). lia.
Qed.

(** ** Descriptions without blocks *)
Lemma upper_par : forall L j i, is_parallel (nth i (upper_layers L (repeat zmeta j)) (plain_layer [] 0)) = false.
Proof. induction L as [|l L IH]; intros [|j] [|i]; cbn [repeat upper_layers nth]; try reflexivity. apply IH. Qed.
Lemma denotes_par : forall L j i, is_parallel (layer_at (denotes (Desc L (repeat zmeta j))) i) = false.
Proof.
  intros [|l L] [|j] i; try (destruct i; reflexivity). unfold denotes, layer_at. cbn [d_layers d_meta repeat circuit].
  destruct i as [|[|i]]; try reflexivity. cbn [nth]. apply upper_par.
Qed.
Lemma row_provable : forall D i g, desc_ok D -> 2 <= i <= length (d_layers D) ->
  (forall f, In f (file_row D i) -> In (f_ty f) [0; 1; 5]%Z) -> provable (gate_at (layer_at (denotes D) i) g).
Proof.
  intros D i g H Hi HT. unfold gate_at. destruct (denotes_layer D i H ltac:(lia)) as [G _]. rewrite G. unfold row_gates. destruct (Nat.eqb_spec i 1); [lia|].
  left. destruct (file_gate_at (file_row D i) g) as [(f & E & ->)| ->].
  - specialize (HT f (nth_error_In _ _ E)). unfold file_gate. cbn [g_ty In] in *. tauto.
  - cbn. tauto.
Qed.
Lemma circuit_max : forall D m, desc_ok D -> 1 <= m -> Forall (fun l => length l <= 2 ^ m) (d_layers D) -> max_bit_length (denotes D) <= m.
Proof.
  intros D m H Hm F. destruct (denotes_depth D H) as [T LC].
  assert (B : forall i, i < length (circuit (denotes D)) -> bit_length (layer_at (denotes D) i) <= m).
  { intros i Hi. destruct (denotes_layer D i H ltac:(lia)) as [_ ->]. unfold least_bits. apply Nat.max_lub; [exact Hm|].
    assert (LD : 1 <= length (d_layers D)) by (destruct H as (A & _); destruct (d_layers D); [contradiction|cbn; lia]).
    assert (Q : length (file_row D i) <= 2 ^ m). { rewrite Forall_forall in F. apply F. unfold file_row. apply nth_In. lia. }
    rewrite <- (log2_up_pow2 m). apply Nat.log2_up_le_mono. exact Q. }
  unfold max_bit_length. unfold layer_at in B. revert B. generalize (circuit (denotes D)) as ls. induction ls as [|l ls IH]; intro B; cbn [map fold_right]; [lia|].
  apply Nat.max_lub; [apply (B 0); cbn; lia|]. apply IH. intros i Hi. apply (B (S i)). cbn. lia.
Qed.
Lemma tree_accepted : forall k A B, k <= 8 -> (forall i j, 0 <= A i j < 10)%Z -> (forall i j, 0 <= B i j < 10)%Z ->
  let C := denotes (tree_desc k A B) in zcomplete_circuit C /\ forall ec1, ec1 <= 1000 -> (Z.of_nat (zmessages C * msize ec1 + 512) < 2 ^ 31)%Z.
Proof.
  intros k A B Hk HA HB C. pose proof (tree_desc_ok k A B ltac:(lia) HA HB) as OK. destruct (denotes_depth _ OK) as [T LC].
  assert (LD : length (d_layers (tree_desc k A B)) = k + 2) by (unfold tree_desc; cbn [d_layers length]; rewrite tree_rows_length; lia).
  rewrite LD in *. split.
  - apply loaded_zcomplete; [exact OK|apply tree_pow2|lia| | |].
    + intros i g Hi. apply row_provable; [exact OK|lia|]. intros f Hf. unfold file_row in Hf.
      destruct i as [|[|[|d]]]; [lia|lia| |].
      * unfold tree_desc in Hf. cbn [d_layers nth Nat.sub] in Hf. unfold row in Hf. apply in_map_iff in Hf. destruct Hf as (x & <- & _). cbn. tauto.
      * unfold tree_desc in Hf. cbv zeta in Hf. cbn [d_layers] in Hf. replace (S (S (S d)) - 1) with (S (S d)) in Hf by lia. cbn [nth] in Hf.
        rewrite tree_row_at in Hf by lia. unfold row in Hf. apply in_map_iff in Hf. destruct Hf as (x & <- & _). cbn. tauto.
    + apply denotes_par.
    + intros i Hi Q. exfalso. unfold tree_desc in Q. cbv zeta in Q. rewrite denotes_par in Q. discriminate.
  - intros ec1 He. assert (M : max_bit_length C <= 25).
    { apply circuit_max; [exact OK|lia|]. unfold tree_desc. cbv zeta. cbn [d_layers]. rewrite cube_pow.
      assert (Q : forall m c, c <= m -> 2 ^ c <= 2 ^ m) by (intros; apply Nat.pow_le_mono_r; lia).
      constructor; [rewrite row_length; replace (2 ^ (3 * k) * 2) with (2 ^ S (3 * k)) by (rewrite Nat.pow_succ_r'; lia); apply Q; lia|].
      constructor; [rewrite row_length; apply Q; lia|].
      assert (QC : forall c, c <= k -> Forall (fun l => length l <= 2 ^ 25) (tree_rows (2 ^ k) c)); [|apply QC; lia].
      induction c as [|c IH]; intro Hc; [constructor|]. cbn [tree_rows]. constructor; [|apply IH; lia].
      rewrite row_length. rewrite <- !Nat.pow_add_r. apply Q. lia. }
    assert (BM : forall i, i < total_depth C -> bit_length (layer_at C i) <= 25).
    { intros i Hi. etransitivity; [|exact M]. apply bit_length_max. unfold C in *. lia. }
    unfold zmessages, msize. pose proof (BM 0 ltac:(unfold C; lia)). pose proof (BM (total_depth C - 1) ltac:(unfold C; lia)). unfold C in *. rewrite T in *.
    set (b0 := bit_length (layer_at (denotes (tree_desc k A B)) 0)) in *. set (bd := bit_length (layer_at (denotes (tree_desc k A B)) (S (k + 2) - 1))) in *.
    set (mm := max_bit_length (denotes (tree_desc k A B))) in *.
    assert (X : (S (k + 2) - 1) * (18 * mm + 24) <= 10 * 474) by (apply Nat.mul_le_mono; lia).
    set (q := (S (k + 2) - 1) * (18 * mm + 24)) in *.
    assert (Y : (Z.of_nat (Nat.max 256 (8 * ec1)) <= 8000)%Z) by lia.
    assert (Z : (Z.of_nat (4 + 2 * bd + q + 2 * (b0 + 1)) <= 5000)%Z) by lia.
    rewrite Nat2Z.inj_add, Nat2Z.inj_mul.
    assert (W : (Z.of_nat (4 + 2 * bd + q + 2 * (b0 + 1)) * Z.of_nat (Nat.max 256 (8 * ec1)) <= 5000 * 8000)%Z) by (apply Z.mul_le_mono_nonneg; lia).
    lia.
Qed.

(** ** The generator with summation gates *)
Definition range_in (n : nat) (A B : nat -> nat -> Z) (y : nat) : fgate :=
  FGate 3 (if y <? n * n then A (y / n) (y mod n) else B ((y - n * n) / n) ((y - n * n) mod n)) 0.
Definition range_mult (n x : nat) : fgate :=
  FGate 1 (Z.of_nat (x / (n * n) * (x mod n))) (Z.of_nat (x mod n * (x / n mod n))).
Definition range_sum (n y : nat) : fgate := FGate 5 (Z.of_nat (y * n)) (Z.of_nat (y * n + n)).
Definition range_desc (k : nat) (A B : nat -> nat -> Z) : desc :=
  let n := 2 ^ k in Desc [row (n * n * 2) (range_in n A B); row (n * n * n) (range_mult n); row (n * n) (range_sum n)] (repeat zmeta 3).
Lemma split2 : forall n i j, j < n -> (i * n + j) / n = i /\ (i * n + j) mod n = j.
Proof.
  intros n i j H. split; [rewrite Nat.div_add_l, Nat.div_small by lia; lia|]. rewrite Nat.add_comm, Nat.mod_add by lia. apply Nat.mod_small, H.
Qed.
Lemma gen_range_ok : forall k rnd, k <= 10 ->
  gen_range (2 ^ Z.of_nat k) rnd =
    Ok (circuit_tokens (d_layers (range_desc k (mat_A (2 ^ k) rnd) (mat_B (2 ^ k) rnd))), meta_tokens (d_meta (range_desc k (mat_A (2 ^ k) rnd) (mat_B (2 ^ k) rnd)))).
Proof.
  intros k rnd Hk. unfold gen_range. rewrite mat_size_pow, bind_ok by lia. cbv zeta. rewrite to_nat_pow. set (n := 2 ^ k).
  assert (N3 : (1 <= 2 ^ Z.of_nat (3 * k) <= 2 ^ 30)%Z).
  { split; [pose proof (Z.pow_pos_nonneg 2 (Z.of_nat (3 * k))); lia|]. apply Z.pow_le_mono_r; lia. }
  assert (N2 : (1 <= 2 ^ Z.of_nat k * 2 ^ Z.of_nat k <= 2 ^ 20)%Z).
  { rewrite <- Z.pow_add_r by lia. split; [pose proof (Z.pow_pos_nonneg 2 (Z.of_nat k + Z.of_nat k)); lia|]. apply Z.pow_le_mono_r; lia. }
  rewrite cube_Z'. rewrite int_op_ok, bind_ok by lia.
  set (A := mat_A n rnd). set (B := mat_B n rnd). unfold range_desc. cbn [d_layers d_meta]. fold n. f_equal. f_equal.
  unfold circuit_tokens. cbn [length map concat]. cbn [tokens flat_map item_val app]. change (flat_map item_val) with tokens. f_equal.
  repeat (rewrite tokens_app || rewrite <- app_assoc || (cbn [tokens flat_map item_val app]; change (flat_map item_val) with tokens)).
  rewrite app_nil_r.
  set (f1 := fun y => input_items y (f_u (range_in n A B y))).
  set (f2 := fun x => gate_items 1 x (x / (n * n) * (x mod n)) (x mod n * (x / n mod n))).
  set (f3 := fun y => gate_items 5 y (y * n) (y * n + n)).
  rewrite <- (row_tokens (n * n * 2) (range_in n A B) f1) by (intros; reflexivity).
  rewrite <- (row_tokens (n * n * n) (range_mult n) f2) by (intros; reflexivity).
  rewrite <- (row_tokens (n * n) (range_sum n) f3) by (intros; reflexivity).
  rewrite <- !app_comm_cons. f_equal.
  replace (n * n * 2) with (n * n + n * n) by lia. rewrite seq_app, flat_map_app', tokens_app, <- ?app_assoc. f_equal; [|f_equal].
  - f_equal. apply loop2_flat. intros i j Hi Hj. unfold f1, range_in. cbn [f_u]. destruct (split2 n i j Hj) as [-> ->].
    destruct (Nat.ltb_spec (i * n + j) (n * n)); [reflexivity|nia].
  - f_equal. rewrite (flat_map_shift _ f1). apply loop2_flat. intros i j Hi Hj. unfold f1, range_in. cbn [f_u Nat.add].
    destruct (Nat.ltb_spec (n * n + (i * n + j)) (n * n)); [lia|]. replace (n * n + (i * n + j) - n * n) with (i * n + j) by lia.
    destruct (split2 n i j Hj) as [-> ->]. rewrite Nat.add_assoc. reflexivity.
  - f_equal. f_equal; [f_equal|f_equal; f_equal].
    + apply loop3_flat. intros i j t Hi Hj Ht. unfold f2. destruct (split3 n i j t Hi Hj Ht) as (-> & -> & ->).
      replace (i * n * n + j * n + t) with ((i * n + j) * n + t) by lia. reflexivity.
    + apply loop2_flat. intros i j Hi Hj. unfold f3. replace (i * n * n + j * n) with ((i * n + j) * n) by lia. reflexivity.
Qed.
Lemma row_forall : forall (Q : fgate -> Prop) n h, (forall x, x < n -> Q (h x)) -> Forall Q (row n h).
Proof.
  intros Q n h H. apply Forall_forall. intros f Hf. unfold row in Hf. apply in_map_iff in Hf. destruct Hf as (x & <- & Hx). apply in_seq in Hx. apply H. lia.
Qed.
Lemma range_wires : forall n x, x < n * n * n -> x / (n * n) * (x mod n) < n * n /\ x mod n * (x / n mod n) < n * n.
Proof.
  intros n x H. assert (0 < n) by (destruct n; lia).
  pose proof (Nat.mod_upper_bound x n ltac:(lia)). pose proof (Nat.mod_upper_bound (x / n) n ltac:(lia)).
  assert (x / (n * n) < n) by (apply Nat.div_lt_upper_bound; nia). split; nia.
Qed.
Lemma range_desc_ok : forall k A B, k <= 10 -> (forall i j, 0 <= A i j < 10)%Z -> (forall i j, 0 <= B i j < 10)%Z -> desc_ok (range_desc k A B).
Proof.
  intros k A B Hk HA HB. unfold desc_ok, range_desc. cbv zeta. cbn [d_layers d_meta]. set (n := 2 ^ k).
  assert (E3 : n * n * n = 2 ^ (3 * k)) by apply cube_pow.
  assert (E2 : n * n = 2 ^ (2 * k)) by (unfold n; rewrite <- Nat.pow_add_r; f_equal; lia).
  assert (E1 : n * n * 2 = 2 ^ S (2 * k)) by (rewrite Nat.pow_succ_r', E2; lia).
  assert (B3 : (Z.of_nat (n * n * n) <= 2 ^ 30)%Z) by (rewrite E3, LoadedProofs.pow_Z; apply Z.pow_le_mono_r; lia).
  assert (N0 : 0 < n) by (unfold n; pose proof (Nat.pow_nonzero 2 k); lia).
  split; [split; [|split]|split; [|split]].
  - apply size_pow with (S (2 * k)); [rewrite row_length; exact E1|lia].
  - apply row_forall. intros y _. unfold input_ok, range_in, is_ll. cbn [f_ty f_u f_v].
    split; [|lia]. destruct (y <? n * n); [pose proof (HA (y / n) (y mod n))|pose proof (HB ((y - n * n) / n) ((y - n * n) mod n))]; lia.
  - cbn [upper_ok]. rewrite !row_length. split; [|split; [|split; [|split; [|exact I]]]].
    + apply size_pow with (3 * k); [rewrite row_length; exact E3|lia].
    + apply row_forall. intros x Hx. destruct (range_wires n x Hx) as [W1 W2].
      assert (EB : (2 ^ Z.of_nat (least_bits (n * n * 2)) = Z.of_nat (n * n * 2))%Z) by (rewrite E1, least_bits_pow, LoadedProofs.pow_Z by lia; reflexivity).
      assert (n * n <= n * n * n) by nia.
      unfold gate_ok, range_mult, is_int, is_ll. cbn [f_ty f_u f_v]. rewrite EB. lia.
    + apply size_pow with (2 * k); [rewrite row_length; exact E2|lia].
    + apply row_forall. intros y Hy. assert (LB : n * n * n <= 2 ^ least_bits (n * n * n)).
      { rewrite E3. unfold least_bits. rewrite log2_up_pow2. apply Nat.pow_le_mono_r; lia. }
      apply inj_le in LB. rewrite (LoadedProofs.pow_Z (least_bits _)) in LB.
      assert (y * n + n <= n * n * n) by nia.
      unfold gate_ok, range_sum, is_int, is_ll. cbn [f_ty f_u f_v].
      assert (Z.of_nat (y * n + n) <= 2 ^ Z.of_nat (least_bits (n * n * n)))%Z by lia. lia.
  - cbn [length]. lia.
  - reflexivity.
  - apply Forall_forall. intros m Hm. apply repeat_spec in Hm. subst m. unfold meta_ok, zmeta, is_int. cbn [m_para m_block m_repeat m_log_block m_log_repeat]. lia.
Qed.
Lemma range_pow2 : forall k A B, Forall pow2_size (d_layers (range_desc k A B)).
Proof.
  intros k A B. unfold range_desc. cbv zeta. cbn [d_layers].
  constructor; [exists (S (k + k)); rewrite row_length, Nat.pow_succ_r', Nat.pow_add_r; lia|].
  constructor; [exists (3 * k); rewrite row_length; apply cube_pow|].
  constructor; [exists (k + k); rewrite row_length, Nat.pow_add_r; reflexivity|constructor].
Qed.
(** Output [i], [j] multiplies entries of the first matrix only. *)
Lemma range_values : forall k A B, k <= 10 -> (forall i j, 0 <= A i j < 10)%Z -> (forall i j, 0 <= B i j < 10)%Z ->
  let n := 2 ^ k in let C := denotes (range_desc k A B) in let a x := A (x / n)%nat (x mod n)%nat in
  forall i j, i < n -> j < n -> vals C 3 (i * n + j) = ofZ (sumz n (fun t => a (i * t)%nat * a (t * j)%nat)%Z).
Proof.
  intros k A B Hk HA HB n C a i j Hi Hj. pose proof (range_desc_ok k A B Hk HA HB) as OK.
  assert (B3 : (Z.of_nat (n * n * n) <= 2 ^ 30)%Z) by (unfold n; rewrite cube_Z; apply Z.pow_le_mono_r; lia).
  assert (LD : length (d_layers (range_desc k A B)) = 3) by reflexivity.
  assert (V1 : forall y, y < n * n -> vals C 1 y = ofZ (a y)).
  { intros y Hy. unfold C. rewrite loaded_copy_value; [|exact OK| |lia].
    - rewrite (loaded_input_value _ y (range_in n A B y) OK); [|apply row_nth; fold n; lia|].
      + unfold range_in. cbn [f_u]. destruct (Nat.ltb_spec y (n * n)); [reflexivity|lia].
      + unfold range_in. cbn [f_u]. destruct (Nat.ltb_spec y (n * n)); [|lia]. pose proof (HA (y / n) (y mod n)). lia.
    - unfold file_gates. rewrite app_length, map_length. change (file_row (range_desc k A B) 1) with (row (n * n * 2) (range_in n A B)).
      rewrite row_length. lia. }
  assert (V2 : forall x, x < n * n * n -> vals C 2 x = ofZ (a (x / (n * n) * (x mod n))%nat * a (x mod n * (x / n mod n))%nat)).
  { intros x Hx. unfold C. rewrite (loaded_gate_value _ 2 x (range_mult n x) OK); [|lia|apply row_nth; exact Hx]. cbn [Nat.sub].
    destruct (range_wires n x Hx) as [W1 W2]. assert (n * n <= n * n * n) by nia.
    unfold gate_spec, file_gate, range_mult. cbn [f_ty f_u f_v g_ty g_u g_v Z.eqb Pos.eqb orb]. rewrite !int32_small, !Nat2Z.id by lia.
    fold C. rewrite !V1, <- ofZ_mul by assumption. reflexivity. }
  unfold C. rewrite (loaded_gate_value _ 3 (i * n + j) (range_sum n (i * n + j)) OK); [|lia|apply row_nth; fold n; nia]. cbn [Nat.sub].
  assert (Y : (i * n + j) * n + n <= n * n * n) by nia.
  unfold gate_spec, file_gate, range_sum. cbn [f_ty f_u f_v g_ty g_u g_v Z.eqb Pos.eqb orb]. rewrite !int32_small, !Nat2Z.id by lia.
  replace ((i * n + j) * n + n - (i * n + j) * n) with n by lia. rewrite <- sumn_Z. apply sumn_ext. intros t Ht. fold C.
  rewrite V2 by lia. destruct (split3 n i j t Hi Hj Ht) as (-> & -> & ->). reflexivity.
Qed.
Lemma range_complete : forall k A B, k <= 10 -> (forall i j, 0 <= A i j < 10)%Z -> (forall i j, 0 <= B i j < 10)%Z ->
  zcomplete_circuit (denotes (range_desc k A B)).
Proof.
  intros k A B Hk HA HB. pose proof (range_desc_ok k A B Hk HA HB) as OK. destruct (denotes_depth _ OK) as [T LC].
  change (length (d_layers (range_desc k A B))) with 3 in *.
  apply loaded_zcomplete; [exact OK|apply range_pow2|lia| | |].
  - intros i g Hi. apply row_provable; [exact OK|change (length (d_layers (range_desc k A B))) with 3; lia|]. intros f Hf. unfold file_row in Hf.
    destruct i as [|[|[|[|d]]]]; try lia; cbn [Nat.sub] in Hf; unfold range_desc in Hf; cbv zeta in Hf; cbn [d_layers nth] in Hf;
      unfold row in Hf; apply in_map_iff in Hf; destruct Hf as (x & <- & _); cbn; tauto.
  - apply denotes_par.
  - intros i Hi Q. exfalso. unfold range_desc in Q. cbv zeta in Q. rewrite denotes_par in Q. discriminate.
Qed.
(** The last row of the evaluation. *)
Lemma evaluated : forall C, zcomplete_circuit C -> exists out cv, zevaluate C = Ok (out, cv) /\
  let n := 2 ^ bit_length (layer_at C (total_depth C - 1)) in
  forall x, x < n -> exists y, nth_error out x = Some y /\ rep y (vals C (total_depth C - 1) x).
Proof.
  intros C CC. pose proof (zcomplete_wf C CC) as WF. destruct (zevaluate_ok C WF) as ([row' cv] & E & (Lc & Rows) & Er). cbn [fst snd] in *.
  exists row', cv. split; [exact E|]. cbv zeta. intros x Hx. pose proof (zwf_pos _ WF). destruct (Rows (total_depth C - 1) ltac:(lia)) as (r & Er' & Tr).
  rewrite Er in Er'. injection Er' as <-. destruct Tr as [_ Tr]. apply Tr. exact Hx.
Qed.
