(** * Circuits that come from the loader *)
From Coq Require Import ZArith List Bool Arith Lia.
From Verif Require Import Limbs LimbsProofs Field FieldProofs Fp Base Circuit FastProver Lazy TablesProofs FastProverProofs
  Loader SpecLoader LoaderProofs ZkEval ZkEvalProofs.
Import ListNotations.
Open Scope nat_scope.

(** The file layer behind circuit layer [i]. *)
Definition file_row (D : desc) (i : nat) : list fgate := nth (i - 1) (d_layers D) [].
Lemma denotes_depth : forall D, desc_ok D ->
  total_depth (denotes D) = S (length (d_layers D)) /\ length (circuit (denotes D)) = S (length (d_layers D)).
Proof.
  intros [L M] (A & _ & E & _). cbn [d_layers d_meta] in *. destruct L as [|l L]; [contradiction|]. destruct M as [|m M]; [discriminate|].
  unfold denotes. cbn [d_layers d_meta total_depth circuit length]. split; [reflexivity|]. do 2 f_equal.
  injection E as E. clear A. revert M E. induction L as [|x L IH]; intros [|y M] E; try discriminate; [reflexivity|].
  cbn [upper_layers length]. f_equal. apply IH. injection E as E. exact E.
Qed.
Lemma upper_nth : forall L M k, length M = length L -> k < length L ->
  exists m, nth k (upper_layers L M) (plain_layer [] 0) = file_layer (file_gates (nth k L [])) (least_bits (length (nth k L []))) m.
Proof.
  induction L as [|l L IH]; intros [|m M] k E H; try discriminate; cbn [length] in H; [lia|].
  destruct k; cbn [upper_layers nth]; [exists m; reflexivity|]. apply IH; [injection E as E; exact E|lia].
Qed.
Definition row_gates (D : desc) (i : nat) : list gate :=
  if Nat.eqb i 1 then copy_gates (file_row D 1) else file_gates (file_row D i).
Lemma denotes_layer : forall D i, desc_ok D -> i <= length (d_layers D) ->
  gates (layer_at (denotes D) i) = row_gates D i /\ bit_length (layer_at (denotes D) i) = least_bits (length (file_row D i)).
Proof.
  intros [L M] i (A & _ & E & _) Hi. cbn [d_layers d_meta] in *. destruct L as [|l L]; [contradiction|]. destruct M as [|m M]; [discriminate|].
  unfold denotes, layer_at, row_gates, file_row. cbn [d_layers d_meta circuit].
  destruct i as [|[|i]]; [split; reflexivity..|]. cbn [nth Nat.eqb Nat.sub].
  cbn [length] in Hi. injection E as E. destruct (upper_nth L M i E ltac:(lia)) as (m' & ->).
  split; reflexivity.
Qed.
Lemma rows_sizes : forall D i, desc_ok D -> i <= length (d_layers D) -> layer_size_ok (file_row D i).
Proof.
  intros [L M] i (A & _ & E & _) Hi. cbn [d_layers] in *. unfold file_row. cbn [d_layers]. destruct L as [|l L]; [contradiction|].
  destruct A as (S & _ & U). destruct i as [|[|i]]; try exact S. cbn [Nat.sub nth]. cbn [length] in Hi.
  revert L i Hi U E. clear S.
  assert (G : forall L b i, upper_ok b L -> i < length L -> layer_size_ok (nth i L [])).
  { induction L as [|x L IH]; intros b i U H; cbn [length] in H; [lia|]. destruct U as (S & _ & U).
    destruct i; cbn [nth]; [exact S|]. eapply IH; [exact U|lia]. }
  intros L i Hi U _. eapply G; [exact U|lia].
Qed.
Lemma rows_gates_ok : forall D i, desc_ok D -> 2 <= i <= length (d_layers D) ->
  Forall (gate_ok (least_bits (length (file_row D (i - 1))))) (file_row D i).
Proof.
  intros [L M] i (A & _ & E & _) Hi. cbn [d_layers] in *. unfold file_row. cbn [d_layers]. destruct L as [|l L]; [contradiction|].
  destruct A as (_ & _ & U). destruct i as [|[|i]]; try lia. cbn [length] in Hi.
  assert (G : forall L l i, upper_ok (least_bits (length l)) L -> i < length L ->
    Forall (gate_ok (least_bits (length (nth i (l :: L) [])))) (nth i L [])).
  { clear. induction L as [|x L IH]; intros l i U H; cbn [length] in H; [lia|]. destruct U as (_ & F & U).
    destruct i; [exact F|]. cbn [nth]. apply (IH x i U). lia. }
  replace (S (S i) - 1 - 1) with i by lia. replace (S (S i) - 1) with (S i) by lia. cbn [nth]. apply G; [exact U|lia].
Qed.
Lemma rows_input_ok : forall D, desc_ok D -> Forall input_ok (file_row D 1).
Proof.
  intros [L M] (A & _). unfold file_row. cbn [d_layers] in *. destruct L as [|l L]; [contradiction|]. apply A.
Qed.

(** ** Sizes *)
Lemma file_gates_length : forall l, 1 <= length l ->
  length (file_gates l) = if Nat.eqb (length l) 1 then 2 else length l.
Proof.
  intros l H. unfold file_gates. rewrite app_length, map_length. destruct (Nat.eqb_spec (length l) 1) as [E|E]; cbn [length]; lia.
Qed.
Lemma log2_up_pow2 : forall k, Nat.log2_up (2 ^ k) = k.
Proof. intro k. apply Nat.log2_up_pow2. lia. Qed.
Lemma full_layer : forall l, pow2_size l -> 2 ^ least_bits (length l) = length (file_gates l).
Proof.
  intros l [k E]. assert (1 <= length l) by (rewrite E; apply pow2_pos).
  rewrite file_gates_length by assumption. rewrite E. unfold least_bits. rewrite log2_up_pow2.
  destruct k; [reflexivity|]. replace (Nat.max 1 (S k)) with (S k) by lia.
  destruct (Nat.eqb_spec (2 ^ S k) 1) as [C|C]; [|reflexivity]. rewrite pow2_S in C. pose proof (pow2_pos k). lia.
Qed.
Lemma short_layer : forall l, 1 <= length l -> ~ pow2_size l -> length (file_gates l) < 2 ^ least_bits (length l).
Proof.
  intros l H N. rewrite file_gates_length by assumption.
  destruct (Nat.eqb_spec (length l) 1) as [C|C]; [exfalso; apply N; exists 0; exact C|].
  destruct (least_bits_spec (length l) H) as (A & B & _).
  destruct (Nat.eq_dec (length l) (2 ^ least_bits (length l))) as [E|E]; [exfalso; apply N; eexists; exact E|lia].
Qed.
Lemma row_gates_length : forall D i, length (row_gates D i) = length (file_gates (file_row D i)).
Proof.
  intros D i. unfold row_gates. destruct (Nat.eqb_spec i 1) as [->|]; [|reflexivity].
  unfold copy_gates. rewrite map_length, seq_length. reflexivity.
Qed.

(** ** Gates *)
Lemma copy_gate_at : forall D k, k < length (file_gates (file_row D 1)) ->
  nth k (copy_gates (file_row D 1)) (Gate 2 0 0) = Gate 4 (Z.of_nat k) 0.
Proof.
  intros D k H. unfold copy_gates.
  rewrite (nth_indep _ _ (Gate 4 (Z.of_nat 0) 0)) by (rewrite map_length, seq_length; exact H).
  rewrite (map_nth (fun g => Gate 4 (Z.of_nat g) 0)), seq_nth by exact H. reflexivity.
Qed.
Lemma file_gate_some : forall l k f, nth_error l k = Some f -> nth k (file_gates l) (Gate 2 0 0) = file_gate f.
Proof.
  intros l k f E. unfold file_gates. assert (k < length l) by (apply nth_error_Some; congruence).
  rewrite app_nth1 by (rewrite map_length; assumption). apply nth_error_nth. apply map_nth_error, E.
Qed.
Lemma file_gate_at : forall l k, (exists f, nth_error l k = Some f /\ nth k (file_gates l) (Gate 2 0 0) = file_gate f) \/
  nth k (file_gates l) (Gate 2 0 0) = Gate 2 0 0.
Proof.
  intros l k. unfold file_gates. destruct (nth_error l k) as [f|] eqn:E.
  - left. exists f. split; [reflexivity|]. assert (k < length l) by (apply nth_error_Some; congruence).
    rewrite app_nth1 by (rewrite map_length; assumption). apply nth_error_nth. apply map_nth_error, E.
  - right. apply nth_error_None in E. rewrite app_nth2 by (rewrite map_length; exact E). rewrite map_length.
    destruct (Nat.eqb (length l) 1); destruct (k - length l) as [|[|q]]; reflexivity.
Qed.
Lemma int32_range : forall z b, (b <= 30) -> (0 <= z <= 2 ^ Z.of_nat b)%Z -> int32 z = z.
Proof.
  intros z b H Hz. apply int32_small. split; [lia|]. eapply Z.le_lt_trans; [apply Hz|]. apply Z.pow_lt_mono_r; lia.
Qed.
Lemma pow_Z : forall b, Z.of_nat (2 ^ b) = (2 ^ Z.of_nat b)%Z.
Proof. intro b. rewrite Nat2Z.inj_pow. reflexivity. Qed.
Lemma file_gate_refers : forall b f, (b <= 30) -> gate_ok b f -> refers_in (2 ^ b) (file_gate f).
Proof.
  intros b [ty u v] Hb (_ & _ & _ & A & B & C & D). cbn [f_ty f_u f_v] in *. unfold refers_in, file_gate. cbn [f_ty f_u f_v g_ty g_u g_v].
  rewrite pow_Z. destruct (Z.eq_dec ty 3) as [->|N3]; [left; reflexivity|right]. specialize (A N3). specialize (B N3).
  rewrite (int32_range u b) by (exact Hb || lia).
  split; [exact A|]. assert (PB : (0 < 2 ^ Z.of_nat b)%Z) by (apply Z.pow_pos_nonneg; lia).
  destruct (Z.eqb_spec ty 6) as [->|N6]; [cbn [orb]; repeat split; intros; lia|].
  destruct (Z.eqb_spec ty 10) as [->|N10]; [cbn [orb]; repeat split; intros; lia|]. cbn [orb].
  destruct (Z.eq_dec ty 5) as [->|N5].
  - specialize (C eq_refl). rewrite (int32_range v b) by (exact Hb || lia).
    split; [congruence|]. split; [intros _; exact C|discriminate].
  - specialize (B N5). rewrite (int32_range v b) by (exact Hb || lia).
    split; [intros _; exact B|]. split; [congruence|exact D].
Qed.
Lemma loaded_refers : forall D i k, desc_ok D -> 1 <= i <= length (d_layers D) -> k < length (gates (layer_at (denotes D) i)) ->
  refers_in (2 ^ bit_length (layer_at (denotes D) (i - 1))) (gate_at (layer_at (denotes D) i) k).
Proof.
  intros D i k H Hi Hk. unfold gate_at.
  destruct (denotes_layer D i H ltac:(lia)) as [G B]. destruct (denotes_layer D (i - 1) H ltac:(lia)) as [G' B'].
  rewrite G in *. rewrite B'. unfold row_gates in *. destruct (Nat.eqb_spec i 1) as [->|N1].
  - rewrite copy_gate_at by (unfold copy_gates in Hk; rewrite map_length, seq_length in Hk; exact Hk).
    right. cbn [g_ty g_u g_v]. unfold copy_gates in Hk. rewrite map_length, seq_length in Hk.
    destruct (rows_sizes D 1 H ltac:(lia)) as [S _].
    assert (LE : length (file_gates (file_row D 1)) <= 2 ^ least_bits (length (file_row D (1 - 1)))).
    { change (file_row D (1 - 1)) with (file_row D 1). rewrite file_gates_length by exact S.
      destruct (least_bits_spec _ S) as (A & B2 & _). destruct (Nat.eqb_spec (length (file_row D 1)) 1) as [E|E]; [rewrite E; cbn; lia|exact B2]. }
    assert (0 < 2 ^ least_bits (length (file_row D (1 - 1)))) by apply pow2_pos.
    split; [lia|]. split; [lia|]. split; discriminate.
  - pose proof (rows_gates_ok D i H ltac:(lia)) as F. destruct (rows_sizes D (i - 1) H ltac:(lia)) as [S1 S2].
    pose proof (least_bits_30 _ S1 S2) as L30.
    destruct (file_gate_at (file_row D i) k) as [(f & E & ->)| ->].
    + apply file_gate_refers; [exact L30|]. rewrite Forall_forall in F. apply F. eapply nth_error_In, E.
    + right. cbn [g_ty g_u g_v]. assert (0 < 2 ^ least_bits (length (file_row D (i - 1)))) by apply pow2_pos.
      split; [lia|]. split; [lia|]. split; discriminate.
Qed.
Lemma refers_safe : forall n g, (Z.of_nat n <= 2 ^ 30)%Z -> refers_in n g -> zsafe_in n g.
Proof.
  intros n g H [E|(A & B & C & D)]; [right; left; exact E|]. right. right. split; [lia|]. split; [intro N; specialize (B N); lia|].
  intro N. apply C in N. lia.
Qed.
Lemma loaded_safe : forall D, desc_ok D -> Forall pow2_size (d_layers D) -> zsafe_circuit (denotes D).
Proof.
  intros D H P. destruct (denotes_depth D H) as [T LC].
  assert (PR : forall i, i <= length (d_layers D) -> pow2_size (file_row D i)).
  { intros i Hi. unfold file_row. rewrite Forall_forall in P. apply P. apply nth_In.
    destruct H as (A & _). destruct (d_layers D); [contradiction|]. cbn [length] in *. lia. }
  assert (GL : forall i, i <= length (d_layers D) -> 2 ^ bit_length (layer_at (denotes D) i) = length (gates (layer_at (denotes D) i))).
  { intros i Hi. destruct (denotes_layer D i H Hi) as [-> ->]. rewrite row_gates_length. apply full_layer, PR, Hi. }
  split.
  - rewrite T, LC. reflexivity.
  - rewrite T. lia.
  - intros i Hi. rewrite GL by lia. lia.
  - intros i g Hi Hg. rewrite T in Hi. rewrite GL in Hg by lia.
    apply refers_safe; [|apply loaded_refers; [exact H|lia|exact Hg]].
    destruct (denotes_layer D (i - 1) H ltac:(lia)) as [_ ->]. destruct (rows_sizes D (i - 1) H ltac:(lia)) as [S1 S2].
    rewrite pow_Z. apply Z.pow_le_mono_r; [lia|]. pose proof (least_bits_30 _ S1 S2). lia.
Qed.
Lemma loaded_ub : forall D, desc_ok D -> ~ pow2_size (nth 0 (d_layers D) []) -> zevaluate (denotes D) = UB.
Proof.
  intros D H N. destruct (denotes_depth D H) as [T LC]. destruct (denotes_layer D 0 H ltac:(lia)) as [G B].
  destruct (rows_sizes D 0 H ltac:(lia)) as [S1 _].
  unfold zevaluate. unfold rd at 1. rewrite layer_rd by lia. rewrite bind_ok.
  rewrite input_values_ub; [reflexivity| |].
  - rewrite G, B. unfold row_gates. cbn [Nat.eqb]. apply short_layer; [exact S1|exact N].
  - intros g Hg. unfold gate_at. rewrite G in *. unfold row_gates in *. cbn [Nat.eqb] in *.
    change (file_row D 0) with (file_row D 1) in *.
    destruct (file_gate_at (file_row D 1) g) as [(f & E & ->)| ->]; [|right; reflexivity].
    pose proof (rows_input_ok D H) as F. rewrite Forall_forall in F. destruct (F f (nth_error_In _ _ E)) as (_ & _ & K).
    unfold file_gate. cbn [g_ty]. tauto.
Qed.

(** ** A layer without gates *)
Lemma empty_layer : forall i t ls mx, (i = 1 \/ exists r, nth_error ls (i - 1) = Some r) ->
  load_layer i (0%Z :: t, ls, mx) = Diverges.
Proof.
  intros i t ls mx H. unfold load_layer.
  change (scan_int (0%Z :: t)) with (Ok (0%Z, t)). rewrite bind_ok. change (new_gates 0) with (Ok (@nil (option gate))).
  rewrite !bind_ok. cbv zeta. destruct (Nat.eqb_spec i 1) as [->|N].
  - rewrite bind_ok. cbn [Z.to_nat for_]. rewrite bind_ok. rewrite count_shifts_neg by lia. reflexivity.
  - destruct H as [H|(r & E)]; [contradiction|]. unfold rd at 1. rewrite E, !bind_ok. cbn [Z.to_nat for_]. rewrite bind_ok.
    rewrite count_shifts_neg by lia. reflexivity.
Qed.
Lemma for_plus : forall S n m start (body : nat -> S -> outcome S) s,
  for_ (n + m) start body s = bind (for_ n start body s) (for_ m (start + n) body).
Proof.
  intros S0 n. induction n; intros m start body s.
  - rewrite Nat.add_0_r. reflexivity.
  - cbn [Nat.add]. rewrite !for_S. destruct (body start s) as [a| | | | | |]; try reflexivity. rewrite !bind_ok.
    rewrite IHn. replace (S start + n) with (start + S n) by lia. reflexivity.
Qed.
Definition prefix_ok (L : list (list fgate)) : Prop :=
  match L with [] => True | l :: r => layer_size_ok l /\ Forall input_ok l /\ upper_ok (least_bits (length l)) r end.
Lemma expect_false : forall r, concat (map (expect_layers false) r) = map (fun l => some_raw (file_gates l) (least_bits (length l))) r.
Proof. induction r as [|x r IH]; [reflexivity|]. cbn [map concat expect_layers app]. rewrite IH. reflexivity. Qed.
Lemma empty_layer_diverges : forall L d t mt, prefix_ok L -> length L < d -> (Z.of_nat d + 1 < 2 ^ 31)%Z ->
  read_circuit (Z.of_nat d :: concat (map layer_tokens L) ++ 0%Z :: t) mt = Diverges.
Proof.
  intros L d t mt H Hd B. unfold read_circuit.
  assert (In : is_int (Z.of_nat d)) by (unfold is_int; lia).
  rewrite (proj2 (scan_int_iff _ _ _) (conj eq_refl In)), bind_ok.
  destruct (Z.ltb_spec (Z.of_nat d + 1) 0); [lia|]. destruct (Z.ltb_spec (Z.of_nat d + 1) (2 ^ 31)); [|lia].
  rewrite bind_ok, Nat2Z.id. destruct d as [|d]; [lia|]. rewrite for_S.
  destruct L as [|l r].
  - cbn [map concat app]. rewrite empty_layer by (left; reflexivity). reflexivity.
  - destruct H as (Sl & Il & U). cbn [map concat]. rewrite <- app_assoc.
    rewrite (load_layer_ok 1 _ [] _ l 0%nat Sl); [|split; reflexivity|lia|].
    2:{ eapply Forall_impl; [|exact Il]. intros f Hf. apply input_fin, Hf. }
    rewrite bind_ok. cbn [Nat.eqb app]. cbn [length] in Hd.
    replace d with (length r + (d - length r)) by lia. rewrite for_plus.
    rewrite (upper_layers_ok r 2 _ _ _ (least_bits (length l))); [|lia|reflexivity| |apply least_bits_30; apply Sl|exact U].
    2:{ exists (some_raw (copy_gates l) (least_bits (length l))). split; reflexivity. }
    rewrite bind_ok. destruct (d - length r) as [|q] eqn:Eq; [lia|]. rewrite for_S.
    rewrite empty_layer; [reflexivity|]. right. rewrite expect_false.
    match goal with |- exists r0, nth_error ?l ?k = Some r0 => destruct (nth_error l k) as [x|] eqn:E; [exists x; reflexivity|] end.
    apply nth_error_None in E. rewrite app_length, map_length in E. cbn [expect_layers length] in E. lia.
Qed.

(** ** Input constants *)
Lemma int32_field : forall u, is_ll u -> (ofZ (int32 u mod 2 ^ 64) = ofZ u <-> 0 <= u < 2 ^ 31)%Z.
Proof.
  intros u H. split; intro K.
  - apply ofZ_eq_inv in K.
    assert (PB : (2 ^ 70 < P)%Z) by (vm_compute; reflexivity).
    rewrite (Z.mod_small (int32 u mod 2 ^ 64)) in K by (pose proof (Z.mod_pos_bound (int32 u) (2 ^ 64) ltac:(lia)); lia).
    unfold is_ll in H. unfold int32 in K.
    pose proof (Z.mod_pos_bound u (2 ^ 32) ltac:(lia)) as M32. pose proof (Z_div_mod_eq_full u (2 ^ 32)) as D32.
    destruct (Z.ltb_spec (u mod 2 ^ 32) (2 ^ 31)) as [A|A].
    + rewrite (Z.mod_small (u mod 2 ^ 32)) in K by lia.
      destruct (Z.lt_ge_cases u 0) as [N|N].
      * rewrite <- (Z.mod_add u 1 P) in K by lia. rewrite (Z.mod_small (u + 1 * P)) in K by lia. lia.
      * rewrite (Z.mod_small u P) in K by lia. lia.
    + rewrite <- (Z.mod_add (u mod 2 ^ 32 - 2 ^ 32) 1 (2 ^ 64)) in K by lia.
      rewrite (Z.mod_small (u mod 2 ^ 32 - 2 ^ 32 + 1 * 2 ^ 64)) in K by lia.
      destruct (Z.lt_ge_cases u 0) as [N|N].
      * rewrite <- (Z.mod_add u 1 P) in K by lia. rewrite (Z.mod_small (u + 1 * P)) in K by lia. lia.
      * rewrite (Z.mod_small u P) in K by lia. lia.
  - rewrite int32_small by exact K. rewrite Z.mod_small by lia. reflexivity.
Qed.

(** ** Evaluation of loaded circuits *)
Lemma refers_reads : forall n g, (Z.of_nat n <= 2 ^ 30)%Z -> refers_in n g -> supported g -> zreads_in n g.
Proof.
  intros n [ty u v] H R [S|[S1 S2]]; unfold refers_in, zreads_in, reads_in in *; cbn [g_ty g_u g_v In] in *.
  - destruct S as [<-|[<-|[<-|[<-|[<-|[<-|[<-|[<-|[<-|[<-|[<-|[<-|[]]]]]]]]]]]]]; try exact I.
    all: destruct R as [R|(A & B & C & D)]; [discriminate R|].
    all: try exact A; try (split; [exact A|apply B; discriminate]).
    + specialize (C eq_refl). lia.
    + split; [exact A|apply D; reflexivity].
  - subst ty. destruct R as [R|(A & B & C & D)]; [discriminate R|]. specialize (B ltac:(discriminate)). lia.
Qed.
Lemma loaded_wf : forall D, desc_ok D -> Forall pow2_size (d_layers D) -> (Z.of_nat (total_depth (denotes D)) < 1000000)%Z ->
  (forall i g, i < total_depth (denotes D) -> supported (gate_at (layer_at (denotes D) i) g)) -> zwf_circuit (denotes D).
Proof.
  intros D H P Hd S. destruct (loaded_safe D H P) as [A1 A2 A3 A4]. destruct (denotes_depth D H) as [T LC].
  assert (GL : forall i, i < total_depth (denotes D) -> 2 ^ bit_length (layer_at (denotes D) i) <= length (gates (layer_at (denotes D) i))) by exact A3.
  split; [exact A1|exact A2|exact Hd|exact GL| |].
  - intros g Hg. specialize (GL 0 ltac:(lia)). destruct (denotes_layer D 0 H ltac:(lia)) as [G B]. unfold gate_at. rewrite G in *.
    unfold row_gates in *. cbn [Nat.eqb] in *. change (file_row D 0) with (file_row D 1) in *.
    destruct (file_gate_at (file_row D 1) g) as [(f & E & ->)| ->]; [|right; reflexivity].
    pose proof (rows_input_ok D H) as F. rewrite Forall_forall in F. destruct (F f (nth_error_In _ _ E)) as (_ & _ & K).
    unfold file_gate. cbn [g_ty]. tauto.
  - intros i g Hi Hg. rewrite T in Hi. specialize (GL i ltac:(lia)).
    apply refers_reads; [|apply loaded_refers; [exact H|lia|lia]|apply S; lia].
    destruct (denotes_layer D (i - 1) H ltac:(lia)) as [_ ->]. destruct (rows_sizes D (i - 1) H ltac:(lia)) as [S1 S2].
    rewrite pow_Z. apply Z.pow_le_mono_r; [lia|]. pose proof (least_bits_30 _ S1 S2). lia.
Qed.
(** A run of a loop ran every iteration. *)
Lemma for_ran : forall S n st (body : nat -> S -> outcome S) s r k, for_ n st body s = Ok r -> k < n ->
  exists s1 s2, body (st + k) s1 = Ok s2.
Proof.
  intros S0 n. induction n; intros st body s r k H Hk; [lia|]. rewrite for_S in H.
  apply bind_inv in H. destruct H as (s' & E & H).
  destruct k; [rewrite Nat.add_0_r; exists s, s'; exact E|].
  destruct (IHn _ _ _ _ k H ltac:(lia)) as (s1 & s2 & K). exists s1, s2. rewrite <- K. f_equal. lia.
Qed.
Lemma rd_inv : forall A (l : list A) i x, rd l i = Ok x -> nth_error l i = Some x.
Proof. intros A l i x H. unfold rd in H. destruct (nth_error l i); [injection H as ->; reflexivity|discriminate]. Qed.
Lemma zlayer_full : forall L prev row, zlayer_values L prev = Ok row -> 2 ^ bit_length L <= length (gates L).
Proof.
  intros L prev row H. unfold zlayer_values in H. pose proof (pow2_pos (bit_length L)) as Hp.
  destruct (for_ran _ _ _ _ _ _ (2 ^ bit_length L - 1) H ltac:(lia)) as (s1 & s2 & E). apply bind_inv in E. destruct E as (g & E & _).
  apply rd_inv in E. assert (0 + (2 ^ bit_length L - 1) < length (gates L)) by (apply nth_error_Some; congruence). lia.
Qed.
Lemma zinput_full : forall L row, input_values L = Ok row -> 2 ^ bit_length L <= length (gates L).
Proof.
  intros L row H. unfold input_values in H. pose proof (pow2_pos (bit_length L)) as Hp.
  destruct (for_ran _ _ _ _ _ _ (2 ^ bit_length L - 1) H ltac:(lia)) as (s1 & s2 & E). apply bind_inv in E. destruct E as (g & E & _).
  apply rd_inv in E. assert (0 + (2 ^ bit_length L - 1) < length (gates L)) by (apply nth_error_Some; congruence). lia.
Qed.
Lemma zevaluate_full : forall C x, zevaluate C = Ok x -> total_depth C = length (circuit C) ->
  forall i, i < total_depth C -> 2 ^ bit_length (layer_at C i) <= length (gates (layer_at C i)).
Proof.
  intros C x H T i Hi. unfold zevaluate in H. apply bind_inv in H. destruct H as (L0 & E0 & H).
  apply rd_inv in E0. rewrite layer_rd in E0 by lia. injection E0 as <-.
  apply bind_inv in H. destruct H as (row0 & E1 & H). apply bind_inv in H. destruct H as ([] & _ & H).
  apply bind_inv in H. destruct H as (cv & E2 & _).
  destruct i as [|i]; [eapply zinput_full, E1|].
  destruct (for_ran _ _ _ _ _ _ i E2 ltac:(lia)) as (s1 & s2 & E). apply bind_inv in E. destruct E as (L & EL & E).
  apply rd_inv in EL. change (1 + i) with (S i) in EL. rewrite layer_rd in EL by lia. injection EL as <-.
  apply bind_inv in E. destruct E as (prev & _ & E). apply bind_inv in E. destruct E as (row & E & _).
  eapply zlayer_full, E.
Qed.
Lemma loaded_ok_pow2 : forall D x, desc_ok D -> zevaluate (denotes D) = Ok x -> Forall pow2_size (d_layers D).
Proof.
  intros D x H E. destruct (denotes_depth D H) as [T LC].
  pose proof (zevaluate_full _ _ E ltac:(lia)) as Fu. apply Forall_forall. intros l Hl.
  apply In_nth with (d := []) in Hl. destruct Hl as (k & Hk & <-).
  specialize (Fu (S k) ltac:(lia)). destruct (denotes_layer D (S k) H ltac:(lia)) as [G B]. rewrite G, B, row_gates_length in Fu.
  destruct (rows_sizes D (S k) H ltac:(lia)) as [S1 _]. unfold file_row in *. replace (S k - 1) with k in * by lia.
  set (l := nth k (d_layers D) []) in *.
  rewrite file_gates_length in Fu by exact S1. destruct (least_bits_spec _ S1) as (_ & K & _).
  destruct (Nat.eqb_spec (length l) 1) as [C|C]; [exists 0; exact C|]. eexists. apply Nat.le_antisymm; [exact K|exact Fu].
Qed.
Lemma for_rows : forall n st (body : nat -> list (list fe) -> outcome (list (list fe))) cv r row,
  (forall i s s', body i s = Ok s' -> exists x, s' = s ++ [x]) -> for_ n st body cv = Ok r ->
  nth_error cv 0 = Some row -> nth_error r 0 = Some row.
Proof.
  induction n; intros st body cv r row B H E.
  - cbn in H. injection H as <-. exact E.
  - rewrite for_S in H. apply bind_inv in H. destruct H as (s' & E1 & H). eapply IHn; [exact B|exact H|].
    destruct (B _ _ _ E1) as (x & ->). destruct cv; [discriminate|exact E].
Qed.
Lemma loaded_input : forall D x cv k f, desc_ok D -> zevaluate (denotes D) = Ok (x, cv) ->
  nth_error (nth 0 (d_layers D) []) k = Some f ->
  exists row y, nth_error cv 0 = Some row /\ nth_error row k = Some y /\ rep y (ofZ (int32 (f_u f) mod 2 ^ 64)).
Proof.
  intros D x cv k f H E Hk. destruct (denotes_depth D H) as [T LC].
  pose proof (zevaluate_full _ _ E ltac:(lia) 0 ltac:(lia)) as Fu. destruct (denotes_layer D 0 H ltac:(lia)) as [G B].
  unfold zevaluate in E. apply bind_inv in E. destruct E as (L0 & E0 & E).
  apply rd_inv in E0. rewrite layer_rd in E0 by lia. injection E0 as <-.
  apply bind_inv in E. destruct E as (row0 & E1 & E). apply bind_inv in E. destruct E as ([] & _ & E).
  apply bind_inv in E. destruct E as (cv' & E2 & E). apply bind_inv in E. destruct E as (ret & _ & E). injection E as _ <-.
  assert (R0 : nth_error cv' 0 = Some row0).
  { eapply for_rows; [|exact E2|reflexivity]. intros i s s' Hb. cbv beta in Hb.
    apply bind_inv in Hb. destruct Hb as (? & _ & Hb). apply bind_inv in Hb. destruct Hb as (? & _ & Hb).
    apply bind_inv in Hb. destruct Hb as (y & _ & Hb). injection Hb as <-. exists y. reflexivity. }
  assert (IT : forall g, g < 2 ^ bit_length (layer_at (denotes D) 0) ->
     g_ty (gate_at (layer_at (denotes D) 0) g) = 3%Z \/ g_ty (gate_at (layer_at (denotes D) 0) g) = 2%Z).
  { intros g _. unfold gate_at. rewrite G. unfold row_gates. cbn [Nat.eqb]. change (file_row D 0) with (file_row D 1).
    destruct (file_gate_at (file_row D 1) g) as [(f' & E' & ->)| ->]; [|right; reflexivity].
    pose proof (rows_input_ok D H) as F. rewrite Forall_forall in F. destruct (F f' (nth_error_In _ _ E')) as (_ & _ & K).
    unfold file_gate. cbn [g_ty]. tauto. }
  destruct (input_values_ok _ Fu IT) as (row & E3 & TB). rewrite E1 in E3. apply Ok_inj in E3. subst row.
  assert (Hlt : k < length (nth 0 (d_layers D) [])) by (apply nth_error_Some; congruence).
  destruct (rows_sizes D 0 H ltac:(lia)) as [S1 _]. destruct (least_bits_spec _ S1) as (_ & K & _).
  unfold file_row in K, S1, B. cbn [Nat.sub] in K, S1, B.
  destruct TB as (_ & _ & TB). destruct (TB k ltac:(rewrite B; lia)) as (y & Ey & Ry). exists row0, y. split; [exact R0|]. split; [exact Ey|].
  unfold input_spec, gate_at in Ry. rewrite G in Ry. unfold row_gates in Ry. cbn [Nat.eqb] in Ry.
  unfold file_row in Ry. cbn [Nat.sub] in Ry. rewrite (file_gate_some _ _ _ Hk) in Ry. rewrite W64_val in Ry. exact Ry.
Qed.
