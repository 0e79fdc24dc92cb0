(** * Equality tables, folding of tables, direct relay (C19-C21) *)
From Coq Require Import ZArith List Bool Arith Lia Ring.
From Verif Require Import Limbs Field FieldProofs Fp Base MleSpec Poly Circuit FastProver FastVerifier Lazy.
Import ListNotations.
Open Scope nat_scope.

(** ** Sequencing rules *)
Section Rules.
Context {B : Type} (R : B -> Prop).
Lemma rb_tab : forall N l n f i (k : fe -> outcome B), tab N l n f -> i < n ->
  (forall x, rep x (f i) -> returns (k x) R) -> returns (bind (rd l i) k) R.
Proof.
  intros. eapply returns_bind; [eapply (tab_rd _ _ _ _ _ (fun x => rep x (f i))); eauto|auto].
Qed.
Lemma rb_ltab : forall N l n fa fb i (k : linear_poly -> outcome B), ltab N l n fa fb -> i < n ->
  (forall x, rep (l_a x) (fa i) -> rep (l_b x) (fb i) -> returns (k x) R) -> returns (bind (rd l i) k) R.
Proof.
  intros N l n fa fb i k T Hi K. eapply returns_bind.
  - apply (ltab_rd _ _ _ _ _ _ (fun x => rep (l_a x) (fa i) /\ rep (l_b x) (fb i)) T Hi). intros x Ha Hb.
    exact (conj Ha Hb).
  - intros x [Ha Hb]. apply K; assumption.
Qed.
Lemma rb_reps : forall l a i (k : fe -> outcome B), reps l a -> i < length a ->
  (forall x, rep x (nth i a 0%F) -> returns (k x) R) -> returns (bind (rd l i) k) R.
Proof.
  intros. eapply returns_bind; [eapply (reps_rd _ _ _ (fun x => rep x (nth i a 0%F))); eauto|auto].
Qed.
Lemma rb_wr : forall A (l : list A) i x (k : list A -> outcome B), i < length l ->
  returns (k (upd l i x)) R -> returns (bind (wr l i x) k) R.
Proof.
  intros A l i x k H K. eapply returns_bind; [apply (returns_wr _ _ _ _ (eq (upd l i x)) H eq_refl)|].
  intros a <-. exact K.
Qed.
Lemma rb_nth : forall A (l : list A) i x (k : A -> outcome B), nth_error l i = Some x ->
  returns (k x) R -> returns (bind (rd l i) k) R.
Proof. intros A l i x k E K. unfold rd. rewrite E. exact K. Qed.
Lemma rb_idx : forall z (k : nat -> outcome B), (0 <= z)%Z ->
  returns (k (Z.to_nat z)) R -> returns (bind (idx z) k) R.
Proof. intros z k H K. unfold idx. destruct (Z.ltb_spec z 0); [lia|exact K]. Qed.
Lemma rb_assert : forall b (k : unit -> outcome B), b = true ->
  returns (k tt) R -> returns (bind (assert_ b) k) R.
Proof. intros b k -> K. exact K. Qed.
Lemma rb_reject : forall b (k : unit -> outcome B), b = false ->
  returns (k tt) R -> returns (bind (reject_if b) k) R.
Proof. intros b k -> K. exact K. Qed.
End Rules.

(** ** Table splitting *)
(** The coordinate pairs [off .. off+n-1] of the arrays [R] (one-weights) and
    [O] (zero-weights). *)
Definition prs (R O : list F) (off n : nat) : list (F * F) :=
  map (fun k => (nth (k + off) R 0%F, nth (k + off) O 0%F)) (seq 0 n).
Lemma prs_length : forall R O off n, length (prs R O off n) = n.
Proof. intros. unfold prs. rewrite map_length, seq_length. reflexivity. Qed.
Lemma prs_S : forall R O off n,
  prs R O off (S n) = prs R O off n ++ [(nth (n + off) R 0%F, nth (n + off) O 0%F)].
Proof. intros. unfold prs. rewrite seq_S, map_app. reflexivity. Qed.
Lemma prs_app : forall R O n m, prs R O 0 (n + m) = prs R O 0 n ++ prs R O n m.
Proof.
  intros R O n m. induction m.
  - rewrite Nat.add_0_r. unfold prs at 3. cbn [seq map]. rewrite app_nil_r. reflexivity.
  - rewrite Nat.add_succ_r, !prs_S, IHm, <- app_assoc. do 3 f_equal. rewrite Nat.add_0_r, (Nat.add_comm m n).
    reflexivity.
Qed.
Definition comp (R : list F) : list F := map (fun a => (1 - a)%F) R.
Lemma prs_point : forall R, prs R (comp R) 0 (length R) = point R.
Proof.
  induction R as [|a R IH]; [reflexivity|].
  unfold prs in *. cbn [length seq map comp point nth Nat.add]. f_equal.
  rewrite <- seq_shift, map_map. etransitivity; [|exact IH]. reflexivity.
Qed.

(** Contents of a table in the middle of level [i]: the upper entries up to
    [2^i + j] written, the lower entries below [k] updated. *)
Definition midlevel (E : nat -> F) (a b : F) (i k : nat) : nat -> F :=
  fun x => if x <? 2 ^ i then (if x <? k then E x * b else E x)%F else (E (x - 2 ^ i)%nat * a)%F.
Lemma midlevel_0 : forall N t E a b i, tab N t (2 ^ i) E -> tab N t (2 ^ i + 0) (midlevel E a b i 0).
Proof.
  intros N t E a b i H. rewrite Nat.add_0_r. eapply tab_ext; [exact H|]. intros x Hx. unfold midlevel.
  destruct (Nat.ltb_spec x (2 ^ i)); [|lia]. destruct (Nat.ltb_spec x 0); [lia|reflexivity].
Qed.
Lemma midlevel_end : forall N t c l a b, 
  tab N t (2 ^ length l + 2 ^ length l) (midlevel (fun k => c * eqg l k)%F a b (length l) (2 ^ length l)) ->
  tab N t (2 ^ S (length l)) (fun k => c * eqg (l ++ [(a, b)]) k)%F.
Proof.
  intros N t c l a b H. rewrite pow2_S. replace (2 * 2 ^ length l) with (2 ^ length l + 2 ^ length l) by lia.
  eapply tab_ext; [exact H|]. intros x Hx. unfold midlevel.
  destruct (Nat.ltb_spec x (2 ^ length l)) as [L|L].
  - rewrite eqg_snoc_lo by exact L. ring.
  - replace x with (x - 2 ^ length l + 2 ^ length l) at 2 by lia. rewrite eqg_snoc_hi by lia. ring.
Qed.
Lemma split_entry_ok : forall N t r o R O k i j E,
  reps r R -> reps o O -> k < length R -> k < length O ->
  j < 2 ^ i -> 2 ^ S i <= N ->
  tab N t (2 ^ i + j) (midlevel E (nth k R 0%F) (nth k O 0%F) i j) ->
  returns (split_entry t r o k i j) (fun t' =>
    tab N t' (2 ^ i + S j) (midlevel E (nth k R 0%F) (nth k O 0%F) i (S j))).
Proof.
  intros N t r o R O k i j E Hr Ho HR HO Hj HN T. rewrite pow2_S in HN.
  assert (HL : length t = N) by apply T.
  unfold split_entry. eapply rb_tab; [exact T|lia|]. intros x Rx.
  eapply rb_reps; [exact Hr|exact HR|]. intros a Ra.
  rewrite lor_pow2 by exact Hj. rewrite (Nat.add_comm j).
  assert (Ej : midlevel E (nth k R 0%F) (nth k O 0%F) i j j = E j).
  { unfold midlevel. destruct (Nat.ltb_spec j (2 ^ i)); [|lia]. destruct (Nat.ltb_spec j j); [lia|reflexivity]. }
  rewrite Ej in Rx.
  apply rb_wr; [lia|].
  assert (T2 : tab N (upd t (2 ^ i + j) (u512_mod (u512_mul x a))) (S (2 ^ i + j))
                (midlevel E (nth k R 0%F) (nth k O 0%F) i j)).
  { apply tab_push; [exact T|lia|]. unfold midlevel at 1.
    destruct (Nat.ltb_spec (2 ^ i + j) (2 ^ i)); [lia|]. replace (2 ^ i + j - 2 ^ i) with j by lia. lzr. }
  eapply rb_tab; [exact T2|lia|]. intros y Ry. rewrite Ej in Ry.
  eapply rb_reps; [exact Ho|exact HO|]. intros b Rb.
  apply returns_wr; [rewrite upd_length; lia|].
  rewrite Nat.add_succ_r. eapply tab_ext; [apply (tab_upd _ _ _ _ j _ (E j * nth k O 0%F)%F T2); [lia|lzr]|].
  intros z Hz. cbv beta. unfold midlevel. destruct (Nat.eqb_spec z j) as [->|Nz].
  - destruct (Nat.ltb_spec j (2 ^ i)); [|lia]. destruct (Nat.ltb_spec j (S j)); [reflexivity|lia].
  - destruct (Nat.ltb_spec z (2 ^ i)); [|reflexivity].
    destruct (Nat.ltb_spec z j); destruct (Nat.ltb_spec z (S j)); try lia; reflexivity.
Qed.

Definition eqtab (N : nat) (c : F) (l : list (F * F)) (t : list fe) : Prop :=
  tab N t (2 ^ length l) (fun k => c * eqg l k)%F.
Lemma eqtab_init : forall N t x c, length t = N -> 0 < N -> rep x c -> eqtab N c [] (upd t 0 x).
Proof.
  intros N t x c L H R. unfold eqtab. cbn [length]. rewrite Nat.pow_0_r.
  apply tab_push; [rewrite <- L; apply tab_nil|exact H|]. cbn [eqg]. eapply rep_eq; [exact R|ring].
Qed.
Lemma prs_eqtab_0 : forall N c R O off t, eqtab N c [] t -> eqtab N c (prs R O off 0) t.
Proof. intros. exact H. Qed.

Lemma half_table_ok : forall N t r o R O off n c,
  reps r R -> reps o O -> off + n <= length R -> off + n <= length O -> 2 ^ n <= N ->
  eqtab N c [] t ->
  returns (half_table r o off n t) (eqtab N c (prs R O off n)).
Proof.
  intros N t r o R O off n c Hr Ho HR HO HN T. unfold half_table.
  apply (returns_for _ n 0 _ (fun i t => eqtab N c (prs R O off i) t)); [exact T|].
  clear t T. intros i t Hi T. simpl in Hi. unfold eqtab in T. rewrite prs_length in T.
  eapply returns_conseq.
  - apply (returns_for _ (2 ^ i) 0 _ (fun j t => tab N t (2 ^ i + j)
      (midlevel (fun k => c * eqg (prs R O off i) k)%F (nth (i + off) R 0%F) (nth (i + off) O 0%F) i j))).
    + apply midlevel_0, T.
    + intros j t' Hj T'. simpl in Hj. eapply split_entry_ok; try eassumption; try lia.
      etransitivity; [apply Nat.pow_le_mono_r; [lia|]|exact HN]. lia.
  - cbv beta. intros t' T'. simpl (0 + _) in T'. unfold eqtab. rewrite prs_length, prs_S.
    pose proof (midlevel_end N t' c (prs R O off i) (nth (i + off) R 0%F) (nth (i + off) O 0%F)) as M.
    rewrite prs_length in M. apply M, T'.
Qed.

Lemma half_tables2_ok : forall N t0 t1 r0 o0 r1 o1 R0 O0 R1 O1 off n c0 c1,
  reps r0 R0 -> reps o0 O0 -> reps r1 R1 -> reps o1 O1 ->
  off + n <= length R0 -> off + n <= length O0 -> off + n <= length R1 -> off + n <= length O1 ->
  2 ^ n <= N -> eqtab N c0 [] t0 -> eqtab N c1 [] t1 ->
  returns (half_tables2 r0 o0 r1 o1 off n t0 t1) (fun st =>
    eqtab N c0 (prs R0 O0 off n) (fst st) /\ eqtab N c1 (prs R1 O1 off n) (snd st)).
Proof.
  intros N t0 t1 r0 o0 r1 o1 R0 O0 R1 O1 off n c0 c1 Hr0 Ho0 Hr1 Ho1 L0 L0' L1 L1' HN T0 T1.
  unfold half_tables2.
  apply (returns_for _ n 0 _ (fun i st => eqtab N c0 (prs R0 O0 off i) (fst st) /\
                                        eqtab N c1 (prs R1 O1 off i) (snd st))); [split; assumption|].
  clear t0 t1 T0 T1. intros i [t0 t1] Hi [T0 T1]. simpl in Hi. cbn [fst snd] in *.
  unfold eqtab in T0, T1. rewrite prs_length in T0, T1.
  eapply returns_conseq.
  - apply (returns_for _ (2 ^ i) 0 _ (fun j st => tab N (fst st) (2 ^ i + j)
      (midlevel (fun k => c0 * eqg (prs R0 O0 off i) k)%F (nth (i + off) R0 0%F) (nth (i + off) O0 0%F) i j) /\
      tab N (snd st) (2 ^ i + j)
      (midlevel (fun k => c1 * eqg (prs R1 O1 off i) k)%F (nth (i + off) R1 0%F) (nth (i + off) O1 0%F) i j))).
    + split; cbn [fst snd]; apply midlevel_0; assumption.
    + intros j [t0' t1'] Hj [T0' T1']. simpl in Hj. cbn [fst snd] in T0', T1'.
      assert (HN' : 2 ^ S i <= N) by (etransitivity; [apply Nat.pow_le_mono_r; [lia|]|exact HN]; lia).
      eapply returns_bind; [eapply (split_entry_ok N t0' r0 o0 R0 O0); try eassumption; lia|].
      intros a Ha.
      eapply returns_bind; [eapply (split_entry_ok N t1' r1 o1 R1 O1); try eassumption; lia|].
      intros b Hb. apply returns_ok. split; assumption.
  - cbv beta. intros [t0' t1'] [T0' T1']. simpl (0 + _) in *. cbn [fst snd] in *. unfold eqtab.
    rewrite !prs_length, !prs_S.
    pose proof (midlevel_end N t0' c0 (prs R0 O0 off i) (nth (i + off) R0 0%F) (nth (i + off) O0 0%F)) as M0.
    pose proof (midlevel_end N t1' c1 (prs R1 O1 off i) (nth (i + off) R1 0%F) (nth (i + off) O1 0%F)) as M1.
    rewrite prs_length in M0, M1. split; [apply M0, T0'|apply M1, T1'].
Qed.

(** Table lookups. *)
Lemma u_weight_ok : forall N f s h p1 p2 c1 c2 i, length p1 = h ->
  eqtab N c1 p1 f -> eqtab N c2 p2 s -> i < 2 ^ (h + length p2) ->
  returns (u_weight f s h i) (fun x => rep x (c1 * c2 * eqg (p1 ++ p2) i)%F).
Proof.
  intros N f s h p1 p2 c1 c2 i Hh T1 T2 Hi. unfold u_weight.
  rewrite land_mask, shr_div. unfold eqtab in *. rewrite Hh in T1. pose proof (pow2_pos h) as Hp.
  eapply rb_tab; [exact T1|apply Nat.mod_upper_bound; lia|]. intros a Ra.
  eapply rb_tab; [exact T2|apply Nat.div_lt_upper_bound; [lia|]; rewrite <- Nat.pow_add_r; exact Hi|].
  intros b Rb. apply returns_ok. rewrite eqg_app, Hh. lzr.
Qed.
Lemma g_weight_ok : forall N f0 s0 f1 s1 h p1 p2 q1 q2 c0 c1 i, length p1 = h -> length q1 = h ->
  length q2 = length p2 ->
  eqtab N c0 p1 f0 -> eqtab N 1%F p2 s0 -> eqtab N c1 q1 f1 -> eqtab N 1%F q2 s1 -> i < 2 ^ (h + length p2) ->
  returns (g_weight f0 s0 f1 s1 h i) (fun x => rep x (c0 * eqg (p1 ++ p2) i + c1 * eqg (q1 ++ q2) i)%F).
Proof.
  intros N f0 s0 f1 s1 h p1 p2 q1 q2 c0 c1 i Hh Hh' E T1 T2 T3 T4 Hi. unfold g_weight.
  rewrite land_mask, shr_div. unfold eqtab in *. rewrite Hh in T1. rewrite Hh' in T3. rewrite E in T4.
  pose proof (pow2_pos h) as Hp.
  assert (Hm : i mod 2 ^ h < 2 ^ h) by (apply Nat.mod_upper_bound; lia).
  assert (Hd : i / 2 ^ h < 2 ^ length p2)
    by (apply Nat.div_lt_upper_bound; [lia|]; rewrite <- Nat.pow_add_r; exact Hi).
  eapply rb_tab; [exact T1|exact Hm|]. intros a Ra.
  eapply rb_tab; [exact T2|exact Hd|]. intros b Rb.
  eapply rb_tab; [exact T3|exact Hm|]. intros c Rc.
  eapply rb_tab; [exact T4|exact Hd|]. intros d Rd.
  apply returns_ok. rewrite !eqg_app, Hh, Hh'. lzr.
Qed.

(** Two-pass tables of the verifier. *)
Section Level.
Variable op : fe -> fe -> fe.
Hypothesis op_ok : forall x y a b, rep x a -> rep y b -> rep (op x y) (a * b)%F.
Definition level (r o : list fe) (i : nat) (t : list fe) : outcome (list fe) :=
  t <- for_ (2 ^ i) 0 (fun j t =>
    x <- rd t j ;; a <- rd r i ;; wr t (Nat.lor j (2 ^ i)) (op x a)) t ;;
  for_ (2 ^ i) 0 (fun j t =>
    x <- rd t j ;; b <- rd o i ;; wr t j (op x b)) t.
Lemma level_ok : forall N t r o R O i c, reps r R -> reps o O -> i < length R -> i < length O -> 2 ^ S i <= N ->
  eqtab N c (prs R O 0 i) t -> returns (level r o i t) (eqtab N c (prs R O 0 (S i))).
Proof.
  intros N t r o R O i c Hr Ho HR HO HN T. unfold level. rewrite pow2_S in HN.
  unfold eqtab in T. rewrite prs_length in T.
  set (E := fun k => (c * eqg (prs R O 0 i) k)%F) in *.
  set (a := nth i R 0%F). set (b := nth i O 0%F).
  eapply returns_bind.
  - apply (returns_for _ (2 ^ i) 0 _ (fun j t => tab N t (2 ^ i + j) (midlevel E a b i 0))).
    + apply midlevel_0, T.
    + intros j t' Hj T'. simpl in Hj. assert (HL : length t' = N) by apply T'.
      eapply rb_tab; [exact T'|lia|]. intros x Rx.
      eapply rb_reps; [exact Hr|exact HR|]. intros y Ry.
      rewrite lor_pow2 by lia. rewrite (Nat.add_comm j), Nat.add_succ_r.
      apply returns_wr; [lia|]. apply tab_push; [exact T'|lia|].
      unfold midlevel in *. destruct (Nat.ltb_spec j (2 ^ i)); [|lia].
      destruct (Nat.ltb_spec (2 ^ i + j) (2 ^ i)); [lia|].
      destruct (Nat.ltb_spec j 0); [lia|].
      replace (2 ^ i + j - 2 ^ i) with j by lia. apply op_ok; [exact Rx|exact Ry].
  - cbv beta. simpl (0 + _). intros t1 T1. eapply returns_conseq.
    + apply (returns_for _ (2 ^ i) 0 _ (fun j t => tab N t (2 ^ i + 2 ^ i) (midlevel E a b i j))); [exact T1|].
      intros j t' Hj T'. simpl in Hj. assert (HL : length t' = N) by apply T'.
      eapply rb_tab; [exact T'|lia|]. intros x Rx.
      eapply rb_reps; [exact Ho|exact HO|]. intros y Ry.
      apply returns_wr; [lia|].
      eapply tab_ext; [apply (tab_upd _ _ _ _ j _ (E j * b)%F T'); [lia|]|].
      * apply op_ok; [|exact Ry]. unfold midlevel in Rx. destruct (Nat.ltb_spec j (2 ^ i)); [|lia].
        destruct (Nat.ltb_spec j j); [lia|exact Rx].
      * intros z Hz. cbv beta. unfold midlevel. destruct (Nat.eqb_spec z j) as [->|Nz].
        { destruct (Nat.ltb_spec j (2 ^ i)); [|lia]. destruct (Nat.ltb_spec j (S j)); [reflexivity|lia]. }
        { destruct (Nat.ltb_spec z (2 ^ i)); [|reflexivity].
          destruct (Nat.ltb_spec z j); destruct (Nat.ltb_spec z (S j)); try lia; reflexivity. }
    + cbv beta. simpl (0 + _). intros t2 T2. unfold eqtab. rewrite prs_length, prs_S, Nat.add_0_r.
      pose proof (midlevel_end N t2 c (prs R O 0 i) a b) as M. rewrite prs_length in M. apply M, T2.
Qed.
End Level.
Lemma level_raw_ok : forall N t r o R O i c, reps r R -> reps o O -> i < length R -> i < length O -> 2 ^ S i <= N ->
  eqtab N c (prs R O 0 i) t -> returns (level_raw r o i t) (eqtab N c (prs R O 0 (S i))).
Proof. apply (level_ok (fun x y => u512_mod (u512_mul x y))). intros; lzr. Qed.
Lemma level_fe_ok : forall N t r o R O i c, reps r R -> reps o O -> i < length R -> i < length O -> 2 ^ S i <= N ->
  eqtab N c (prs R O 0 i) t -> returns (level_fe r o i t) (eqtab N c (prs R O 0 (S i))).
Proof. apply (level_ok fe_mul). intros; lzr. Qed.

Lemma beta_init_ok : forall N lg lu alpha beta r0 r1 ru rv o0 o1 ou ov B a b R0 R1 Ru Rv O0 O1 Ou Ov,
  reps r0 R0 -> reps r1 R1 -> reps ru Ru -> reps rv Rv -> reps o0 O0 -> reps o1 O1 -> reps ou Ou -> reps ov Ov ->
  length R0 = lg -> length R1 = lg -> length O0 = lg -> length O1 = lg ->
  length Ru = lu -> length Rv = lu -> length Ou = lu -> length Ov = lu ->
  length (b_g0 B) = N -> length (b_g1 B) = N -> length (b_u B) = N -> length (b_v B) = N ->
  2 ^ lg <= N -> 2 ^ lu <= N -> rep alpha a -> rep beta b ->
  returns (beta_init lg lu alpha beta r0 r1 ru rv o0 o1 ou ov B) (fun B' =>
    eqtab N a (prs R0 O0 0 lg) (b_g0 B') /\ eqtab N b (prs R1 O1 0 lg) (b_g1 B') /\
    eqtab N 1%F (prs Ru Ou 0 lu) (b_u B') /\ eqtab N 1%F (prs Rv Ov 0 lu) (b_v B')).
Proof.
  intros N lg lu alpha beta r0 r1 ru rv o0 o1 ou ov B a b R0 R1 Ru Rv O0 O1 Ou Ov
    H0 H1 Hu Hv K0 K1 Ku Kv L0 L1 L2 L3 L4 L5 L6 L7 M0 M1 M2 M3 Ng Nu Ra Rb.
  unfold beta_init. pose proof (pow2_pos lg).
  assert (Hup : forall i n, i < n -> 2 ^ n <= N -> 2 ^ S i <= N)
    by (intros; etransitivity; [apply Nat.pow_le_mono_r; [lia|]|eassumption]; lia).
  apply rb_wr; [lia|]. apply rb_wr; [lia|].
  eapply returns_bind.
  - apply (returns_for _ lg 0 _ (fun i st => eqtab N a (prs R0 O0 0 i) (fst st) /\ eqtab N b (prs R1 O1 0 i) (snd st))).
    + split; apply eqtab_init; (assumption || lia).
    + intros i [g0 g1] Hi [T0 T1]. simpl in Hi. cbn [fst snd] in *.
      eapply returns_bind; [eapply (level_raw_ok N g0 r0 o0 R0 O0); try eassumption; first [lia | apply (Hup i lg); lia | apply (Hup i lu); lia]|].
      intros g0' T0'.
      eapply returns_bind; [eapply (level_raw_ok N g1 r1 o1 R1 O1); try eassumption; first [lia | apply (Hup i lg); lia | apply (Hup i lu); lia]|].
      intros g1' T1'. apply returns_ok. split; assumption.
  - intros [g0 g1] [T0 T1]. simpl (0 + _) in *. cbn [fst snd] in *.
    apply rb_wr; [lia|]. apply rb_wr; [lia|].
    eapply returns_bind.
    + apply (returns_for _ lu 0 _ (fun i st => eqtab N 1%F (prs Ru Ou 0 i) (fst st) /\ eqtab N 1%F (prs Rv Ov 0 i) (snd st))).
      * split; apply eqtab_init; (assumption || lia || exact rep_i1).
      * intros i [g0' g1'] Hi [T0' T1']. simpl in Hi. cbn [fst snd] in *.
        eapply returns_bind; [eapply (level_fe_ok N g0' ru ou Ru Ou); try eassumption; first [lia | apply (Hup i lg); lia | apply (Hup i lu); lia]|].
        intros g0'' T0''.
        eapply returns_bind; [eapply (level_fe_ok N g1' rv ov Rv Ov); try eassumption; first [lia | apply (Hup i lg); lia | apply (Hup i lu); lia]|].
        intros g1'' T1''. apply returns_ok. split; assumption.
    + intros [tu tv] [Tu Tv]. simpl (0 + _) in *. cbn [fst snd] in *. apply returns_ok. cbn [b_g0 b_g1 b_u b_v].
      split; [exact T0|]. split; [exact T1|]. split; assumption.
Qed.

(** ** Folding of tables: V_res and V_in *)
Lemma copy_n_ok : forall N l n f, tab N l n f -> returns (copy_n l n) (fun l' => tab n l' n f).
Proof.
  intros N l n f T. unfold copy_n.
  eapply returns_conseq; [apply (returns_for _ n 0 _ (fun i l' => tab n l' i f))|].
  - pose proof (tab_nil (repeat fe_zero n) f) as H. rewrite repeat_length in H. exact H.
  - intros i l' Hi T'. simpl in Hi. eapply rb_tab; [exact T|lia|]. intros x Rx.
    apply returns_wr; [destruct T' as [-> _]; lia|]. apply tab_push; [exact T'|lia|exact Rx].
  - intros a Ha. exact Ha.
Qed.
Lemma comp_length : forall R, length (comp R) = length R.
Proof. intro R. apply map_length. Qed.
Lemma comp_nth : forall R i, i < length R -> nth i (comp R) 0%F = (1 - nth i R 0)%F.
Proof.
  intros R i H. unfold comp.
  rewrite (nth_indep _ 0%F ((fun a => (1 - a)%F) 0%F)) by (rewrite map_length; exact H).
  apply (map_nth (fun a => (1 - a)%F)).
Qed.

Lemma fold_table_ok : forall op N l r o R f,
  (forall x0 o x1 r a b c d, rep x0 a -> rep o b -> rep x1 c -> rep r d -> rep (op x0 o x1 r) (a * b + c * d)%F) ->
  reps r R -> reps o (comp R) -> tab N l (2 ^ length R) f ->
  returns (fold_table op o r (length R) (2 ^ length R) l) (fun l' => tab N l' 1 (folds R f)).
Proof.
  intros op N l r o R f Hop Hr Ho T. unfold fold_table.
  eapply returns_bind.
  - apply (returns_for _ (length R) 0 _ (fun i st => snd st = 2 ^ (length R - i) /\
             tab N (fst st) (2 ^ (length R - i)) (folds (firstn i R) f))).
    + rewrite Nat.sub_0_r. split; [reflexivity|exact T].
    + intros i [out size] Hi [Es Ts]. simpl in Hi. cbn [fst snd] in *. subst size.
      replace (length R - i) with (S (length R - S i)) in * by lia.
      set (m := length R - S i) in *. set (g := folds (firstn i R) f) in *.
      rewrite shr1_pow2.
      assert (HN : 2 ^ S m <= N) by apply Ts. rewrite pow2_S in HN. pose proof (pow2_pos m).
      eapply returns_bind.
      * apply (returns_for _ (2 ^ m) 0 _ (fun j l => tab N l (2 ^ S m)
           (fun k => if k <? j then fold1 (nth i R 0%F) g k else g k))).
        { exact Ts. }
        intros j out' Hj T'. simpl in Hj. assert (HL : length out' = N) by apply T'.
        rewrite shl1_or1, shl1.
        eapply rb_tab; [exact T'|rewrite pow2_S; lia|]. intros x0 R0.
        eapply rb_reps; [exact Ho|rewrite comp_length; lia|]. intros oo Roo.
        eapply rb_tab; [exact T'|rewrite pow2_S; lia|]. intros x1 R1.
        eapply rb_reps; [exact Hr|lia|]. intros rr Rrr.
        cbv beta in R0, R1. rewrite comp_nth in Roo by lia.
        destruct (Nat.ltb_spec (2 * j) j); [lia|]. destruct (Nat.ltb_spec (2 * j + 1) j); [lia|].
        apply returns_wr; [lia|].
        eapply tab_ext; [apply (tab_upd _ _ _ _ j _ (fold1 (nth i R 0%F) g j) T'); [lia|]|].
        { unfold fold1. apply Hop; assumption. }
        intros k Hk. cbv beta. destruct (Nat.eqb_spec k j) as [->|Nk].
        { destruct (Nat.ltb_spec j (S j)); [reflexivity|lia]. }
        { destruct (Nat.ltb_spec k j); destruct (Nat.ltb_spec k (S j)); try lia; reflexivity. }
      * intros out' T'. simpl (0 + _) in T'. apply returns_ok. cbn [fst snd]. split; [reflexivity|].
        assert (Ef : firstn (S i) R = firstn i R ++ [nth i R 0%F]).
        { clear - Hi. revert R Hi. induction i; intros [|x R] Hi; simpl in *; try lia; [reflexivity|].
          f_equal. apply IHi. lia. }
        rewrite Ef, folds_snoc. fold g.
        eapply tab_ext; [eapply tab_sub; [exact T'|rewrite pow2_S; lia]|].
        intros k Hk. cbv beta. destruct (Nat.ltb_spec k (2 ^ m)); [reflexivity|lia].
  - intros [out size] [_ T']. cbn [fst] in T'. simpl (0 + _) in T'. rewrite Nat.sub_diag, firstn_all in T'.
    apply returns_ok. exact T'.
Qed.

Lemma V_res_ok : forall N l r o R f, reps r R -> reps o (comp R) -> tab N l (2 ^ length R) f ->
  returns (V_res o r l (length R) (2 ^ length R)) (fun x => rep x (mle R f)).
Proof.
  intros N l r o R f Hr Ho T. unfold V_res.
  eapply returns_bind; [eapply copy_n_ok, T|]. intros out T1.
  eapply returns_bind; [eapply (fold_table_ok _ _ _ _ _ R f); [intros; lzr|exact Hr|exact Ho|exact T1]|].
  intros out' T2. eapply rb_tab; [exact T2|lia|]. intros x Rx. apply returns_ok.
  rewrite mle_folds. apply rep_fix_neg, Rx.
Qed.
Lemma V_in_ok : forall N l r o R f, reps r R -> reps o (comp R) -> tab N l (2 ^ length R) f ->
  returns (V_in r o l (length R) (2 ^ length R)) (fun x => rep x (mle R f)).
Proof.
  intros N l r o R f Hr Ho T. unfold V_in.
  eapply returns_bind; [eapply copy_n_ok, T|]. intros out T1.
  eapply returns_bind; [eapply (fold_table_ok _ _ _ _ _ R f); [intros; lzr|exact Hr|exact Ho|exact T1]|].
  intros out' T2. eapply rb_tab; [exact T2|lia|]. intros x Rx. apply returns_ok.
  rewrite mle_folds. apply rep_fix_neg. lzr.
Qed.

(** ** direct_relay *)
Lemma direct_relay_ok : forall n r_g r_u Rg Ru, reps r_g Rg -> reps r_u Ru -> length Rg = n -> length Ru = n ->
  returns (direct_relay 1 n r_g r_u) (fun x => rep x (eqpt Rg Ru)).
Proof.
  intros n r_g r_u Rg Ru Hg Hu Lg Lu. unfold direct_relay. simpl (negb _).
  eapply returns_conseq; [apply (returns_for _ n 0 _ (fun i x => rep x (eqpt (firstn i Rg) (firstn i Ru))))|].
  - exact rep_i1.
  - intros i x Hi Rx. simpl in Hi.
    eapply rb_reps; [exact Hg|lia|]. intros g Rgi. eapply rb_reps; [exact Hu|lia|]. intros u Rui.
    apply returns_ok.
    assert (Ef : forall (R : list F), i < length R -> firstn (S i) R = firstn i R ++ [nth i R 0%F]).
    { clear. induction i; intros [|x R] Hi; simpl in *; try lia; [reflexivity|]. f_equal. apply IHi. lia. }
    rewrite !Ef by lia.
    assert (Ea : forall r s a b, length r = length s ->
              eqpt (r ++ [a]) (s ++ [b]) = (eqpt r s * (a * b + (1 - a) * (1 - b)))%F).
    { clear. induction r; intros [|y s] a0 b H; simpl in H; try discriminate.
      - unfold eqpt. simpl. ring.
      - injection H as H. specialize (IHr s a0 b H). unfold eqpt in *.
        cbn [app combine map fold_right fst snd]. rewrite IHr. ring. }
    rewrite Ea by (rewrite !firstn_length; lia). lzr.
  - cbv beta. intros x Hx. simpl (0 + n) in Hx. rewrite <- Lg in Hx at 1. rewrite <- Lu in Hx.
    rewrite !firstn_all in Hx. exact Hx.
Qed.
Lemma direct_relay_0 : forall i n r_g r_u, i <> 1 -> direct_relay i n r_g r_u = Ok (fe_of_int 0).
Proof. intros i n r_g r_u H. unfold direct_relay. destruct (Nat.eqb_spec i 1); [congruence|reflexivity]. Qed.

(** ** one_minus and randomness *)
Lemma tab_reps : forall l n f, tab n l n f -> reps l (map f (seq 0 n)).
Proof.
  induction l as [|x l IH]; intros n f (L & _ & H); simpl in L; subst n; [constructor|].
  cbn [seq map]. constructor.
  - destruct (H 0 ltac:(lia)) as (y & E & R). injection E as <-. exact R.
  - rewrite <- seq_shift, map_map. apply IH. split; [reflexivity|]. split; [lia|].
    intros i Hi. destruct (H (S i) ltac:(lia)) as (y & E & R). exists y. auto.
Qed.
Lemma map_nth_seq : forall R : list F, map (fun i => nth i R 0%F) (seq 0 (length R)) = R.
Proof.
  induction R as [|a R IH]; [reflexivity|]. cbn [length seq map nth]. f_equal.
  rewrite <- seq_shift, map_map. exact IH.
Qed.
Lemma one_minus_ok : forall r R n, reps r R -> n = length R ->
  returns (one_minus r n) (fun o => reps o (comp R)).
Proof.
  intros r R n H ->. unfold one_minus.
  eapply returns_conseq.
  - apply (returns_for _ (length R) 0 _ (fun i l => tab (length R) l i (fun k => (1 - nth k R 0)%F))).
    + pose proof (tab_nil (repeat fe_zero (length R)) (fun k => (1 - nth k R 0)%F)) as K.
      rewrite repeat_length in K. exact K.
    + intros i l Hi T. simpl in Hi. eapply rb_reps; [exact H|lia|]. intros x Rx.
      apply returns_wr; [destruct T as [-> _]; lia|]. apply tab_push; [exact T|lia|]. lzr.
  - cbv beta. simpl (0 + _). intros l T. apply tab_reps in T.
    replace (comp R) with (map (fun k => (1 - nth k R 0)%F) (seq 0 (length R))); [exact T|].
    pose proof (f_equal (map (fun a => (1 - a)%F)) (map_nth_seq R)) as K. rewrite map_map in K. exact K.
Qed.
Lemma generate_randomness_ok : forall rnd pos n, (forall k, reduced (rnd k)) ->
  reps (fst (generate_randomness rnd pos n)) (map (fun i => ofZ (val512 (rnd (pos + i)))) (seq 0 n)).
Proof.
  intros rnd pos n H. cbn [generate_randomness fst]. generalize (seq 0 n). induction l; cbn [map]; constructor.
  - pose proof (reduced_rep _ (H (pos + a))). lzr.
  - exact IHl.
Qed.
