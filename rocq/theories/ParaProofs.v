(** * Proofs about the multi-threaded prover: slices, V_res *)
From Coq Require Import ZArith List Bool Arith Lia.
From Verif Require Import Base Limbs Field Fp Poly Circuit Lazy MleSpec TablesProofs FastProver Conc ParaProver.
Import ListNotations.
Open Scope nat_scope.

Lemma arr_eqb_spec : forall a b, reflect (a = b) (arr_eqb a b).
Proof.
  intros a b. apply iff_reflect. split.
  - intros <-. destruct a as [| | []| | | | | | | | | | | |[] [] []| | | | |]; reflexivity.
  - destruct a as [| | []| | | | | | | | | | | |[] [] []| | | | |],
             b as [| | []| | | | | | | | | | | |[] [] []| | | | |]; intro E;
      first [reflexivity|discriminate E].
Qed.
Lemma loc_eqb_spec : forall a b, reflect (a = b) (loc_eqb a b).
Proof.
  intros [a i] [b j]. unfold loc_eqb. cbn [fst snd].
  destruct (arr_eqb_spec a b) as [->|N]; cbn [andb].
  - destruct (Nat.eqb_spec i j) as [->|N]; constructor; [reflexivity|]. intros [= E]. contradiction.
  - constructor. intros [= E E']. contradiction.
Qed.

Notation put' := (put (V := cell) loc_eqb).
Lemma puta_same : forall (m : memory) l v, put' m l v l = Some v.
Proof. apply put_same, loc_eqb_spec. Qed.
Lemma puta_other : forall (m : memory) l v l', l <> l' -> put' m l v l' = m l'.
Proof. apply put_other, loc_eqb_spec. Qed.

(** ** Contents of the memory *)
Definition holds (m : memory) (l : loc) (a : F) : Prop := exists x, m l = Some (Fe x) /\ rep x a.
Definition mtab (m : memory) (a : arr) (n : nat) (f : nat -> F) : Prop := forall i, i < n -> holds m (a, i) (f i).
Definition alloc (m : memory) (a : arr) (n : nat) : Prop := forall i, i < n -> m (a, i) <> None.
Lemma mtab_alloc : forall m a n f, mtab m a n f -> alloc m a n.
Proof. intros m a n f T i Hi. destruct (T i Hi) as (x & E & _). rewrite E. discriminate. Qed.
Lemma holds_some : forall m l a, holds m l a -> m l <> None.
Proof. intros m l a (x & E & _). rewrite E. discriminate. Qed.
Lemma holds_eq : forall m m' l a, m' l = m l -> holds m l a -> holds m' l a.
Proof. intros m m' l a E (x & H & R). exists x. rewrite E. split; assumption. Qed.

(** ** Outcomes *)
Definition good (n : nat) (ps : pool) (m : memory) (Q : memory -> Prop) : Prop :=
  ~ undefined loc_eqb n m ps /\ (exists m', finishes loc_eqb n m ps m') /\
  (forall m', finishes loc_eqb n m ps m' -> Q m').
(** Every execution ends, defined, in a memory satisfying [Q]; there is one. *)
Definition surely (c : list phase) (m : memory) (Q : memory -> Prop) : Prop :=
  (forall o, exec c m o -> exists m', o = Some m' /\ Q m') /\ exists o, exec c m o.

Lemma surely_nil : forall m (Q : memory -> Prop), Q m -> surely [] m Q.
Proof.
  intros m Q H. split; [|exists (Some m); constructor].
  intros o E. inversion E; subst. exists m. split; [reflexivity|exact H].
Qed.
Lemma surely_cons : forall n ps r m (Q R : memory -> Prop), good n ps m Q -> (forall m', Q m' -> surely r m' R) ->
  surely ((n, ps) :: r) m R.
Proof.
  intros n ps r m Q R (ND & (m1 & F1) & A) C. split.
  - intros o E. inversion E as [|n0 ps0 r0 m0 U|n0 ps0 r0 m0 m2 o0 F2 E2]; subst; [contradiction|].
    exact (proj1 (C m2 (A m2 F2)) o E2).
  - destruct (proj2 (C m1 (A m1 F1))) as (o & E). exists o. exact (exec_cons _ _ _ _ _ _ F1 E).
Qed.
Lemma surely_conseq : forall c m (Q R : memory -> Prop), surely c m Q -> (forall m', Q m' -> R m') -> surely c m R.
Proof.
  intros c m Q R (A & B) H. split; [|exact B]. intros o E. destruct (A o E) as (m' & -> & K).
  exists m'. split; [reflexivity|apply H, K].
Qed.

Lemma good_sep : forall n R W ps m (T : nat -> memory -> Prop) (Q : memory -> Prop),
  separate n R W -> fits n R W ps -> covers n R W m -> (forall i, i < n -> ends loc_eqb (ps i) m (T i)) ->
  (forall m', (forall i l, i < n -> W i l = true -> exists mi, T i mi /\ m' l = mi l) ->
     (forall l, (forall i, i < n -> W i l = false) -> m' l = m l) -> Q m') ->
  good n ps m Q.
Proof.
  intros n R W ps m T Q SEP FI CO EN PO. split; [|split].
  - exact (separate_defined _ loc_eqb_spec n R W SEP m ps FI CO).
  - destruct (separate_in_turn _ loc_eqb_spec n R W SEP m ps FI CO) as (m' & E).
    exists m'. apply (in_turn_finishes _ n ps m m' E).
  - intros m' FN. destruct (separate_merged _ loc_eqb_spec n R W SEP m ps m' FI CO FN) as (A & B).
    apply PO; [|exact B]. intros i l Hi Hl. destruct (A i l Hi Hl) as (mi & E & EL).
    destruct (EN i Hi) as (mi' & E' & T'). rewrite E in E'. injection E' as <-.
    exists mi. split; assumption.
Qed.

(** ** Reads and writes *)
Lemma ends_getf : forall a i k (m : memory) x (Q : memory -> Prop), m (a, i) = Some (Fe x) ->
  ends loc_eqb (k x) m Q -> ends loc_eqb (getf a i k) m Q.
Proof. intros a i k m x Q E H. unfold getf. eapply ends_get; [exact E|]. cbn [as_fe]. exact H. Qed.
Lemma ends_holds : forall a i k (m : memory) f (Q : memory -> Prop), holds m (a, i) f ->
  (forall x, rep x f -> ends loc_eqb (k x) m Q) -> ends loc_eqb (getf a i k) m Q.
Proof. intros a i k m f Q (x & E & R) H. eapply ends_getf; [exact E|]. apply H, R. Qed.
Lemma ends_putf : forall a i x k (m : memory) (Q : memory -> Prop), m (a, i) <> None ->
  ends loc_eqb k (put' m (a, i) (Fe x)) Q -> ends loc_eqb (putf a i x k) m Q.
Proof.
  intros a i x k m Q N H. destruct (m (a, i)) as [w|] eqn:E; [|contradiction].
  unfold putf. eapply ends_put; [exact E|exact H].
Qed.
Lemma ends_puti : forall a i x k (m : memory) (Q : memory -> Prop), m (a, i) <> None ->
  ends loc_eqb k (put' m (a, i) (Int x)) Q -> ends loc_eqb (puti a i x k) m Q.
Proof.
  intros a i x k m Q N H. destruct (m (a, i)) as [w|] eqn:E; [|contradiction].
  unfold puti. eapply ends_put; [exact E|exact H].
Qed.
Lemma put_some : forall (m : memory) l v l', m l' <> None -> put' m l v l' <> None.
Proof. intros m l v l' H. unfold put. destruct (loc_eqb l l'); [discriminate|exact H]. Qed.

(** ** One round of V_res *)
Section Round.
Variables (i k : nat) (s : bool) (f : nat -> F) (r : F) (m : memory).
Hypothesis Hout : mtab m (Out s) (2 ^ S k) f.
Hypothesis Hr : holds m (RZero, i) r.
Hypothesis Ho : holds m (OneMinusR0, i) (1 - r)%F.
Hypothesis Hn : alloc m (Out (negb s)) (2 ^ k).

(** Cells [Out (negb s)] written so far are [lo .. hi - 1]. *)
Definition round_inv (lo hi : nat) (m' : memory) : Prop :=
  (forall j, lo <= j < hi -> holds m' (Out (negb s), j) (fold1 r f j)) /\
  (forall l, (forall j, lo <= j < hi -> l <> (Out (negb s), j)) -> m' l = m l).

Lemma out_ne : forall (j j' : nat), (Out s, j) <> (Out (negb s), j').
Proof. intros j j' E. injection E as E _. destruct s; discriminate. Qed.

Lemma V_res_entry_ok : forall lo j m', lo <= j -> j < 2 ^ k -> round_inv lo j m' ->
  ends loc_eqb (V_res_entry i (Out s) (Out (negb s)) j) m' (round_inv lo (S j)).
Proof.
  intros lo j m' Hlo Hj (A & B). unfold V_res_entry. rewrite shl1_or1, shl1.
  eapply ends_holds; [eapply holds_eq; [apply B; intros; apply out_ne|apply Hout; rewrite pow2_S; lia]|]. intros x0 R0.
  eapply ends_holds; [eapply holds_eq; [apply B; intros; discriminate|exact Ho]|]. intros o Roo.
  eapply ends_holds; [eapply holds_eq; [apply B; intros; apply out_ne|apply Hout; rewrite pow2_S; lia]|]. intros x1 R1.
  eapply ends_holds; [eapply holds_eq; [apply B; intros; discriminate|exact Hr]|]. intros rr Rr.
  apply ends_putf.
  { rewrite B by (intros j' Hj' E; injection E as E; lia). apply Hn, Hj. }
  apply ends_ret. split.
  - intros j' Hj'. destruct (Nat.eq_dec j' j) as [->|N].
    + eexists. split; [apply puta_same|]. unfold fold1. lzr.
    + eapply holds_eq; [apply puta_other; intros [= E]; lia|]. apply A. lia.
  - intros l Hl. rewrite puta_other by (apply not_eq_sym, Hl; lia). apply B. intros j' Hj'. apply Hl. lia.
Qed.

Lemma V_res_loop_ok : forall lo n, lo + n <= 2 ^ k ->
  ends loc_eqb (pfor n lo (V_res_entry i (Out s) (Out (negb s)))) m (round_inv lo (lo + n)).
Proof.
  intros lo n H. apply (ends_pfor _ n lo _ (fun j m' => round_inv lo j m')).
  - split; [intros; lia|reflexivity].
  - intros j m' Hj IV. apply V_res_entry_ok; [lia|lia|exact IV].
Qed.

(** Footprints. *)
Definition round_reads (l : loc) : bool :=
  match fst l with
  | Out s' => Bool.eqb s' s && (snd l <? 2 ^ S k)
  | RZero | OneMinusR0 => snd l =? i
  | _ => false
  end.
Definition round_writes (lo hi : nat) (l : loc) : bool :=
  match fst l with
  | Out s' => Bool.eqb s' (negb s) && (lo <=? snd l) && (snd l <? hi)
  | _ => false
  end.
Lemma round_writes_spec : forall lo hi l, round_writes lo hi l = true <-> exists j, lo <= j < hi /\ l = (Out (negb s), j).
Proof.
  intros lo hi [a j]. unfold round_writes. cbn [fst snd]. split.
  - destruct a; try discriminate. intro H. apply andb_true_iff in H as (H & H3). apply andb_true_iff in H as (H1 & H2).
    apply eqb_prop in H1. apply Nat.leb_le in H2. apply Nat.ltb_lt in H3. subst. exists j. split; [lia|reflexivity].
  - intros (j' & H & [= -> ->]). rewrite eqb_reflx. cbn [andb].
    destruct (Nat.leb_spec lo j'); [|lia]. destruct (Nat.ltb_spec j' hi); [reflexivity|lia].
Qed.
Lemma round_reads_writes : forall lo hi l, round_writes lo hi l = true -> round_reads l = false.
Proof.
  intros lo hi l H. apply round_writes_spec in H as (j & _ & ->). unfold round_reads. cbn [fst snd].
  destruct s; reflexivity.
Qed.
Lemma V_res_entry_foot : forall lo hi j, lo <= j < hi -> hi <= 2 ^ k ->
  foot round_reads (round_writes lo hi) (V_res_entry i (Out s) (Out (negb s)) j).
Proof.
  intros lo hi j Hj Hh. unfold V_res_entry. rewrite shl1_or1, shl1. unfold getf, putf. cbn [foot as_fe].
  assert (K : forall x, x < 2 ^ S k -> round_reads (Out s, x) = true).
  { intros x Hx. unfold round_reads. cbn [fst snd]. rewrite eqb_reflx. apply Nat.ltb_lt, Hx. }
  split; [rewrite K by (rewrite pow2_S; lia); reflexivity|]. intros _.
  split; [unfold round_reads; cbn [fst snd]; rewrite Nat.eqb_refl; reflexivity|]. intros _.
  split; [rewrite K by (rewrite pow2_S; lia); reflexivity|]. intros _.
  split; [unfold round_reads; cbn [fst snd]; rewrite Nat.eqb_refl; reflexivity|]. intros _.
  split; [apply round_writes_spec; exists j; split; [lia|reflexivity]|exact I].
Qed.
Lemma round_covers : forall lo hi l, hi <= 2 ^ k -> (round_reads l || round_writes lo hi l) = true -> m l <> None.
Proof.
  intros lo hi [a j] Hh H. apply orb_true_iff in H as [H|H].
  - unfold round_reads in H. cbn [fst snd] in H. destruct a; try discriminate.
    + apply andb_true_iff in H as (H1 & H2). apply eqb_prop in H1. subst. apply Nat.ltb_lt in H2.
      exact (holds_some _ _ _ (Hout j H2)).
    + apply Nat.eqb_eq in H. subst. exact (holds_some _ _ _ Ho).
    + apply Nat.eqb_eq in H. subst. exact (holds_some _ _ _ Hr).
  - apply round_writes_spec in H as (j' & H & [= -> ->]). apply Hn. lia.
Qed.

Definition round_post (m' : memory) : Prop :=
  mtab m' (Out (negb s)) (2 ^ k) (fold1 r f) /\
  (forall l, (forall j, l <> (Out (negb s), j)) -> m' l = m l) /\
  (forall l, m l <> None -> m' l <> None).

Lemma split_quarters : 2 <= k -> 2 ^ k = NUM_THREADS * (2 ^ k / NUM_THREADS).
Proof.
  intro H. unfold NUM_THREADS. replace k with (2 + (k - 2)) by lia. rewrite Nat.pow_add_r.
  change (2 ^ 2) with 4. rewrite (Nat.mul_comm 4 (2 ^ (k - 2))), Nat.div_mul by lia. lia.
Qed.

Lemma V_res_round_ok : good (fst (V_res_round i s (2 ^ S k))) (snd (V_res_round i s (2 ^ S k))) m round_post.
Proof.
  unfold V_res_round. rewrite shr1_pow2.
  assert (K : forall m' lo hi, round_inv lo hi m' -> forall l, (exists j, lo <= j < hi /\ l = (Out (negb s), j)) -> m' l <> None).
  { intros m' lo hi (A & _) l (j & Hj & ->). exact (holds_some _ _ _ (A j Hj)). }
  destruct (Nat.leb_spec NUM_THREADS (2 ^ k)) as [H4|H4].
  - assert (Hk : 2 <= k).
    { destruct k as [|[|k']]; [cbn in H4; unfold NUM_THREADS in H4; lia|cbn in H4; unfold NUM_THREADS in H4; lia|lia]. }
    pose proof (split_quarters Hk) as Q. set (bs := 2 ^ k / NUM_THREADS) in *.
    unfold parallel. cbn [fst snd].
    apply (good_sep NUM_THREADS (fun _ => round_reads) (fun id => round_writes (id * bs) ((id + 1) * bs)) _ _
             (fun id => round_inv (id * bs) ((id + 1) * bs))).
    + intros x y l Hx Hy N H. apply orb_false_iff. split; [eapply round_reads_writes, H|].
      destruct (round_writes (y * bs) ((y + 1) * bs) l) eqn:E; [|reflexivity].
      apply round_writes_spec in H as (j & Hj & ->). apply round_writes_spec in E as (j' & Hj' & [= <-]). nia.
    + intros id Hid. unfold V_res_func. fold bs. apply foot_pfor. intros j Hj. apply V_res_entry_foot; [lia|nia].
    + intros id l Hid. apply round_covers. nia.
    + intros id Hid. unfold V_res_func. fold bs.
      eapply ends_conseq; [apply V_res_loop_ok; nia|].
      intros m' H. replace (id * bs + ((id + 1) * bs - id * bs)) with ((id + 1) * bs) in H by lia. exact H.
    + intros m' A B. split; [|split].
      * intros j Hj. assert (D : bs <> 0) by lia.
        pose proof (Nat.div_mod j bs D). pose proof (Nat.mod_upper_bound j bs D).
        assert (j / bs < NUM_THREADS) by (apply Nat.div_lt_upper_bound; [exact D|lia]).
        destruct (A (j / bs) (Out (negb s), j)) as (mi & (T1 & _) & E); [assumption| |].
        { apply round_writes_spec. exists j. split; [nia|reflexivity]. }
        eapply holds_eq; [exact E|]. apply T1. nia.
      * intros l Hl. apply B. intros id Hid. destruct (round_writes (id * bs) ((id + 1) * bs) l) eqn:E; [|reflexivity].
        apply round_writes_spec in E as (j & _ & ->). destruct (Hl j eq_refl).
      * intros l Hl.
        destruct (existsb (fun id => round_writes (id * bs) ((id + 1) * bs) l) (seq 0 NUM_THREADS)) eqn:E.
        { apply existsb_exists in E as (id & Hid & E). apply in_seq in Hid.
          destruct (A id l ltac:(lia) E) as (mi & T1 & ->). apply (K _ _ _ T1). apply round_writes_spec, E. }
        { rewrite B; [exact Hl|]. intros id Hid. destruct (round_writes (id * bs) ((id + 1) * bs) l) eqn:E'; [|reflexivity].
          rewrite <- E. symmetry. apply existsb_exists. exists id. split; [apply in_seq; lia|exact E']. }
  - unfold serial. cbn [fst snd].
    apply (good_sep 1 (fun _ => round_reads) (fun _ => round_writes 0 (2 ^ k)) _ _ (fun _ => round_inv 0 (2 ^ k))).
    + intros x y l Hx Hy N. lia.
    + intros id Hid. apply foot_pfor. intros j Hj. apply V_res_entry_foot; lia.
    + intros id l Hid. apply round_covers. lia.
    + intros id Hid. apply (V_res_loop_ok 0 (2 ^ k)). lia.
    + intros m' A B. split; [|split].
      * intros j Hj. destruct (A 0 (Out (negb s), j)) as (mi & (T1 & _) & E); [lia| |].
        { apply round_writes_spec. exists j. split; [lia|reflexivity]. }
        eapply holds_eq; [exact E|]. apply T1. lia.
      * intros l Hl. apply B. intros id Hid. destruct (round_writes 0 (2 ^ k) l) eqn:E; [|reflexivity].
        apply round_writes_spec in E as (j & _ & ->). destruct (Hl j eq_refl).
      * intros l Hl. destruct (round_writes 0 (2 ^ k) l) eqn:E.
        { destruct (A 0 l ltac:(lia) E) as (mi & T1 & ->). apply (K _ _ _ T1). apply round_writes_spec, E. }
        { rewrite B; [exact Hl|]. intros. exact E. }
Qed.
End Round.

(** ** All rounds *)
Lemma V_res_rounds_ok : forall n i s f m (R : list F), i + n = length R ->
  mtab m (Out s) (2 ^ n) f -> alloc m (Out (negb s)) (2 ^ n) ->
  mtab m RZero (length R) (fun j => nth j R 0%F) -> mtab m OneMinusR0 (length R) (fun j => (1 - nth j R 0)%F) ->
  surely (V_res_rounds n i s (2 ^ n)) m
    (fun m' => holds m' (Out (xorb s (Nat.odd n)), 0) (folds (skipn i R) f 0)).
Proof.
  induction n as [|n IH]; intros i s f m R Hi T A TR TO; cbn [V_res_rounds].
  - apply surely_nil. rewrite skipn_all2 by lia. rewrite xorb_false_r. cbn [folds]. apply T. cbn. lia.
  - rewrite shr1_pow2.
    assert (An : alloc m (Out (negb s)) (2 ^ n)).
    { intros j Hj. apply A. rewrite pow2_S. lia. }
    pose proof (V_res_round_ok i n s f (nth i R 0%F) m T (TR i ltac:(lia)) (TO i ltac:(lia)) An) as G.
    destruct (V_res_round i s (2 ^ S n)) as [tn ps] eqn:E. cbn [fst snd] in G.
    eapply surely_cons; [exact G|]. intros m' (P1 & P2 & P3).
    assert (Es : skipn i R = nth i R 0%F :: skipn (S i) R).
    { assert (L : i < length R) by lia. clear - L. revert i L. induction R as [|x R IH]; intros [|i] L; cbn [length] in L; try lia; [reflexivity|].
      cbn [nth]. change (skipn (S i) (x :: R)) with (skipn i R). rewrite (IH i ltac:(lia)). reflexivity. }
    rewrite Es. cbn [folds].
    eapply surely_conseq; [apply (IH (S i) (negb s) (fold1 (nth i R 0%F) f) m' R ltac:(lia))|].
    + exact P1.
    + rewrite negb_involutive. intros j Hj. apply P3. apply (mtab_alloc _ _ _ _ T). rewrite pow2_S. lia.
    + intros j Hj. eapply holds_eq; [apply P2; discriminate|apply TR, Hj].
    + intros j Hj. eapply holds_eq; [apply P2; discriminate|apply TO, Hj].
    + intros m'' H. rewrite Nat.odd_succ, <- Nat.negb_odd.
      replace (xorb s (negb (Nat.odd n))) with (xorb (negb s) (Nat.odd n)) by (destruct s, (Nat.odd n); reflexivity).
      exact H.
Qed.

(** ** The whole of V_res *)
Lemma V_res_code_ok : forall m (R : list F) f,
  mtab m Raw (2 ^ length R) f -> alloc m (Out false) (2 ^ length R) -> alloc m (Out true) (2 ^ length R) ->
  mtab m RZero (length R) (fun j => nth j R 0%F) -> mtab m OneMinusR0 (length R) (fun j => (1 - nth j R 0)%F) ->
  surely (V_res_code (length R) (2 ^ length R)) m
    (fun m' => holds m' (Out (V_res_buffer (length R)), 0) (mle R f)).
Proof.
  intros m R f TRaw A0 A1 TR TO. unfold V_res_code, serial.
  set (N := 2 ^ length R) in *.
  set (inv := fun (j : nat) (m' : memory) => mtab m' (Out false) j f /\ forall l, fst l <> Out false -> m' l = m l).
  assert (AL : forall j m', inv j m' -> alloc m' (Out true) N).
  { intros j m' (_ & B) x Hx. rewrite B by discriminate. apply A1, Hx. }
  set (Rd := fun l : loc => match fst l with Raw => snd l <? N | _ => false end).
  set (Wr := fun l : loc => match fst l with Out false => snd l <? N | _ => false end).
  eapply (surely_cons 1 _ _ m (inv N)).
  - apply (good_sep 1 (fun _ => Rd) (fun _ => Wr) _ _ (fun _ => inv N)).
    + intros x y l Hx Hy NE. lia.
    + intros id Hid. apply foot_pfor. intros j Hj. unfold getf, putf. cbn [foot]. unfold Rd, Wr. cbn [fst snd].
      destruct (Nat.ltb_spec j N); [|lia]. split; [reflexivity|]. intros _. split; [reflexivity|exact I].
    + intros id [a j] _ H. apply orb_true_iff in H as [H|H]; unfold Rd, Wr in H; cbn [fst snd] in H.
      * destruct a; try discriminate. apply Nat.ltb_lt in H. exact (holds_some _ _ _ (TRaw j H)).
      * destruct a as [| |[]| | | | | | | | | | | | | | | | |]; try discriminate. apply Nat.ltb_lt in H. apply A0, H.
    + intros id _. eapply ends_conseq; [apply (ends_pfor _ N 0 _ (fun j m' => inv j m' /\ alloc m' (Out false) N))|].
      * split; [split; [intros j Hj; lia|reflexivity]|exact A0].
      * intros j m' Hj ((T & B) & AF).
        eapply ends_holds; [eapply holds_eq; [apply B; discriminate|apply TRaw; lia]|]. intros x Rx.
        apply ends_putf; [apply AF; lia|]. apply ends_ret. split; [split|].
        -- intros j' Hj'. destruct (Nat.eq_dec j' j) as [->|NE].
           ++ exists x. split; [apply puta_same|exact Rx].
           ++ eapply holds_eq; [apply puta_other; intros [= E]; lia|]. apply T. lia.
        -- intros l Hl. rewrite puta_other by (intros <-; apply Hl; reflexivity). apply B, Hl.
        -- intros j' Hj'. apply put_some, AF, Hj'.
      * intros m' (H & _). exact H.
    + intros m' A B. split.
      * intros j Hj. destruct (A 0 (Out false, j)) as (mi & (T & _) & E); [lia| |].
        { unfold Wr. cbn [fst snd]. apply Nat.ltb_lt, Hj. }
        eapply holds_eq; [exact E|]. apply T, Hj.
      * intros l Hl. apply B. intros _ _. unfold Wr. destruct (fst l) as [| |[]| | | | | | | | | | | | | | | | |]; try reflexivity.
        destruct (Hl eq_refl).
  - intros m' (T & B).
    eapply surely_conseq; [apply (V_res_rounds_ok (length R) 0 false f m' R eq_refl)|].
    + exact T.
    + intros j Hj. rewrite B by discriminate. apply A1, Hj.
    + intros j Hj. eapply holds_eq; [apply B; discriminate|apply TR, Hj].
    + intros j Hj. eapply holds_eq; [apply B; discriminate|apply TO, Hj].
    + cbv beta. intros m'' H. rewrite xorb_false_l in H. cbn [skipn] in H. rewrite mle_folds. exact H.
Qed.
