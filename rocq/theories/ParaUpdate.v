(** * Proofs about the multi-threaded prover: the rounds, the race of phase 2 *)
From Coq Require Import ZArith List Bool Arith Lia.
From Verif Require Import Base Limbs Field LimbsProofs FieldProofs ModWrap Fp Poly Circuit Lazy MleSpec TablesProofs FastProver.
From Verif Require Import Conc ParaProver ParaProofs ParaPhase1 ParaInit.
Import ListNotations.
Open Scope nat_scope.

Lemma run_alloc : forall (p : thread) (m m' : memory), run loc_eqb p m = Some m' ->
  forall l, m l <> None -> m' l <> None.
Proof.
  induction p as [|l k IH|l v k IH]; intros m m' H l' A; cbn [run] in H.
  - injection H as <-. exact A.
  - destruct (m l) as [v|]; [|discriminate]. exact (IH _ _ _ H _ A).
  - destruct (m l) as [w|]; [|discriminate]. refine (IH _ _ H _ _). apply put_some, A.
Qed.
Lemma ends_quiet : forall R W (p : thread) (m : memory), foot R W p -> (forall l, (R l || W l) = true -> m l <> None) ->
  ends loc_eqb p m (fun m' => (forall l, W l = false -> m' l = m l) /\ (forall l, m l <> None -> m' l <> None)).
Proof.
  intros R W p m F A. destruct (run_local _ loc_eqb_spec R W p m m F (fun _ _ => eq_refl) A) as (m1 & m2 & E1 & E2 & _ & B & _).
  exists m1. split; [exact E1|]. split; [exact B|]. exact (run_alloc p m m1 E1).
Qed.

Lemma put6 : forall (m : memory) s' i (g : table -> comp -> fe) t c,
  put' (put' (put' (put' (put' (put' m (Tab s' TV Cb, i) (Fe (g TV Cb))) (Tab s' TV Ca, i) (Fe (g TV Ca)))
    (Tab s' TA Cb, i) (Fe (g TA Cb))) (Tab s' TA Ca, i) (Fe (g TA Ca)))
    (Tab s' TM Cb, i) (Fe (g TM Cb))) (Tab s' TM Ca, i) (Fe (g TM Ca)) (Tab s' t c, i) = Some (Fe (g t c)).
Proof. intros m s' i g t c. destruct t, c; cell. Qed.

Section Rounds.
Variables (minus : u512 -> fe -> u512) (every : nat) (s : bool) (n cb : nat) (r : fe).
Let total_uv := 2 ^ S n.
Let N := 2 ^ n.

Lemma half_total : Nat.shiftr total_uv 1 = N.
Proof. unfold total_uv, N. rewrite shr_div, pow2_S. change (2 ^ 1) with 2. rewrite Nat.mul_comm. apply Nat.div_mul. lia. Qed.

Definition u_reads (l : loc) : bool :=
  match fst l with Tab s' _ _ => Bool.eqb s' s && (snd l <? total_uv) | _ => false end.
Definition u_writes (id : nat) (l : loc) : bool :=
  match fst l with
  | Tab s' _ _ => Bool.eqb s' (negb s) && owns N (snd l) id
  | RetA | RetB | RetC => snd l =? id
  | _ => false
  end.
Lemma u_separate : separate NUM_THREADS (fun _ => u_reads) u_writes.
Proof.
  intros x y [a j] _ _ NE H. unfold u_reads, u_writes in *. cbn [fst snd] in *.
  destruct a as [| | | | | | | | | | | | | |s' t c| | | | |]; try discriminate; cbn [orb];
    try (apply Nat.eqb_eq in H; apply Nat.eqb_neq; congruence).
  apply andb_true_iff in H as (H1 & H2). apply eqb_prop in H1. subst s'.
  rewrite eqb_reflx, (owns_other _ _ _ _ NE H2). destruct s; reflexivity.
Qed.
Lemma reads_even : forall t c i, i < N -> u_reads (Tab s t c, Nat.shiftl i 1) = true.
Proof.
  intros t c i H. unfold u_reads. cbn [fst snd]. rewrite eqb_reflx, shl1. apply Nat.ltb_lt. unfold total_uv. rewrite pow2_S. fold N. lia.
Qed.
Lemma reads_odd : forall t c i, i < N -> u_reads (Tab s t c, Nat.lor (Nat.shiftl i 1) 1) = true.
Proof.
  intros t c i H. unfold u_reads. cbn [fst snd]. rewrite eqb_reflx, shl1_or1. apply Nat.ltb_lt. unfold total_uv. rewrite pow2_S. fold N. lia.
Qed.
Lemma writes_own : forall id t c i, owns N i id = true -> u_writes id (Tab (negb s) t c, i) = true.
Proof. intros id t c i H. unfold u_writes. cbn [fst snd]. rewrite eqb_reflx, H. reflexivity. Qed.

Lemma fold_foot : forall id t i k, owns N i id = true -> foot u_reads (u_writes id) k ->
  foot u_reads (u_writes id) ((if cb =? 0 then fold_first s else fold_next minus r s) t i k).
Proof.
  intros id t i k H K. pose proof H as H'. apply owns_spec in H' as (_ & Hi).
  destruct (cb =? 0); unfold fold_first, fold_next, getf, putf; cbn [foot];
    rewrite ?(reads_even t _ i Hi), ?(reads_odd t _ i Hi), ?(writes_own id t _ i H), ?orb_true_r; cbn [orb].
  - split; [reflexivity|]. intros _. split; [reflexivity|]. split; [reflexivity|]. intros _. split; [reflexivity|].
    intros _. split; [reflexivity|exact K].
  - split; [reflexivity|]. intros _. split; [reflexivity|]. intros _. split; [reflexivity|]. split; [reflexivity|].
    intros _. split; [reflexivity|]. intros _. split; [reflexivity|]. intros _. split; [reflexivity|exact K].
Qed.

(** Cells of the sums. *)
Definition s_reads (l : loc) : bool :=
  match fst l with Tab s' _ _ => Bool.eqb s' (negb s) && (snd l <? N) | _ => false end.
Definition s_writes (id : nat) (l : loc) : bool :=
  match fst l with RetA | RetB | RetC => snd l =? id | _ => false end.
Lemma sum_foot : forall (R W : loc -> bool) id i now, (forall t c, (R (Tab (negb s) t c, i) || W (Tab (negb s) t c, i)) = true) ->
  W (RetA, id) = true -> W (RetB, id) = true -> W (RetC, id) = true -> foot R W (sum_entry s id i now).
Proof.
  intros R W id i now HR HA HB HC. unfold sum_entry, getf, putf. cbn [foot].
  rewrite HA, HB, HC, !orb_true_r.
  repeat (first [exact I | split; [first [reflexivity|apply HR]|] | intros _]).
Qed.
Lemma final_foot : forall R W id, W (RetA, id) = true -> W (RetB, id) = true -> W (RetC, id) = true ->
  foot R W (final_mod id).
Proof.
  intros R W id HA HB HC. unfold final_mod, getf, putf. cbn [foot]. rewrite HA, HB, HC, !orb_true_r.
  repeat (first [exact I | split; [reflexivity|] | intros _]).
Qed.
Lemma zero_foot : forall R W id, W (RetA, id) = true -> W (RetB, id) = true -> W (RetC, id) = true ->
  foot R W (zero_ret id).
Proof.
  intros R W id HA HB HC. unfold zero_ret, putf. cbn [foot]. rewrite HA, HB, HC.
  split; [reflexivity|]. split; [reflexivity|]. split; [reflexivity|exact I].
Qed.
Lemma entry_foot_u : forall id i, owns N i id = true ->
  foot u_reads (u_writes id) (round_entry minus every s total_uv cb r id i).
Proof.
  intros id i H. unfold round_entry. cbv zeta.
  assert (X : forall a, match a with RetA | RetB | RetC => True | _ => False end -> u_writes id (a, id) = true).
  { intros a Ha. unfold u_writes. cbn [fst snd]. destruct a; try destruct Ha; apply Nat.eqb_refl. }
  apply fold_foot; [exact H|]. apply fold_foot; [exact H|]. apply fold_foot; [exact H|].
  apply sum_foot; try (apply X; exact I). intros t c. rewrite (writes_own id t c i H). apply orb_true_r.
Qed.
Definition rounds (id : nat) : thread :=
  andthen (slice (Nat.shiftr total_uv 1) id (round_entry minus every s total_uv cb r id)) (final_mod id).
Lemma rounds_foot : forall id, foot u_reads (u_writes id) (rounds id).
Proof.
  intro id. unfold rounds. rewrite half_total. apply foot_andthen; [apply foot_slice; intros i Hi; apply entry_foot_u, Hi|].
  apply final_foot; apply Nat.eqb_refl.
Qed.
Lemma zero_rounds_foot : forall id, foot u_reads (u_writes id) (andthen (zero_ret id) (rounds id)).
Proof. intro id. apply foot_andthen; [apply zero_foot; apply Nat.eqb_refl|apply rounds_foot]. Qed.

(** ** What the tables become *)
Variable f : table -> comp -> nat -> fe.
Definition newb (t : table) (i : nat) : fe :=
  if cb =? 0 then f t Cb (2 * i) else u512_mod (u512_add (u512_mul (f t Ca (2 * i)) r) (f t Cb (2 * i))).
Definition newa (t : table) (i : nat) : fe :=
  if cb =? 0 then fe_sub (f t Cb (2 * i + 1)) (newb t i)
  else u512_mod (minus (u512_add (u512_mul (f t Ca (2 * i + 1)) r) (f t Cb (2 * i + 1))) (newb t i)).
Definition newc (t : table) (c : comp) (i : nat) : fe := match c with Ca => newa t i | Cb => newb t i end.

Definition src (m : memory) : Prop := forall t c j, j < total_uv -> m (Tab s t c, j) = Some (Fe (f t c j)).
Definition room (m : memory) : Prop :=
  (forall t c, alloc m (Tab (negb s) t c) N) /\
  (forall id, id < NUM_THREADS -> m (RetA, id) <> None /\ m (RetB, id) <> None /\ m (RetC, id) <> None).

Lemma fold_raw : forall t i k (m : memory) (Q : memory -> Prop), i < N -> src m ->
  m (Tab (negb s) t Ca, i) <> None -> m (Tab (negb s) t Cb, i) <> None ->
  ends loc_eqb k (put' (put' m (Tab (negb s) t Cb, i) (Fe (newc t Cb i))) (Tab (negb s) t Ca, i) (Fe (newc t Ca i))) Q ->
  ends loc_eqb ((if cb =? 0 then fold_first s else fold_next minus r s) t i k) m Q.
Proof.
  intros t i k m Q Hi S A B K.
  assert (H0 : 2 * i < total_uv /\ 2 * i + 1 < total_uv) by (unfold total_uv; rewrite pow2_S; fold N; lia).
  destruct H0 as (H0 & H1).
  assert (NE : forall (t' : table) (c c' : comp) (j j' : nat), (Tab (negb s) t' c, j) <> (Tab s t c', j')).
  { intros t' c c' j j' E. injection E as E _. destruct s; discriminate. }
  cbn [newc] in K. unfold newb, newa in K. unfold newb in K.
  destruct (cb =? 0); unfold fold_first, fold_next; rewrite shl1_or1, shl1.
  - eapply ends_getf; [apply S, H0|]. apply ends_putf; [exact B|].
    eapply ends_getf; [rewrite puta_other by apply NE; apply S, H1|].
    eapply ends_getf; [apply puta_same|]. apply ends_putf; [apply put_some, A|]. exact K.
  - eapply ends_getf; [apply S, H0|]. eapply ends_getf; [apply S, H0|]. apply ends_putf; [exact B|].
    eapply ends_getf; [rewrite puta_other by apply NE; apply S, H1|].
    eapply ends_getf; [rewrite puta_other by apply NE; apply S, H1|].
    eapply ends_getf; [apply puta_same|]. apply ends_putf; [apply put_some, A|]. exact K.
Qed.

Definition upd_inv (m : memory) (id lo hi : nat) (m' : memory) : Prop :=
  (forall t c j, lo <= j < hi -> m' (Tab (negb s) t c, j) = Some (Fe (newc t c j))) /\
  (forall a j, (forall s' t c, a <> Tab s' t c) -> s_writes id (a, j) = false -> m' (a, j) = m (a, j)) /\
  (forall t c j, m' (Tab s t c, j) = m (Tab s t c, j)) /\
  (forall t c j, ~ (lo <= j < hi) -> m' (Tab (negb s) t c, j) = m (Tab (negb s) t c, j)) /\
  (forall l, m l <> None -> m' l <> None).

Lemma entry_raw : forall m id lo i m', src m -> room m -> id < NUM_THREADS -> lo <= i -> i < N -> upd_inv m id lo i m' ->
  ends loc_eqb (round_entry minus every s total_uv cb r id i) m' (upd_inv m id lo (S i)).
Proof.
  intros m id lo i m' S (RT & RR) Hid Hlo Hi (D & O1 & O2 & O3 & AL).
  assert (S' : src m') by (intros t c j Hj; rewrite O2; apply S, Hj).
  assert (NE : forall (t t' : table) (c c' : comp) (j j' : nat), (Tab (negb s) t c, j) <> (Tab s t' c', j')).
  { intros t t' c c' j j' E. injection E as E _. destruct s; discriminate. }
  assert (SP : forall (m : memory) t x y, src m -> src (put' (put' m (Tab (negb s) t Cb, i) (Fe x)) (Tab (negb s) t Ca, i) (Fe y))).
  { intros m0 t x y S0 t' c' j Hj. rewrite !puta_other by apply NE. apply S0, Hj. }
  assert (AT : forall t c, m' (Tab (negb s) t c, i) <> None) by (intros t c; apply AL, RT, Hi).
  unfold round_entry. cbv zeta.
  apply fold_raw; [exact Hi|exact S'|apply AT|apply AT|].
  apply fold_raw; [exact Hi|apply SP, S'|repeat apply put_some; apply AT|repeat apply put_some; apply AT|].
  apply fold_raw; [exact Hi|apply SP, SP, S'|repeat apply put_some; apply AT|repeat apply put_some; apply AT|].
  match goal with |- ends _ _ ?x _ => set (mf := x) end.
  assert (ALf : forall l, m l <> None -> mf l <> None).
  { intros l Hl. unfold mf. repeat apply put_some. apply AL, Hl. }
  eapply ends_conseq.
  - apply (ends_quiet s_reads (s_writes id)).
    + apply sum_foot; try apply Nat.eqb_refl. intros t c. unfold s_reads. cbn [fst snd]. rewrite eqb_reflx.
      apply Nat.ltb_lt in Hi. rewrite Hi. reflexivity.
    + intros [a j] H. apply ALf. destruct (RR id Hid) as (R1 & R2 & R3).
      unfold s_reads, s_writes in H. cbn [fst snd] in H.
      destruct a as [| | | | | | | | | | | | | |s' t c| | | | |]; try discriminate; cbn [orb] in H.
      * rewrite orb_false_r in H. apply andb_true_iff in H as (E & H). apply eqb_prop in E. subst s'.
        apply RT. apply Nat.ltb_lt, H.
      * apply Nat.eqb_eq in H. subst j. exact R1.
      * apply Nat.eqb_eq in H. subst j. exact R2.
      * apply Nat.eqb_eq in H. subst j. exact R3.
  - intros m2 (U & A2). split; [|split; [|split; [|split]]].
    + intros t c j Hj. rewrite U by reflexivity. unfold mf. destruct (Nat.eq_dec j i) as [->|Nj].
      * apply (put6 m' (negb s) i (fun t c => newc t c i)).
      * rewrite !puta_other by (intro E; injection E; intros; congruence). apply D. lia.
    + intros a j Ha Hw. rewrite U by exact Hw. unfold mf.
      rewrite !puta_other by (intro E; injection E; intros _ E1; symmetry in E1; exact (Ha _ _ _ E1)). apply O1; assumption.
    + intros t c j. rewrite U by reflexivity. unfold mf. rewrite !puta_other by apply NE. apply O2.
    + intros t c j Hj. rewrite U by reflexivity. unfold mf.
      rewrite !puta_other by (intro E; injection E; intros; lia). apply O3. lia.
    + intros l Hl. apply A2, ALf, Hl.
Qed.

Lemma rounds_raw : forall m id, src m -> room m -> id < NUM_THREADS ->
  ends loc_eqb (rounds id) m (fun m' => forall t c i, owns N i id = true -> m' (Tab (negb s) t c, i) = Some (Fe (newc t c i))).
Proof.
  intros m id S RO Hid. unfold rounds. rewrite half_total.
  eapply ends_andthen.
  - apply (ends_slice N id _ (fun i m' => upd_inv m id (id * block_of N) i m') m).
    + split; [intros; lia|]. split; [reflexivity|]. split; [reflexivity|]. split; [reflexivity|auto].
    + intros i m' Hi UI. apply owns_spec in Hi as (Ho & Hi). apply in_block in Ho. apply entry_raw; try assumption. lia.
  - intros m1 (e & (D & _ & _ & _ & AL) & E). eapply ends_conseq.
    + apply (ends_quiet (fun _ => false) (s_writes id)); [apply final_foot; apply Nat.eqb_refl|].
      intros [a j] H. apply AL. destruct RO as (_ & RR). destruct (RR id Hid) as (R1 & R2 & R3).
      unfold s_writes in H. cbn [fst snd orb] in H. destruct a; try discriminate; apply Nat.eqb_eq in H; subst j; assumption.
    + intros m2 (U & _) t c i Hi. rewrite U by reflexivity. apply D, E, Hi.
Qed.

Definition folded (m' : memory) : Prop := forall t c i, i < N -> m' (Tab (negb s) t c, i) = Some (Fe (newc t c i)).

Lemma u_covers : forall m, src m -> room m -> covers NUM_THREADS (fun _ => u_reads) u_writes m.
Proof.
  intros m S (RT & RR) id [a j] Hid H. unfold u_reads, u_writes in H. cbn [fst snd] in H.
  destruct (RR id Hid) as (R1 & R2 & R3).
  destruct a as [| | | | | | | | | | | | | |s' t c| | | | |]; try discriminate; cbn [orb] in H;
    try (apply Nat.eqb_eq in H; subst j; assumption).
  apply orb_true_iff in H as [H|H]; apply andb_true_iff in H as (E & H); apply eqb_prop in E; subst s'.
  - rewrite S by (apply Nat.ltb_lt, H). discriminate.
  - apply RT. apply owns_spec in H. apply H.
Qed.

Lemma rounds_good : forall m, src m -> room m -> good NUM_THREADS rounds m folded.
Proof.
  intros m S RO.
  apply (good_sep NUM_THREADS (fun _ => u_reads) u_writes _ _
    (fun id m' => forall t c i, owns N i id = true -> m' (Tab (negb s) t c, i) = Some (Fe (newc t c i)))).
  - apply u_separate.
  - intros id _. apply rounds_foot.
  - apply u_covers; assumption.
  - intros id Hid. apply rounds_raw; assumption.
  - intros m' A _ t c i Hi. pose proof (owner_lt n i Hi) as OL. fold N in OL.
    pose proof (owner_owns n i Hi) as OW. fold N in OW.
    destruct (A _ (Tab (negb s) t c, i) OL (writes_own _ t c i OW)) as (mi & T & ->). apply T, OW.
Qed.
Lemma zero_rounds_good : forall m, src m -> room m -> good NUM_THREADS (fun id => andthen (zero_ret id) (rounds id)) m folded.
Proof.
  intros m S RO.
  apply (good_sep NUM_THREADS (fun _ => u_reads) u_writes _ _
    (fun id m' => forall t c i, owns N i id = true -> m' (Tab (negb s) t c, i) = Some (Fe (newc t c i)))).
  - apply u_separate.
  - intros id _. apply zero_rounds_foot.
  - apply u_covers; assumption.
  - intros id Hid. eapply ends_andthen.
    + apply (ends_quiet (fun _ => false) (s_writes id)); [apply zero_foot; apply Nat.eqb_refl|].
      intros [a j] H. destruct RO as (_ & RR). destruct (RR id Hid) as (R1 & R2 & R3).
      unfold s_writes in H. cbn [fst snd orb] in H. destruct a; try discriminate; apply Nat.eqb_eq in H; subst j; assumption.
    + intros m1 (U & AL). apply rounds_raw; [|split|exact Hid].
      * intros t c j Hj. rewrite U by reflexivity. apply S, Hj.
      * intros t c j Hj. apply AL, RO, Hj.
      * intros id' Hid'. destruct (proj2 RO id' Hid') as (R1 & R2 & R3). split; [apply AL, R1|]. split; [apply AL, R2|apply AL, R3].
  - intros m' A _ t c i Hi. pose proof (owner_lt n i Hi) as OL. fold N in OL.
    pose proof (owner_owns n i Hi) as OW. fold N in OW.
    destruct (A _ (Tab (negb s) t c, i) OL (writes_own _ t c i OW)) as (mi & T & ->). apply T, OW.
Qed.
End Rounds.

Lemma phase1_update_ok : forall s n cb r f m, src s n f m -> room s n m ->
  surely (phase1_update_code s (2 ^ S n) cb r) m (folded minus1 s n cb r f).
Proof.
  intros s n cb r f m S RO. eapply surely_cons; [|intros m' H; apply surely_nil, H].
  exact (zero_rounds_good minus1 4 s n cb r f m S RO).
Qed.

Lemma serial_zero : forall s n f m, src s n f m -> room s n m ->
  good 1 (fun _ => pfor NUM_THREADS 0 zero_ret) m (fun m' => src s n f m' /\ room s n m').
Proof.
  intros s n f m S (RT & RR).
  set (W := fun (_ : nat) (l : loc) => match fst l with RetA | RetB | RetC => snd l <? NUM_THREADS | _ => false end).
  assert (FT : foot (fun _ => false) (W 0) (pfor NUM_THREADS 0 zero_ret)).
  { apply foot_pfor. intros i Hi. apply zero_foot; unfold W; cbn [fst snd]; apply Nat.ltb_lt; lia. }
  assert (CO : forall l, W 0 l = true -> m l <> None).
  { intros [a j] H. unfold W in H. cbn [fst snd] in H. destruct a; try discriminate; apply Nat.ltb_lt in H; apply (RR j H). }
  apply (good_sep 1 (fun _ _ => false) W _ _ (fun _ m' => (forall l, W 0 l = false -> m' l = m l) /\ (forall l, m l <> None -> m' l <> None))).
  - intros i j l Hi Hj NE. lia.
  - intros i Hi. exact FT.
  - intros i l Hi H. apply CO, H.
  - intros i Hi. apply (ends_quiet (fun _ => false) (W 0) _ _ FT). intros l H. apply CO, H.
  - intros m' A B.
    assert (AL : forall l, m l <> None -> m' l <> None).
    { intros l Hl. destruct (W 0 l) eqn:E.
      - destruct (A 0 l ltac:(lia) E) as (mi & (_ & X) & ->). apply X, Hl.
      - rewrite B; [exact Hl|]. intros i _. exact E. }
    split; [|split].
    + intros t c j Hj. rewrite B by reflexivity. apply S, Hj.
    + intros t c j Hj. apply AL, RT, Hj.
    + intros id Hid. destruct (RR id Hid) as (R1 & R2 & R3). split; [apply AL, R1|]. split; [apply AL, R2|apply AL, R3].
Qed.
Lemma phase2_update_ok : forall s n cb r f m, src s n f m -> room s n m ->
  surely (phase2_update_code s (2 ^ S n) cb r) m (folded minus2 s n cb r f).
Proof.
  intros s n cb r f m S RO.
  eapply surely_cons; [exact (serial_zero s n f m S RO)|]. intros m1 (S1 & RO1).
  eapply surely_cons; [|intros m' H; apply surely_nil, H].
  exact (rounds_good minus2 8 s n cb r f m1 S1 RO1).
Qed.

(** ** The values as field elements *)
Section Reps.
Variables (n cb : nat) (r : fe) (rF : F) (f : table -> comp -> nat -> fe) (p : table -> comp -> nat -> F).
Hypothesis Hr : rep r rF.
Hypothesis Hf : forall t c j, j < 2 ^ S n -> rep (f t c j) (p t c j).
(** The polynomials [a x + b] of neighbours, at [r] (their constants in round 0), as one linear polynomial. *)
Definition at_r (t : table) (j : nat) : F := if cb =? 0 then p t Cb j else (p t Ca j * rF + p t Cb j)%F.

Lemma newb_rep : forall t i, i < 2 ^ n -> rep (newb cb r f t i) (at_r t (2 * i)).
Proof.
  intros t i Hi. unfold newb, at_r. assert (H0 : 2 * i < 2 ^ S n) by (rewrite pow2_S; lia).
  destruct (cb =? 0); [apply Hf, H0|]. pose proof (Hf t Ca _ H0). pose proof (Hf t Cb _ H0). lzr.
Qed.
Lemma newa1_rep : forall t i, i < 2 ^ n -> rep (newa minus1 cb r f t i) (at_r t (2 * i + 1) - at_r t (2 * i))%F.
Proof.
  intros t i Hi. pose proof (newb_rep t i Hi) as B. unfold newa, at_r in *.
  assert (H0 : 2 * i + 1 < 2 ^ S n) by (rewrite pow2_S; lia).
  pose proof (Hf t Ca _ H0). pose proof (Hf t Cb _ H0).
  destruct (cb =? 0); [apply rep_sub; assumption|]. unfold minus1. lzr.
Qed.
(** The slope of phase 2: right exactly when the difference does not underflow. *)
Lemma newa2_rep : forall t i, i < 2 ^ n -> cb <> 0 ->
  (rep (newa minus2 cb r f t i) (at_r t (2 * i + 1) - at_r t (2 * i))%F <->
   (fz (at_r t (2 * i)) <= fz (p t Ca (2 * i + 1)%nat) * fz rF + fz (p t Cb (2 * i + 1)%nat))%Z).
Proof.
  intros t i Hi Hc. pose proof (newb_rep t i Hi) as B. unfold newa, at_r in *.
  assert (H0 : 2 * i + 1 < 2 ^ S n) by (rewrite pow2_S; lia).
  pose proof (Hf t Ca _ H0) as RA. pose proof (Hf t Cb _ H0) as RB.
  destruct (Nat.eqb_spec cb 0) as [|_]; [contradiction|].
  set (nb := newb cb r f t i) in *. set (fb := (p t Ca (2 * i) * rF + p t Cb (2 * i))%F) in *.
  destruct (lzy_mul _ _ _ _ RA Hr) as (WM & _ & _).
  destruct RA as (WA & VA). destruct RB as (WB & VB). destruct Hr as (WR & VR). destruct B as (Wn & Vn).
  pose proof (fz_range (p t Ca (2 * i + 1))) as Q1. pose proof (fz_range rF) as Q2.
  pose proof (fz_range (p t Cb (2 * i + 1))) as Q3. pose proof (fz_range fb) as Q4.
  pose proof P_lt_W256 as LP. pose proof P_2_W508 as L2. pose proof W508_lt_W512 as L3. pose proof P_pos as PP.
  destruct (u512_mul_exact _ _ WA WR ltac:(lia) ltac:(lia)) as (_ & VM).
  assert (SM : (fz (p t Ca (2 * i + 1)%nat) * fz rF < P * P)%Z) by nia.
  destruct (u512_add_small _ _ WM WB ltac:(rewrite VM, VA, VR, VB; nia)) as (WX & VX).
  rewrite VM, VA, VR, VB in VX.
  set (x := u512_add (u512_mul (f t Ca (2 * i + 1)) r) (f t Cb (2 * i + 1))) in *.
  destruct (u512_sub_exact x nb WX Wn) as (WS & VS). rewrite VX, Vn in VS. unfold minus2.
  split.
  - intros (_ & V2). destruct (Z_le_gt_dec (fz fb) (fz (p t Ca (2 * i + 1)) * fz rF + fz (p t Cb (2 * i + 1)))) as [|G]; [assumption|exfalso].
    destruct (u512_mod_congruent _ WS) as (_ & k & Hk & EK). rewrite V2, VS in EK.
    set (d := (fz (p t Ca (2 * i + 1)) * fz rF + fz (p t Cb (2 * i + 1)) - fz fb)%Z) in *.
    assert (ED : (d mod W512 = d + W512)%Z).
    { symmetry. apply Z.mod_unique with (q := (-1)%Z); [left|ring]. unfold d. nia. }
    rewrite ED in EK.
    assert (E1 : ofZ d = (p t Ca (2 * i + 1) * rF + p t Cb (2 * i + 1) - fb)%F).
    { unfold d. rewrite ofZ_sub, ofZ_add, ofZ_mul, !ofZ_fz. reflexivity. }
    assert (E2 : ofZ (fz (p t Ca (2 * i + 1) * rF + p t Cb (2 * i + 1) - fb)%F) = ofZ (d + W512 - k * P)) by (f_equal; exact EK).
    rewrite ofZ_fz, <- E1, ofZ_sub, ofZ_add, ofZ_mul, ofZ_P in E2.
    assert (E3 : ofZ W512 = 0%F).
    { transitivity ((ofZ d + ofZ W512 - ofZ k * 0) - ofZ d)%F; [ring|]. rewrite <- E2. ring. }
    assert (E4 : fz (ofZ W512) = 0%Z) by (rewrite E3; reflexivity).
    revert E4. vm_compute. discriminate.
  - intro LE. rewrite Z.mod_small in VS.
    2: { split; [lia|]. nia. }
    eapply rep_eq.
    + apply (raw_mod _ (fz (p t Ca (2 * i + 1)) * fz rF + fz (p t Cb (2 * i + 1)) - fz fb)%Z); [split; assumption|nia].
    + rewrite ofZ_sub, ofZ_add, ofZ_mul, !ofZ_fz. reflexivity.
Qed.
End Reps.

(** ** Phase 2, tables: the race *)
Lemma each_always2 : forall A (l : list A) (body : A -> thread) a x, In x l -> always a (body x) -> always a (each l body).
Proof.
  intros A l body a x. induction l as [|y l IH]; intros H K; [destruct H|]. cbn [each]. destruct H as [->|H].
  - apply always_left, K.
  - apply always_right, IH; assumption.
Qed.
Lemma phase2_race : forall s gs b lu v_u g x, nth_error gs g = Some x -> (g_ty x = 0 \/ g_ty x = 1)%Z ->
  (0 <= g_u x < 2 ^ Z.of_nat lu)%Z -> (0 <= g_v x < 2 ^ Z.of_nat b)%Z ->
  Z.to_nat (g_u x) / block_of (2 ^ lu) <> Z.to_nat (g_v x) / block_of (2 ^ b) ->
  forall m tr m' ps', steps loc_eqb NUM_THREADS m (phase2_init_func s gs b lu v_u) tr m' ps' ->
  joined NUM_THREADS ps' -> racy tr.
Proof.
  intros s gs b lu v_u g x E T HU HV NE m.
  assert (Hu : Z.to_nat (g_u x) < 2 ^ lu) by (apply Nat2Z.inj_lt; rewrite Nat2Z.inj_pow, Z2Nat.id by lia; apply HU).
  assert (Hv : Z.to_nat (g_v x) < 2 ^ b) by (apply Nat2Z.inj_lt; rewrite Nat2Z.inj_pow, Z2Nat.id by lia; apply HV).
  set (u := Z.to_nat (g_u x)) in *. set (v := Z.to_nat (g_v x)) in *.
  apply (unavoidable_race loc_eqb NUM_THREADS m _ (u / block_of (2 ^ lu)) (v / block_of (2 ^ b))
     (AWr (BetaU, u)) (ARd (BetaU, u))).
  - apply owner_lt, Hu.
  - apply owner_lt, Hv.
  - unfold phase2_init_func. apply always_left.
    apply (always_slice _ _ _ _ u); [apply owner_owns, Hu|].
    unfold beta_u_entry, getf, putf. cbn [always]. right. intros _. right. intros _. left. reflexivity.
  - unfold phase2_init_func. apply always_right, always_right, always_left.
    apply (always_slice _ _ _ _ v); [apply owner_owns, Hv|].
    apply (each_always2 _ _ _ _ (g_ty x, g, g_u x)).
    + unfold v_gates. apply in_flat_map. exists (g, x). split.
      * clear - E. assert (X : forall l k i, nth_error l i = Some x -> In (k + i, x) (combine (seq k (length l)) l)).
        { induction l as [|y l IH]; intros k [|i] H; cbn [nth_error] in H; try discriminate; cbn [length seq combine].
          - injection H as ->. rewrite Nat.add_0_r. left. reflexivity.
          - right. rewrite Nat.add_succ_r. apply (IH (S k) i H). }
        apply (X gs 0 g E).
      * destruct (Z.eqb_spec (g_v x) (Z.of_nat v)); [left; reflexivity|lia].
    + unfold phase2_gate_entry, getfz, getf, putf. destruct (Z.ltb_spec (g_u x) 0); [lia|]. fold u.
      destruct T as [-> | ->]; unfold getf; cbn [always]; (right; intros _; right; intros _; left; reflexivity).
  - split; [cbn [fst]; exact NE|]. split; reflexivity.
Qed.
