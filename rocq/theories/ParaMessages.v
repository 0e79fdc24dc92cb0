(** * Proofs about the multi-threaded prover: the messages of the rounds *)
From Coq Require Import ZArith List Bool Arith Lia.
From Verif Require Import Base Limbs Field LimbsProofs FieldProofs ModWrap Fp Poly Circuit Lazy ModNear MleSpec TablesProofs FastProver.
From Verif Require Import Conc ParaProver ParaProofs ParaPhase1 ParaInit ParaUpdate.
Import ListNotations.
Open Scope nat_scope.

Lemma ends_both : forall (p : thread) (m : memory) (Q R : memory -> Prop), ends loc_eqb p m Q -> ends loc_eqb p m R ->
  ends loc_eqb p m (fun m' => Q m' /\ R m').
Proof. intros p m Q R (m1 & E1 & H1) (m2 & E2 & H2). rewrite E1 in E2. injection E2 as <-. exists m1. auto. Qed.

(** A loop over [lo .. lo + k - 1]. *)
Fixpoint acc (step : nat -> u512 -> u512) (lo k : nat) (x : u512) : u512 :=
  match k with 0 => x | S k => step (lo + k) (acc step lo k x) end.

Definition len (N id : nat) : nat := Nat.min ((id + 1) * block_of N) N - id * block_of N.

Section Rets.
Variables (minus : u512 -> fe -> u512) (every : nat) (s : bool) (n cb : nat) (r : fe) (f : table -> comp -> nat -> fe).
Let N := 2 ^ n.
Let total_uv := 2 ^ S n.
Definition now (i : nat) : bool := (i mod every =? 0) || (i + 1 =? 2 ^ n).
Definition cur (t : table) (c : comp) (i : nat) : fe := newc minus cb r f t c i.
Definition rawA (i : nat) (x : u512) : u512 := u512_add x (u512_mul (cur TM Ca i) (cur TV Ca i)).
Definition rawB (i : nat) (x : u512) : u512 :=
  u512_add (u512_add (u512_add x (u512_mul (cur TM Ca i) (cur TV Cb i))) (u512_mul (cur TM Cb i) (cur TV Ca i))) (cur TA Ca i).
Definition rawC (i : nat) (x : u512) : u512 := u512_add (u512_add x (u512_mul (cur TM Cb i) (cur TV Cb i))) (cur TA Cb i).
Definition step (raw : nat -> u512 -> u512) (i : nat) (x : u512) : u512 := mod_if (now i) (raw i x).
Definition part (raw : nat -> u512 -> u512) (id k : nat) : u512 := acc (step raw) (id * block_of N) k (fe_of_int 0).
Definition ret (raw : nat -> u512 -> u512) (id : nat) : u512 := u512_mod (part raw id (len N id)).

Definition rets_inv (id i : nat) (m : memory) : Prop :=
  m (RetA, id) = Some (Fe (part rawA id (i - id * block_of N))) /\
  m (RetB, id) = Some (Fe (part rawB id (i - id * block_of N))) /\
  m (RetC, id) = Some (Fe (part rawC id (i - id * block_of N))).

Lemma part_S : forall raw id i, id * block_of N <= i ->
  part raw id (S i - id * block_of N) = step raw i (part raw id (i - id * block_of N)).
Proof.
  intros raw id i H. rewrite Nat.sub_succ_l by exact H. unfold part. cbn [acc].
  replace (id * block_of N + (i - id * block_of N)) with i by lia. reflexivity.
Qed.

Lemma sum_rets_ok : forall id i (m : memory), id * block_of N <= i -> rets_inv id i m ->
  (forall t c, m (Tab (negb s) t c, i) = Some (Fe (cur t c i))) ->
  ends loc_eqb (sum_entry s id i (now i)) m (rets_inv id (S i)).
Proof.
  intros id i m Hi (A & B & C) T. unfold sum_entry. cbv zeta.
  assert (N1 : forall a a' t c (j j' : nat), match a with RetA | RetB | RetC => True | _ => False end ->
     a' = Tab (negb s) t c -> (a, j) <> (a', j')).
  { intros a a' t c j j' Ha -> E. injection E as -> _. exact Ha. }
  eapply ends_getf; [exact A|]. eapply ends_getf; [apply T|]. eapply ends_getf; [apply T|].
  apply ends_putf; [rewrite A; discriminate|].
  eapply ends_getf; [rewrite puta_other by discriminate; exact B|].
  do 5 (eapply ends_getf; [rewrite puta_other by (eapply N1; [exact I|reflexivity]); apply T|]).
  apply ends_putf; [apply put_some; rewrite B; discriminate|].
  eapply ends_getf; [rewrite !puta_other by discriminate; exact C|].
  do 3 (eapply ends_getf; [rewrite !puta_other by (eapply N1; [exact I|reflexivity]); apply T|]).
  apply ends_putf; [repeat apply put_some; rewrite C; discriminate|].
  apply ends_ret. unfold rets_inv. rewrite !part_S by exact Hi. split; [|split].
  - rewrite !puta_other by discriminate. rewrite puta_same. reflexivity.
  - rewrite puta_other by discriminate. rewrite puta_same. reflexivity.
  - rewrite puta_same. reflexivity.
Qed.

Lemma entry_rets : forall m id i m', src s n f m -> room s n m -> id < NUM_THREADS -> id * block_of N <= i -> i < N ->
  upd_inv minus s cb r f m id (id * block_of N) i m' -> rets_inv id i m' ->
  ends loc_eqb (round_entry minus every s total_uv cb r id i) m' (rets_inv id (S i)).
Proof.
  intros m id i m' S (RT & RR) Hid Hlo Hi (D & O1 & O2 & O3 & AL) (A & B & C).
  assert (S' : src s n f m') by (intros t c j Hj; rewrite O2; apply S, Hj).
  assert (NE : forall (t t' : table) (c c' : comp) (j j' : nat), (Tab (negb s) t c, j) <> (Tab s t' c', j')).
  { intros t t' c c' j j' E. injection E as E _. destruct s; discriminate. }
  assert (SP : forall (m : memory) t x y, src s n f m -> src s n f (put' (put' m (Tab (negb s) t Cb, i) (Fe x)) (Tab (negb s) t Ca, i) (Fe y))).
  { intros m0 t x y S0 t' c' j Hj. rewrite !puta_other by apply NE. apply S0, Hj. }
  assert (AT : forall t c, m' (Tab (negb s) t c, i) <> None) by (intros t c; apply AL, RT, Hi).
  unfold round_entry. cbv zeta. unfold total_uv. rewrite half_total.
  apply (fold_raw minus s n cb r f); [exact Hi|exact S'|apply AT|apply AT|].
  apply (fold_raw minus s n cb r f); [exact Hi|apply SP, S'|repeat apply put_some; apply AT|repeat apply put_some; apply AT|].
  apply (fold_raw minus s n cb r f); [exact Hi|apply SP, SP, S'|repeat apply put_some; apply AT|repeat apply put_some; apply AT|].
  apply (sum_rets_ok id i); [exact Hlo| |].
  - split; [|split]; rewrite !puta_other by discriminate; assumption.
  - intros t c. apply (put6 m' (negb s) i (fun t c => newc minus cb r f t c i)).
Qed.

Definition zeroed (m : memory) (id : nat) : Prop :=
  m (RetA, id) = Some (Fe (fe_of_int 0)) /\ m (RetB, id) = Some (Fe (fe_of_int 0)) /\ m (RetC, id) = Some (Fe (fe_of_int 0)).
Definition summed (id : nat) (m : memory) : Prop :=
  m (RetA, id) = Some (Fe (ret rawA id)) /\ m (RetB, id) = Some (Fe (ret rawB id)) /\ m (RetC, id) = Some (Fe (ret rawC id)).

Lemma rounds_rets : forall m id, src s n f m -> room s n m -> id < NUM_THREADS -> zeroed m id ->
  ends loc_eqb (rounds minus every s n cb r id) m (summed id).
Proof.
  intros m id S RO Hid (Z1 & Z2 & Z3). unfold rounds. rewrite half_total. fold N. unfold slice.
  set (st := id * block_of N) in *. set (ed := Nat.min ((id + 1) * block_of N) N) in *.
  eapply ends_andthen.
  - apply (ends_pfor _ _ _ _ (fun i m' => upd_inv minus s cb r f m id st i m' /\ rets_inv id i m')).
    + split.
      * split; [intros; lia|]. split; [reflexivity|]. split; [reflexivity|]. split; [reflexivity|auto].
      * unfold rets_inv. fold st. rewrite Nat.sub_diag. unfold part. cbn [acc]. auto.
    + intros i m' Hi (U & R). apply ends_both.
      * apply entry_raw; try assumption; fold N; lia.
      * apply (entry_rets m id i m'); try assumption; fold N st; lia.
  - intros m1 (_ & (A & B & C)). fold st in A, B, C.
    replace (st + (ed - st) - st) with (ed - st) in A, B, C by lia. unfold final_mod.
    eapply ends_getf; [exact A|]. apply ends_putf; [rewrite A; discriminate|].
    eapply ends_getf; [rewrite puta_other by discriminate; exact B|]. apply ends_putf; [apply put_some; rewrite B; discriminate|].
    eapply ends_getf; [rewrite !puta_other by discriminate; exact C|]. apply ends_putf; [repeat apply put_some; rewrite C; discriminate|].
    apply ends_ret. split; [|split].
    + rewrite !puta_other by discriminate. rewrite puta_same. reflexivity.
    + rewrite puta_other by discriminate. rewrite puta_same. reflexivity.
    + rewrite puta_same. reflexivity.
Qed.
Lemma zero_ends : forall m id, room s n m -> id < NUM_THREADS ->
  ends loc_eqb (zero_ret id) m (fun m' => zeroed m' id /\ (forall l, s_writes id l = false -> m' l = m l) /\ (forall l, m l <> None -> m' l <> None)).
Proof.
  intros m id (_ & RR) Hid. destruct (RR id Hid) as (R1 & R2 & R3). apply ends_both.
  - unfold zero_ret. apply ends_putf; [exact R1|]. apply ends_putf; [apply put_some, R2|]. apply ends_putf; [repeat apply put_some; exact R3|].
    apply ends_ret. split; [|split].
    + rewrite !puta_other by discriminate. apply puta_same.
    + rewrite puta_other by discriminate. apply puta_same.
    + apply puta_same.
  - apply (ends_quiet (fun _ => false) (s_writes id)); [apply zero_foot; apply Nat.eqb_refl|].
    intros [a j] H. unfold s_writes in H. cbn [fst snd orb] in H. destruct a; try discriminate; apply Nat.eqb_eq in H; subst j; assumption.
Qed.
Definition all_summed (m : memory) : Prop := forall id, id < NUM_THREADS -> summed id m.

Lemma collect : forall m', (forall i l, i < NUM_THREADS -> u_writes s n i l = true -> exists mi, summed i mi /\ m' l = mi l) -> all_summed m'.
Proof.
  intros m' A id Hid.
  assert (X : forall a, match a with RetA | RetB | RetC => True | _ => False end -> u_writes s n id (a, id) = true).
  { intros a Ha. unfold u_writes. cbn [fst snd]. destruct a; try destruct Ha; apply Nat.eqb_refl. }
  split; [|split].
  - destruct (A id (RetA, id) Hid (X RetA I)) as (mi & (E & _) & ->). exact E.
  - destruct (A id (RetB, id) Hid (X RetB I)) as (mi & (_ & E & _) & ->). exact E.
  - destruct (A id (RetC, id) Hid (X RetC I)) as (mi & (_ & _ & E) & ->). exact E.
Qed.
Lemma rounds_sums : forall m, src s n f m -> room s n m -> (forall id, id < NUM_THREADS -> zeroed m id) ->
  good NUM_THREADS (rounds minus every s n cb r) m all_summed.
Proof.
  intros m S RO Z.
  apply (good_sep NUM_THREADS (fun _ => u_reads s n) (u_writes s n) _ _ summed).
  - apply u_separate.
  - intros id _. apply rounds_foot.
  - apply (u_covers s n f); assumption.
  - intros id Hid. apply rounds_rets; auto.
  - intros m' A _. apply collect, A.
Qed.
Lemma zero_rounds_sums : forall m, src s n f m -> room s n m ->
  good NUM_THREADS (fun id => andthen (zero_ret id) (rounds minus every s n cb r id)) m all_summed.
Proof.
  intros m S RO.
  apply (good_sep NUM_THREADS (fun _ => u_reads s n) (u_writes s n) _ _ summed).
  - apply u_separate.
  - intros id _. apply zero_rounds_foot.
  - apply (u_covers s n f); assumption.
  - intros id Hid. eapply ends_andthen; [exact (zero_ends m id RO Hid)|].
    intros m1 (Z & U & AL). apply rounds_rets; [|split|exact Hid|exact Z].
    + intros t c j Hj. rewrite U by reflexivity. apply S, Hj.
    + intros t c j Hj. apply AL, RO, Hj.
    + intros id' Hid'. destruct (proj2 RO id' Hid') as (R1 & R2 & R3). split; [apply AL, R1|]. split; [apply AL, R2|apply AL, R3].
  - intros m' A _. apply collect, A.
Qed.

(** [sumcheck_phase*_update] after the threads *)
Definition message (raw : nat -> u512 -> u512) : u512 :=
  fe_add (fe_add (fe_add (fe_add (fe_of_int 0) (ret raw 0)) (ret raw 1)) (ret raw 2)) (ret raw 3).
Lemma all_summed_messages : forall m, all_summed m ->
  sum_rets m RetA = Some (message rawA) /\ sum_rets m RetB = Some (message rawB) /\ sum_rets m RetC = Some (message rawC).
Proof.
  assert (X : forall (m : memory) a x0 x1 x2 x3, m (a, 0) = Some (Fe x0) -> m (a, 1) = Some (Fe x1) -> m (a, 2) = Some (Fe x2) ->
    m (a, 3) = Some (Fe x3) -> sum_rets m a = Some (fe_add (fe_add (fe_add (fe_add (fe_of_int 0) x0) x1) x2) x3)).
  { intros m a x0 x1 x2 x3 E0 E1 E2 E3. unfold sum_rets, NUM_THREADS. cbn [seq fold_left].
    rewrite E0, E1, E2, E3. cbn [as_fe]. reflexivity. }
  intros m H. destruct (H 0 ltac:(unfold NUM_THREADS; lia)) as (A0 & B0 & C0). destruct (H 1 ltac:(unfold NUM_THREADS; lia)) as (A1 & B1 & C1).
  destruct (H 2 ltac:(unfold NUM_THREADS; lia)) as (A2 & B2 & C2). destruct (H 3 ltac:(unfold NUM_THREADS; lia)) as (A3 & B3 & C3).
  split; [|split].
  - exact (X m RetA _ _ _ _ A0 A1 A2 A3).
  - exact (X m RetB _ _ _ _ B0 B1 B2 B3).
  - exact (X m RetC _ _ _ _ C0 C1 C2 C3).
Qed.
End Rets.

(** ** The code *)
Lemma phase1_messages_raw : forall s n cb r f m, src s n f m -> room s n m ->
  surely (phase1_update_code s (2 ^ S n) cb r) m (all_summed minus1 4 n cb r f).
Proof.
  intros s n cb r f m S RO. eapply surely_cons; [|intros m' H; apply surely_nil, H].
  exact (zero_rounds_sums minus1 4 s n cb r f m S RO).
Qed.
Lemma serial_zeroed : forall s n f m, src s n f m -> room s n m ->
  good 1 (fun _ => pfor NUM_THREADS 0 zero_ret) m
    (fun m' => src s n f m' /\ room s n m' /\ forall id, id < NUM_THREADS -> zeroed m' id).
Proof.
  intros s n f m S RO.
  set (W := fun (_ : nat) (l : loc) => match fst l with RetA | RetB | RetC => snd l <? NUM_THREADS | _ => false end).
  assert (FT : foot (fun _ => false) (W 0) (pfor NUM_THREADS 0 zero_ret)).
  { apply foot_pfor. intros i Hi. apply zero_foot; unfold W; cbn [fst snd]; apply Nat.ltb_lt; lia. }
  assert (CO : forall l, W 0 l = true -> m l <> None).
  { intros [a j] H. unfold W in H. cbn [fst snd] in H. destruct a; try discriminate; apply Nat.ltb_lt in H; apply (proj2 RO j H). }
  set (Q := fun (m' : memory) => ((forall l, W 0 l = false -> m' l = m l) /\ (forall l, m l <> None -> m' l <> None)) /\
     forall id, id < NUM_THREADS -> zeroed m' id).
  assert (EZ : ends loc_eqb (pfor NUM_THREADS 0 zero_ret) m Q).
  { apply ends_both; [apply (ends_quiet (fun _ => false) (W 0) _ _ FT); intros l H; apply CO, H|].
    eapply ends_conseq; [apply (ends_pfor loc_eqb NUM_THREADS 0 zero_ret (fun i m' => room s n m' /\ forall id, id < i -> zeroed m' id))|].
    - split; [exact RO|]. intros id H. lia.
    - intros i m1 Hi (R1 & Z1). eapply ends_conseq; [apply (zero_ends s n m1 i R1); lia|].
      intros m2 (Z2 & U & AL). split; [split|].
      + intros t c j Hj. apply AL, R1, Hj.
      + intros id Hid. destruct (proj2 R1 id Hid) as (X1 & X2 & X3). split; [apply AL, X1|]. split; [apply AL, X2|apply AL, X3].
      + intros id Hid. destruct (Nat.eq_dec id i) as [->|NE]; [exact Z2|].
        destruct (Z1 id ltac:(lia)) as (X1 & X2 & X3). unfold zeroed.
        assert (NI : id =? i = false) by (apply Nat.eqb_neq, NE).
        rewrite !U by exact NI. auto.
    - intros m1 (_ & Z). exact Z. }
  apply (good_sep 1 (fun _ _ => false) W _ _ (fun _ => Q)).
  - intros i j l Hi Hj NE. lia.
  - intros i Hi. exact FT.
  - intros i l Hi H. apply CO, H.
  - intros i Hi. exact EZ.
  - intros m' A B.
    assert (AL : forall l, m l <> None -> m' l <> None).
    { intros l Hl. destruct (W 0 l) eqn:E.
      - destruct (A 0 l ltac:(lia) E) as (mi & ((_ & X) & _) & ->). apply X, Hl.
      - rewrite B; [exact Hl|]. intros i _. exact E. }
    split; [|split; [split|]].
    + intros t c j Hj. rewrite B by reflexivity. apply S, Hj.
    + intros t c j Hj. apply AL, RO, Hj.
    + intros id Hid. destruct (proj2 RO id Hid) as (R1 & R2 & R3). split; [apply AL, R1|]. split; [apply AL, R2|apply AL, R3].
    + intros id Hid.
      assert (X : id <? NUM_THREADS = true) by (apply Nat.ltb_lt, Hid).
      split; [|split].
      * destruct (A 0 (RetA, id) ltac:(lia) X) as (mi & (_ & Z) & ->). apply (Z id Hid).
      * destruct (A 0 (RetB, id) ltac:(lia) X) as (mi & (_ & Z) & ->). apply (Z id Hid).
      * destruct (A 0 (RetC, id) ltac:(lia) X) as (mi & (_ & Z) & ->). apply (Z id Hid).
Qed.
Lemma phase2_messages_raw : forall s n cb r f m, src s n f m -> room s n m ->
  surely (phase2_update_code s (2 ^ S n) cb r) m (all_summed minus2 8 n cb r f).
Proof.
  intros s n cb r f m S RO.
  eapply surely_cons; [exact (serial_zeroed s n f m S RO)|]. intros m1 (S1 & RO1 & Z1).
  eapply surely_cons; [|intros m' H; apply surely_nil, H].
  exact (rounds_sums minus2 8 s n cb r f m1 S1 RO1 Z1).
Qed.

(** ** The values *)
Fixpoint pend (every n lo k : nat) : nat :=
  match k with 0 => 0 | S k => if now every n (lo + k) then 0 else S (pend every n lo k) end.
(** No thread adds up more than [6 P^2] before it reduces, or [3 P^2] before it reduces for the last time. *)
Definition light (c every n : nat) : Prop := forall id, id < NUM_THREADS ->
  (forall k, k < len (2 ^ n) id -> c * S (pend every n (id * block_of (2 ^ n)) k) <= 6) /\
  c * pend every n (id * block_of (2 ^ n)) (len (2 ^ n) id) <= 3.

Section Values.
Variables (every n : nat) (raw : nat -> u512 -> u512) (T : nat -> F) (c e : nat).
Hypothesis He : e <= 1.
Hypothesis Hc : 1 <= c.
Hypothesis raw_ok : forall i x a p, i < 2 ^ n -> c * S p <= 6 -> lzy x a (Z.of_nat (c * p)) (2 + Z.of_nat (e * p)) ->
  lzy (raw i x) (a + T i)%F (Z.of_nat (c * S p)) (2 + Z.of_nat (e * S p)).
Hypothesis Hl : light c every n.

Lemma part_lzy : forall id k, id < NUM_THREADS -> k <= len (2 ^ n) id ->
  c * pend every n (id * block_of (2 ^ n)) k <= 6 /\
  lzy (part every n raw id k) (sumn k (fun j => T (id * block_of (2 ^ n) + j))) (Z.of_nat (c * pend every n (id * block_of (2 ^ n)) k))
      (2 + Z.of_nat (e * pend every n (id * block_of (2 ^ n)) k)).
Proof.
  intros id k Hid. unfold part. set (lo := id * block_of (2 ^ n)). induction k as [|k IH]; intro Hk.
  - cbn [pend acc sumn]. rewrite !Nat.mul_0_r. split; [lia|]. eapply lzy_weaken; [apply lzy_rep, rep_i0|lia|lia].
  - destruct (IH ltac:(lia)) as (_ & L). pose proof (proj1 (Hl id Hid) k ltac:(lia)) as LT. fold lo in LT.
    cbn [pend acc sumn]. unfold step at 1.
    assert (HI : lo + k < 2 ^ n) by (unfold len in Hk; fold lo in Hk; lia).
    pose proof (raw_ok (lo + k) _ _ _ HI LT L) as R. destruct (now every n (lo + k)); cbn [mod_if].
    + rewrite !Nat.mul_0_r. split; [lia|].
      eapply lzy_weaken; [eapply lzy_near; [exact R|lia|]|lia|lia].
      assert (e * S (pend every n lo k) <= 6) by nia. lia.
    + split; [exact LT|exact R].
Qed.
Definition blk (g : nat -> F) (id : nat) : F := sumn (len (2 ^ n) id) (fun j => g (id * block_of (2 ^ n) + j)).
Lemma ret_rep : forall id, id < NUM_THREADS ->
  rep (ret every n raw id) (blk T id).
Proof.
  intros id Hid. destruct (part_lzy id _ Hid (le_n _)) as (B & L). unfold ret.
  pose proof (proj2 (Hl id Hid)) as LL. eapply lzy_mod3; [exact L|lia|].
  set (p := pend _ _ _ _) in *. assert (e * p <= 6) by nia. lia.
Qed.
Lemma blocks_sum : forall (g : nat -> F), (blk g 0%nat + blk g 1%nat + blk g 2%nat + blk g 3%nat)%F = sumn (2 ^ n) g.
Proof.
  intro g. unfold blk.
  assert (SP : forall a b h, sumn (a + b) h = (sumn a h + sumn b (fun j => h (a + j)%nat))%F).
  { intros a b h. induction b as [|b IH]; [rewrite Nat.add_0_r; cbn [sumn]; ring|].
    rewrite Nat.add_succ_r. cbn [sumn]. rewrite IH. ring. }
  destruct n as [|[|k]].
  - cbn. ring.
  - cbn. ring.
  - assert (E : 2 ^ S (S k) = 2 ^ k * 4) by (cbn [Nat.pow]; lia).
    assert (EB : block_of (2 ^ S (S k)) = 2 ^ k).
    { unfold block_of, NUM_THREADS. rewrite E, Nat.div_mul by lia. pose proof (pow2_pos k). destruct (Nat.eqb_spec (2 ^ k) 0); lia. }
    unfold len. rewrite EB, E. set (b := 2 ^ k).
    replace (Nat.min ((0 + 1) * b) (b * 4) - 0 * b) with b by lia.
    replace (Nat.min ((1 + 1) * b) (b * 4) - 1 * b) with b by lia.
    replace (Nat.min ((2 + 1) * b) (b * 4) - 2 * b) with b by lia.
    replace (Nat.min ((3 + 1) * b) (b * 4) - 3 * b) with b by lia.
    replace (b * 4) with (b + (b + (b + b))) by lia. rewrite !SP.
    rewrite (sumn_ext b (fun j => g (0 * b + j)) g) by (intros; f_equal; lia).
    rewrite (sumn_ext b (fun j => g (1 * b + j)) (fun j => g (b + j))) by (intros; f_equal; lia).
    rewrite (sumn_ext b (fun j => g (2 * b + j)) (fun j => g (b + (b + j)))) by (intros; f_equal; lia).
    rewrite (sumn_ext b (fun j => g (3 * b + j)) (fun j => g (b + (b + (b + j))))) by (intros; f_equal; lia). ring.
Qed.
Lemma message_rep : rep (message every n raw) (sumn (2 ^ n) T).
Proof.
  unfold message. eapply rep_eq.
  - apply rep_add; [|exact (ret_rep 3 ltac:(unfold NUM_THREADS; lia))]. apply rep_add; [|exact (ret_rep 2 ltac:(unfold NUM_THREADS; lia))].
    apply rep_add; [|exact (ret_rep 1 ltac:(unfold NUM_THREADS; lia))]. apply rep_add; [|exact (ret_rep 0 ltac:(unfold NUM_THREADS; lia))]. exact rep_i0.
  - rewrite <- (blocks_sum T). ring.
Qed.
End Values.

(** The three coefficients *)
Section Coefs.
Variables (minus : u512 -> fe -> u512) (every n cb : nat) (r : fe) (f : table -> comp -> nat -> fe) (q : table -> comp -> nat -> F).
Hypothesis Hq : forall t c i, i < 2 ^ n -> rep (cur minus cb r f t c i) (q t c i).
Lemma coefA : light 1 every n -> rep (message every n (rawA minus cb r f)) (sumn (2 ^ n) (fun i => q TM Ca i * q TV Ca i)%F).
Proof.
  apply (message_rep every n _ _ 1 0); [lia|lia|]. intros i x a p Hi Hp L. unfold rawA.
  eapply lzy_weaken; [eapply lzy_add; [exact L|apply lzy_mul; apply Hq, Hi|]|lia|lia]. apply andb_true_intro. split; apply Z.leb_le; lia.
Qed.
Lemma coefB : light 2 every n ->
  rep (message every n (rawB minus cb r f)) (sumn (2 ^ n) (fun i => q TM Ca i * q TV Cb i + q TM Cb i * q TV Ca i + q TA Ca i)%F).
Proof.
  apply (message_rep every n _ _ 2 1); [lia|lia|]. intros i x a p Hi Hp L. unfold rawB.
  assert (E : (a + (q TM Ca i * q TV Cb i + q TM Cb i * q TV Ca i + q TA Ca i) = a + q TM Ca i * q TV Cb i + q TM Cb i * q TV Ca i + q TA Ca i)%F) by ring.
  rewrite E. eapply lzy_weaken; [eapply lzy_add; [eapply lzy_add; [eapply lzy_add; [exact L|apply lzy_mul; apply Hq, Hi|]|apply lzy_mul; apply Hq, Hi|]|apply lzy_rep, Hq, Hi|]|lia|lia];
    apply andb_true_intro; split; apply Z.leb_le; lia.
Qed.
Lemma coefC : light 1 every n ->
  rep (message every n (rawC minus cb r f)) (sumn (2 ^ n) (fun i => q TM Cb i * q TV Cb i + q TA Cb i)%F).
Proof.
  apply (message_rep every n _ _ 1 1); [lia|lia|]. intros i x a p Hi Hp L. unfold rawC.
  assert (E : (a + (q TM Cb i * q TV Cb i + q TA Cb i) = a + q TM Cb i * q TV Cb i + q TA Cb i)%F) by ring.
  rewrite E. eapply lzy_weaken; [eapply lzy_add; [eapply lzy_add; [exact L|apply lzy_mul; apply Hq, Hi|]|apply lzy_rep, Hq, Hi|]|lia|lia];
    apply andb_true_intro; split; apply Z.leb_le; lia.
Qed.
End Coefs.

(** Which sizes are light *)
Lemma pend_4 : forall n lo k, pend 4 n lo k <= (lo + k + 3) mod 4.
Proof.
  intros n lo k. induction k as [|k IH]; cbn [pend]; [lia|]. unfold now.
  pose proof (Nat.div_mod (lo + k) 4 ltac:(lia)). pose proof (Nat.mod_upper_bound (lo + k) 4 ltac:(lia)).
  destruct (Nat.eqb_spec ((lo + k) mod 4) 0) as [Z|NZ]; cbn [orb]; [lia|]. destruct (lo + k + 1 =? 2 ^ n); [lia|].
  set (d := (lo + k) / 4) in *. set (mm := (lo + k) mod 4) in *.
  replace (lo + S k + 3) with (mm + (d + 1) * 4) by lia. rewrite Nat.mod_add, Nat.mod_small by lia.
  replace (lo + k + 3) with ((mm - 1) + (d + 1) * 4) in IH by lia. rewrite Nat.mod_add, Nat.mod_small in IH by lia. lia.
Qed.
Lemma light_4 : forall n, light 1 4 n.
Proof.
  intros n id _.
  assert (X : forall k, pend 4 n (id * block_of (2 ^ n)) k <= 3).
  { intro k. pose proof (pend_4 n (id * block_of (2 ^ n)) k).
    pose proof (Nat.mod_upper_bound (id * block_of (2 ^ n) + k + 3) 4 ltac:(lia)). lia. }
  split; [intros k _; specialize (X k); lia|]. specialize (X (len (2 ^ n) id)). lia.
Qed.
Definition light_check (c every n : nat) : bool :=
  forallb (fun id => forallb (fun k => c * S (pend every n (id * block_of (2 ^ n)) k) <=? 6) (seq 0 (len (2 ^ n) id)) &&
    (c * pend every n (id * block_of (2 ^ n)) (len (2 ^ n) id) <=? 3)) (seq 0 NUM_THREADS).
Lemma light_check_ok : forall c every n, light_check c every n = true -> light c every n.
Proof.
  intros c every n H id Hid. unfold light_check in H. rewrite forallb_forall in H.
  specialize (H id ltac:(apply in_seq; lia)). apply andb_true_iff in H as (H1 & H2). split; [|apply Nat.leb_le, H2].
  intros k Hk. rewrite forallb_forall in H1. specialize (H1 k ltac:(apply in_seq; lia)). apply Nat.leb_le, H1.
Qed.
Ltac small n H := destruct n as [|[|[|[|n]]]]; first [apply light_check_ok; reflexivity|exfalso; clear -H; lia].
Lemma light_2_4 : forall n, n <= 2 -> light 2 4 n. Proof. intros n H. small n H. Qed.
Lemma light_1_8 : forall n, n <= 3 -> light 1 8 n. Proof. intros n H. small n H. Qed.
Lemma light_2_8 : forall n, n <= 2 -> light 2 8 n. Proof. intros n H. small n H. Qed.
