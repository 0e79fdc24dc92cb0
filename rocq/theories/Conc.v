(** * Threads over a shared memory

    The programs run by [std::thread] in prover_fast_para_track.cpp share one
    memory and use no lock, atomic or barrier: the only synchronisation is the
    creation and the [join] of the threads.  A thread is a tree of reads and
    writes of memory cells; an execution interleaves the accesses of the
    threads in any order.

    Two accesses of different threads to one cell, one of them a write, are
    ordered by nothing: such an execution has a data race, which is undefined
    behaviour in C++ (C++11, 1.10).  For executions without a race the
    interleavings of whole accesses are all behaviours there are. *)
From Coq Require Import List Bool Arith Lia.
Import ListNotations.

Section Threads.
Context {L V : Type} (Leq : L -> L -> bool) (Leq_spec : forall a b, reflect (a = b) (Leq a b)).

(** Cells outside the allocated arrays hold [None]; touching one is undefined
    behaviour. *)
Definition mem := L -> option V.
Definition put (m : mem) (l : L) (v : V) : mem := fun l' => if Leq l l' then Some v else m l'.

Inductive prog : Type :=
| Ret
| Get (l : L) (k : V -> prog)
| Put (l : L) (v : V) (k : prog).

(** [p ; q] *)
Fixpoint andthen (p q : prog) : prog :=
  match p with
  | Ret => q
  | Get l k => Get l (fun v => andthen (k v) q)
  | Put l v k => Put l v (andthen k q)
  end.
(** [for(int i = start; i < start + n; ++i) body] *)
Fixpoint pfor (n start : nat) (body : nat -> prog) : prog :=
  match n with
  | 0 => Ret
  | S n' => andthen (body start) (pfor n' (S start) body)
  end.

(** ** Executions *)
Inductive act := ARd (l : L) | AWr (l : L).
Definition where_ (a : act) : L := match a with ARd l => l | AWr l => l end.
Definition is_write (a : act) : bool := match a with ARd _ => false | AWr _ => true end.

Inductive step : mem -> prog -> act -> mem -> prog -> Prop :=
| step_get : forall m l k v, m l = Some v -> step m (Get l k) (ARd l) m (k v)
| step_put : forall m l v k w, m l = Some w -> step m (Put l v k) (AWr l) (put m l v) k.
(** The next access of [p] is outside the allocated memory. *)
Definition faulty (m : mem) (p : prog) : Prop :=
  match p with
  | Ret => False
  | Get l _ => m l = None
  | Put l _ _ => m l = None
  end.

Definition pool := nat -> prog.
Definition set_thread (ps : pool) (i : nat) (p : prog) : pool := fun j => if i =? j then p else ps j.
(** [steps n m ps tr m' ps']: [n] threads, the accesses in the order they happened. *)
Inductive steps (n : nat) : mem -> pool -> list (nat * act) -> mem -> pool -> Prop :=
| steps_nil : forall m ps, steps n m ps [] m ps
| steps_cons : forall m ps i a m1 p tr m' ps', i < n ->
    step m (ps i) a m1 p -> steps n m1 (set_thread ps i p) tr m' ps' ->
    steps n m ps ((i, a) :: tr) m' ps'.

Definition conflict (x y : nat * act) : Prop :=
  fst x <> fst y /\ where_ (snd x) = where_ (snd y) /\ (is_write (snd x) || is_write (snd y)) = true.
Definition racy (tr : list (nat * act)) : Prop := exists x y, In x tr /\ In y tr /\ conflict x y.

Definition joined (n : nat) (ps : pool) : Prop := forall i, i < n -> ps i = Ret.
(** The threads can run to their end and leave [m']. *)
Definition finishes (n : nat) (m : mem) (ps : pool) (m' : mem) : Prop :=
  exists tr ps', steps n m ps tr m' ps' /\ joined n ps'.
(** Some execution has undefined behaviour: a race, or an access out of bounds. *)
Definition undefined (n : nat) (m : mem) (ps : pool) : Prop :=
  exists tr m' ps', steps n m ps tr m' ps' /\ (racy tr \/ exists i, i < n /\ faulty m' (ps' i)).

(** ** One thread alone *)
Fixpoint run (p : prog) (m : mem) : option mem :=
  match p with
  | Ret => Some m
  | Get l k => match m l with Some v => run (k v) m | None => None end
  | Put l v k => match m l with Some _ => run k (put m l v) | None => None end
  end.
Definition ends (p : prog) (m : mem) (Q : mem -> Prop) : Prop := exists m', run p m = Some m' /\ Q m'.

(** All cells [p] reads (writes) satisfy [R] ([W]). *)
Fixpoint foot (R W : L -> bool) (p : prog) : Prop :=
  match p with
  | Ret => True
  | Get l k => (R l || W l) = true /\ forall v, foot R W (k v)
  | Put l v k => W l = true /\ foot R W k
  end.

Lemma put_same : forall m l v, put m l v l = Some v.
Proof. intros. unfold put. destruct (Leq_spec l l); congruence. Qed.
Lemma put_other : forall m l v l', l <> l' -> put m l v l' = m l'.
Proof. intros. unfold put. destruct (Leq_spec l l'); congruence. Qed.

Lemma ends_ret : forall m (Q : mem -> Prop), Q m -> ends Ret m Q.
Proof. intros m Q H. exists m. split; [reflexivity|exact H]. Qed.
Lemma ends_get : forall l k m v (Q : mem -> Prop), m l = Some v -> ends (k v) m Q -> ends (Get l k) m Q.
Proof. intros l k m v Q E (m' & H & K). exists m'. split; [|exact K]. cbn [run]. rewrite E. exact H. Qed.
Lemma ends_put : forall l v k m w (Q : mem -> Prop), m l = Some w -> ends k (put m l v) Q -> ends (Put l v k) m Q.
Proof. intros l v k m w Q E (m' & H & K). exists m'. split; [|exact K]. cbn [run]. rewrite E. exact H. Qed.
Lemma ends_conseq : forall p m (Q R : mem -> Prop), ends p m Q -> (forall m', Q m' -> R m') -> ends p m R.
Proof. intros p m Q R (m' & H & K) C. exists m'. auto. Qed.
Lemma run_andthen : forall p q m, run (andthen p q) m = match run p m with Some m' => run q m' | None => None end.
Proof.
  induction p as [|l k IH|l v k IH]; intros q m; cbn [andthen run]; [reflexivity| |].
  - destruct (m l); [apply IH|reflexivity].
  - destruct (m l); [apply IH|reflexivity].
Qed.
Lemma ends_andthen : forall p q m (Q R : mem -> Prop), ends p m Q -> (forall m', Q m' -> ends q m' R) ->
  ends (andthen p q) m R.
Proof.
  intros p q m Q R (m1 & H & K) C. destruct (C m1 K) as (m2 & H2 & K2). exists m2. split; [|exact K2].
  rewrite run_andthen, H. exact H2.
Qed.
Lemma ends_pfor : forall n start body (I : nat -> mem -> Prop) m, I start m ->
  (forall i m, start <= i < start + n -> I i m -> ends (body i) m (I (S i))) ->
  ends (pfor n start body) m (I (start + n)).
Proof.
  induction n as [|n IH]; intros start body I m H0 HS; cbn [pfor].
  - rewrite Nat.add_0_r. apply ends_ret, H0.
  - eapply ends_andthen; [apply (HS start m); [lia|exact H0]|]. intros m' H'.
    rewrite <- Nat.add_succ_comm. apply IH; [exact H'|]. intros i m'' Hi. apply HS. lia.
Qed.

Lemma foot_andthen : forall R W p q, foot R W p -> foot R W q -> foot R W (andthen p q).
Proof.
  intros R W. induction p as [|l k IH|l v k IH]; intros q Hp Hq; cbn [andthen foot] in *; [exact Hq| |].
  - destruct Hp as (H1 & H2). split; [exact H1|]. intro v. apply IH; [apply H2|exact Hq].
  - destruct Hp as (H1 & H2). split; [exact H1|]. apply IH; assumption.
Qed.
Lemma foot_pfor : forall R W n start body, (forall i, start <= i < start + n -> foot R W (body i)) ->
  foot R W (pfor n start body).
Proof.
  intros R W. induction n as [|n IH]; intros start body H; cbn [pfor]; [exact I|].
  apply foot_andthen; [apply H; lia|]. apply IH. intros i Hi. apply H. lia.
Qed.
Lemma foot_weaken : forall R W R' W' p, foot R W p ->
  (forall l, W l = true -> W' l = true) -> (forall l, R l = true -> (R' l || W' l) = true) -> foot R' W' p.
Proof.
  intros R W R' W' p Hp HW HR. induction p as [|l k IH|l v k IH]; cbn [foot] in *; [exact I| |].
  - destruct Hp as (H1 & H2). split.
    + apply orb_true_iff in H1. destruct H1 as [H1|H1]; [apply HR, H1|].
      rewrite (HW _ H1). apply orb_true_r.
    + intro v. apply IH, H2.
  - destruct Hp as (H1 & H2). split; [apply HW, H1|apply IH, H2].
Qed.

(** A thread only sees its footprint. *)
Lemma run_local : forall R W p m1 m2, foot R W p ->
  (forall l, (R l || W l) = true -> m1 l = m2 l) -> (forall l, (R l || W l) = true -> m1 l <> None) ->
  exists m1' m2', run p m1 = Some m1' /\ run p m2 = Some m2' /\
    (forall l, (R l || W l) = true -> m1' l = m2' l) /\
    (forall l, W l = false -> m1' l = m1 l) /\ (forall l, W l = false -> m2' l = m2 l).
Proof.
  intros R W. induction p as [|l k IH|l v k IH]; intros m1 m2 Hp HE HN; cbn [run foot] in *.
  - exists m1, m2. split; [reflexivity|]. split; [reflexivity|]. split; [exact HE|]. split; reflexivity.
  - destruct Hp as (H1 & H2). rewrite <- (HE l H1). destruct (m1 l) as [v|] eqn:E; [|destruct (HN l H1 E)].
    apply IH; [apply H2|exact HE|exact HN].
  - destruct Hp as (H1 & H2).
    assert (HRW : (R l || W l) = true) by (rewrite H1; apply orb_true_r).
    rewrite <- (HE l HRW). destruct (m1 l) as [w|] eqn:E; [|destruct (HN l HRW E)].
    destruct (IH (put m1 l v) (put m2 l v) H2) as (m1' & m2' & R1 & R2 & A & B & C).
    + intros l' H'. unfold put. destruct (Leq l l'); [reflexivity|apply HE, H'].
    + intros l' H'. unfold put. destruct (Leq l l'); [discriminate|apply HN, H'].
    + exists m1', m2'. split; [exact R1|]. split; [exact R2|]. split; [exact A|].
      split; intros l' H'.
      * rewrite (B l' H'). apply put_other. intros ->. congruence.
      * rewrite (C l' H'). apply put_other. intros ->. congruence.
Qed.

(** ** Threads that do not interfere *)
Section Disjoint.
Variables (n : nat) (R W : nat -> L -> bool).
Definition separate : Prop := forall i j l, i < n -> j < n -> i <> j -> W i l = true -> (R j l || W j l) = false.
Definition fits (ps : pool) : Prop := forall i, i < n -> foot (R i) (W i) (ps i).
Definition covers (m : mem) : Prop := forall i l, i < n -> (R i l || W i l) = true -> m l <> None.
Hypothesis SEP : separate.

(** [m'] holds, in the cells thread [i] may write, what thread [i] alone leaves
    there, and elsewhere what [m] held. *)
Definition merged (m : mem) (ps : pool) (m' : mem) : Prop :=
  (forall i l, i < n -> W i l = true -> exists mi, run (ps i) m = Some mi /\ m' l = mi l) /\
  (forall l, (forall i, i < n -> W i l = false) -> m' l = m l).

Definition consistent (m : mem) (ps : pool) (m' : mem) (ps' : pool) : Prop :=
  fits ps' /\ covers m' /\
  (forall i, i < n -> exists mi mi', run (ps i) m = Some mi /\ run (ps' i) m' = Some mi' /\
     forall l, (R i l || W i l) = true -> mi l = mi' l) /\
  (forall l, (forall i, i < n -> W i l = false) -> m' l = m l).

Lemma covers_put : forall m l v, covers m -> covers (put m l v).
Proof. intros m l v H i l' Hi H'. unfold put. destruct (Leq l l'); [discriminate|apply (H i l' Hi H')]. Qed.

Lemma step_foot : forall RR WW m p a m' p', step m p a m' p' -> foot RR WW p ->
  foot RR WW p' /\ (RR (where_ a) || WW (where_ a)) = true /\ (is_write a = true -> WW (where_ a) = true) /\
  (forall l, WW l = false -> m' l = m l) /\ run p m = run p' m' /\ (m' = m \/ exists l v, m' = put m l v).
Proof.
  intros RR WW m p a m' p' H Hp. destruct H as [m l k v E|m l v k w E]; cbn [foot where_ is_write run] in *.
  - destruct Hp as (H1 & H2). rewrite E.
    split; [apply H2|]. split; [exact H1|]. split; [discriminate|]. split; [reflexivity|]. split; [reflexivity|left; reflexivity].
  - destruct Hp as (H1 & H2). rewrite E.
    split; [exact H2|]. split; [rewrite H1; apply orb_true_r|]. split; [intros _; exact H1|].
    split; [|split; [reflexivity|right; exists l, v; reflexivity]].
    intros l' H'. apply put_other. intros ->. congruence.
Qed.

Lemma set_thread_same : forall ps i p, set_thread ps i p i = p.
Proof. intros. unfold set_thread. rewrite Nat.eqb_refl. reflexivity. Qed.
Lemma set_thread_other : forall ps i p j, i <> j -> set_thread ps i p j = ps j.
Proof. intros ps i p j H. unfold set_thread. destruct (Nat.eqb_spec i j); [contradiction|reflexivity]. Qed.

Lemma consistent_start : forall m ps, fits ps -> covers m -> consistent m ps m ps.
Proof.
  intros m ps F C. split; [exact F|]. split; [exact C|]. split; [|reflexivity].
  intros i Hi. destruct (run_local (R i) (W i) (ps i) m m (F i Hi)) as (m1 & m2 & E1 & E2 & A & _ & _).
  - reflexivity.
  - intros l. apply (C i l Hi).
  - exists m1, m2. split; [exact E1|]. split; [exact E2|exact A].
Qed.

Lemma consistent_step : forall m ps m1 ps1 j a m2 p, consistent m ps m1 ps1 -> j < n ->
  step m1 (ps1 j) a m2 p -> consistent m ps m2 (set_thread ps1 j p).
Proof.
  intros m ps m1 ps1 j a m2 p (F & C & S & U) Hj ST.
  destruct (step_foot (R j) (W j) _ _ _ _ _ ST (F j Hj)) as (F' & _ & _ & K & RN & M2).
  assert (C2 : covers m2) by (destruct M2 as [->|(l & v & ->)]; [exact C|apply covers_put, C]).
  split; [|split; [exact C2|split]].
  - intros i Hi. destruct (Nat.eq_dec j i) as [<-|N]; [rewrite set_thread_same; exact F'|].
    rewrite set_thread_other by exact N. apply F, Hi.
  - intros i Hi. destruct (S i Hi) as (mi & mi' & E1 & E2 & A).
    destruct (Nat.eq_dec j i) as [<-|N].
    + rewrite set_thread_same, <- RN. exists mi, mi'. split; [exact E1|]. split; [exact E2|exact A].
    + rewrite set_thread_other by exact N.
      assert (AG : forall l, (R i l || W i l) = true -> m1 l = m2 l).
      { intros l Hl. symmetry. apply K. destruct (W j l) eqn:EW; [|reflexivity].
        rewrite (SEP j i l Hj Hi N EW) in Hl. discriminate. }
      destruct (run_local (R i) (W i) (ps1 i) m1 m2 (F i Hi) AG) as (x1 & x2 & X1 & X2 & XA & _ & _).
      { intros l. apply (C i l Hi). }
      exists mi, x2. split; [exact E1|]. split; [exact X2|].
      intros l Hl. rewrite <- (XA l Hl). rewrite E2 in X1. injection X1 as <-. apply A, Hl.
  - intros l Hl. rewrite (K l (Hl j Hj)). apply U, Hl.
Qed.

Lemma consistent_steps : forall m1 ps1 tr m2 ps2, steps n m1 ps1 tr m2 ps2 ->
  forall m ps, consistent m ps m1 ps1 -> consistent m ps m2 ps2 /\
   forall x, In x tr -> fst x < n /\ (R (fst x) (where_ (snd x)) || W (fst x) (where_ (snd x))) = true /\
      (is_write (snd x) = true -> W (fst x) (where_ (snd x)) = true).
Proof.
  intros m1 ps1 tr m2 ps2 ST. induction ST as [m1 ps1|m1 ps1 j a m2 p tr m3 ps3 Hj S1 ST IH]; intros m ps H.
  - split; [exact H|]. intros x [].
  - destruct (IH m ps (consistent_step _ _ _ _ _ _ _ _ H Hj S1)) as (H3 & T).
    split; [exact H3|]. intros x [<-|Hx]; [|apply T, Hx]. cbn [fst snd].
    destruct H as (F & _). destruct (step_foot (R j) (W j) _ _ _ _ _ S1 (F j Hj)) as (_ & T1 & T2 & _).
    split; [exact Hj|]. split; [exact T1|exact T2].
Qed.

(** Every completed execution leaves the merged memory. *)
Theorem separate_merged : forall m ps m', fits ps -> covers m -> finishes n m ps m' -> merged m ps m'.
Proof.
  intros m ps m' F C (tr & ps' & ST & J).
  destruct (consistent_steps _ _ _ _ _ ST m ps (consistent_start m ps F C)) as ((_ & _ & S & U) & _).
  split; [|exact U]. intros i l Hi Hl. destruct (S i Hi) as (mi & mi' & E1 & E2 & A).
  exists mi. split; [exact E1|]. rewrite (J i Hi) in E2. cbn [run] in E2. injection E2 as <-.
  symmetry. apply A. rewrite Hl. apply orb_true_r.
Qed.

(** No execution has undefined behaviour. *)
Theorem separate_defined : forall m ps, fits ps -> covers m -> ~ undefined n m ps.
Proof.
  intros m ps F C (tr & m' & ps' & ST & B).
  destruct (consistent_steps _ _ _ _ _ ST m ps (consistent_start m ps F C)) as ((F' & C' & _) & T).
  destruct B as [(x & y & Hx & Hy & N & E & Wr)|(i & Hi & FA)].
  - destruct (T x Hx) as (X1 & X2 & X3). destruct (T y Hy) as (Y1 & Y2 & Y3).
    apply orb_true_iff in Wr. destruct Wr as [Wr|Wr].
    + specialize (X3 Wr). rewrite E in X3. rewrite (SEP _ _ _ X1 Y1 N X3) in Y2. discriminate.
    + specialize (Y3 Wr). rewrite <- E in Y3. rewrite (SEP _ _ _ Y1 X1 (not_eq_sym N) Y3) in X2. discriminate.
  - specialize (F' i Hi). destruct (ps' i) as [|l k|l v k] eqn:EP; cbn [faulty foot] in *; [exact FA| |].
    + apply (C' i l Hi (proj1 F')), FA.
    + apply (C' i l Hi); [rewrite (proj1 F'); apply orb_true_r|exact FA].
Qed.

End Disjoint.

(** ** Executions to the end exist and are finite *)
Lemma steps_app : forall n m ps t1 m1 ps1, steps n m ps t1 m1 ps1 ->
  forall t2 m2 ps2, steps n m1 ps1 t2 m2 ps2 -> steps n m ps (t1 ++ t2) m2 ps2.
Proof.
  intros n m ps t1 m1 ps1 H. induction H as [|m ps i a m1 p tr m' ps' Hi S1 ST IH]; intros t2 m2 ps2 H2; cbn [app].
  - exact H2.
  - eapply steps_cons; [exact Hi|exact S1|]. apply IH, H2.
Qed.
Lemma run_steps : forall n p m m' ps i, run p m = Some m' -> i < n -> ps i = p ->
  exists tr ps', steps n m ps tr m' ps' /\ ps' i = Ret /\ forall j, j <> i -> ps' j = ps j.
Proof.
  intros n. induction p as [|l k IH|l v k IH]; intros m m' ps i H Hi Hp; cbn [run] in H.
  - injection H as <-. exists [], ps. split; [constructor|]. split; [exact Hp|reflexivity].
  - destruct (m l) as [v|] eqn:E; [|discriminate].
    destruct (IH v m m' (set_thread ps i (k v)) i H Hi (set_thread_same _ _ _)) as (tr & ps' & ST & D & O1).
    exists ((i, ARd l) :: tr), ps'. split; [|split; [exact D|]].
    + eapply steps_cons; [exact Hi| |exact ST]. rewrite Hp. constructor. exact E.
    + intros j Hj. rewrite (O1 j Hj). apply set_thread_other. congruence.
  - destruct (m l) as [w|] eqn:E; [|discriminate].
    destruct (IH (put m l v) m' (set_thread ps i k) i H Hi (set_thread_same _ _ _)) as (tr & ps' & ST & D & O1).
    exists ((i, AWr l) :: tr), ps'. split; [|split; [exact D|]].
    + eapply steps_cons; [exact Hi| |exact ST]. rewrite Hp. econstructor. exact E.
    + intros j Hj. rewrite (O1 j Hj). apply set_thread_other. congruence.
Qed.

(** The threads one after the other. *)
Fixpoint run_from (ps : pool) (n start : nat) (m : mem) : option mem :=
  match n with
  | 0 => Some m
  | S n' => match run (ps start) m with Some m' => run_from ps n' (S start) m' | None => None end
  end.
Definition in_turn (n : nat) (ps : pool) (m : mem) : option mem := run_from ps n 0 m.

Lemma run_from_ext : forall n start ps ps' m, (forall i, start <= i -> ps i = ps' i) ->
  run_from ps n start m = run_from ps' n start m.
Proof.
  induction n as [|n IH]; intros start ps ps' m H; cbn [run_from]; [reflexivity|].
  rewrite (H start) by lia. destruct (run (ps' start) m); [|reflexivity]. apply IH. intros i Hi. apply H. lia.
Qed.
Lemma run_from_steps : forall k N start ps m m', run_from ps k start m = Some m' -> start + k <= N ->
  exists tr ps', steps N m ps tr m' ps' /\ (forall i, start <= i < start + k -> ps' i = Ret) /\
    (forall i, i < start -> ps' i = ps i).
Proof.
  induction k as [|k IH]; intros N start ps m m' H HN; cbn [run_from] in H.
  - injection H as <-. exists [], ps. split; [constructor|]. split; [intros; lia|reflexivity].
  - destruct (run (ps start) m) as [m1|] eqn:E; [|discriminate].
    destruct (run_steps N (ps start) m m1 ps start E ltac:(lia) eq_refl) as (t1 & ps1 & S1 & D1 & O1).
    rewrite (run_from_ext k (S start) ps ps1) in H by (intros i Hi; symmetry; apply O1; lia).
    destruct (IH N (S start) ps1 m1 m' H ltac:(lia)) as (t2 & ps2 & S2 & D2 & O2).
    exists (t1 ++ t2), ps2. split; [exact (steps_app _ _ _ _ _ _ S1 _ _ _ S2)|]. split.
    + intros i Hi. destruct (Nat.eq_dec i start) as [->|N1]; [|apply D2; lia].
      rewrite O2 by lia. exact D1.
    + intros i Hi. rewrite O2 by lia. apply O1. lia.
Qed.
Lemma in_turn_finishes : forall n ps m m', in_turn n ps m = Some m' -> finishes n m ps m'.
Proof.
  intros n ps m m' H. destruct (run_from_steps n n 0 ps m m' H ltac:(lia)) as (tr & ps' & S1 & D & _).
  exists tr, ps'. split; [exact S1|]. intros i Hi. apply D. lia.
Qed.

Lemma separate_in_turn : forall n R W, separate n R W -> forall m ps, fits n R W ps -> covers n R W m ->
  exists m', in_turn n ps m = Some m'.
Proof.
  intros n R W SEP m ps F. unfold in_turn.
  assert (G : forall k start m, start + k = n -> covers n R W m -> exists m', run_from ps k start m = Some m').
  { induction k as [|k IH]; intros start m0 E C; cbn [run_from]; [exists m0; reflexivity|].
    destruct (run_local (R start) (W start) (ps start) m0 m0) as (m1 & _ & E1 & _ & _ & K & _).
    - apply F. lia.
    - reflexivity.
    - intros l. apply C. lia.
    - rewrite E1. apply IH; [lia|]. intros i l Hi Hl.
      destruct (W start l) eqn:EW; [|rewrite (K l EW); apply (C i l Hi Hl)].
      intro Z. assert (P : forall p m m' l, run p m = Some m' -> m l <> None -> m' l <> None).
      { clear. induction p as [|l0 k IH|l0 v k IH]; intros m m' l H Hn; cbn [run] in H.
        - injection H as <-. exact Hn.
        - destruct (m l0); [|discriminate]. apply (IH _ _ _ _ H Hn).
        - destruct (m l0); [|discriminate]. apply (IH _ _ _ H). unfold put. destruct (Leq l0 l); [discriminate|exact Hn]. }
      exact (P _ _ _ l E1 (C i l Hi Hl) Z). }
  intro C. apply (G n 0 m eq_refl C).
Qed.

(** Every completed execution leaves what running the threads in turn leaves. *)
Theorem separate_sequential : forall n R W, separate n R W -> forall m ps m', fits n R W ps -> covers n R W m ->
  finishes n m ps m' -> exists m1, in_turn n ps m = Some m1 /\ forall l, m' l = m1 l.
Proof.
  intros n R W SEP m ps m' F C H. destruct (separate_in_turn n R W SEP m ps F C) as (m1 & E).
  exists m1. split; [exact E|]. intro l.
  destruct (separate_merged n R W SEP m ps m' F C H) as (A & B).
  destruct (separate_merged n R W SEP m ps m1 F C (in_turn_finishes _ _ _ _ E)) as (A1 & B1).
  assert (D : (exists i, i < n /\ W i l = true) \/ (forall i, i < n -> W i l = false)).
  { clear. induction n as [|n [(i & Hi & E)|N]]; [right; intros; lia|left; exists i; split; [lia|exact E]|].
    destruct (W n l) eqn:E; [left; exists n; split; [lia|exact E]|right].
    intros i Hi. destruct (Nat.eq_dec i n) as [->|]; [exact E|apply N; lia]. }
  destruct D as [(i & Hi & E1)|N].
  - destruct (A i l Hi E1) as (x & X1 & X2). destruct (A1 i l Hi E1) as (y & Y1 & Y2).
    rewrite X1 in Y1. injection Y1 as <-. congruence.
  - rewrite (B l N), (B1 l N). reflexivity.
Qed.

(** ** Accesses a thread cannot avoid *)
Fixpoint always (a : act) (p : prog) : Prop :=
  match p with
  | Ret => False
  | Get l k => a = ARd l \/ forall v, always a (k v)
  | Put l v k => a = AWr l \/ always a k
  end.
Lemma always_step : forall m p b m' p' a, step m p b m' p' -> always a p -> a = b \/ always a p'.
Proof.
  intros m p b m' p' a H. destruct H as [m l k v E|m l v k w E]; cbn [always]; intros [->|A]; auto.
Qed.
Lemma always_in : forall n m ps tr m' ps', steps n m ps tr m' ps' -> joined n ps' ->
  forall i a, i < n -> always a (ps i) -> In (i, a) tr.
Proof.
  intros n m ps tr m' ps' ST. induction ST as [m ps|m ps j b m1 p tr m' ps' Hj S1 ST IH]; intros J i a Hi A.
  - rewrite (J i Hi) in A. destruct A.
  - destruct (Nat.eq_dec j i) as [->|N].
    + destruct (always_step _ _ _ _ _ _ S1 A) as [->|A']; [left; reflexivity|right].
      apply (IH J i a Hi). rewrite set_thread_same. exact A'.
    + right. apply (IH J i a Hi). rewrite set_thread_other by exact N. exact A.
Qed.
Lemma always_left : forall a p q, always a p -> always a (andthen p q).
Proof.
  intros a. induction p as [|l k IH|l v k IH]; intros q H; cbn [andthen always] in *; [destruct H| |].
  - destruct H as [->|H]; [left; reflexivity|right; intro v; apply IH, H].
  - destruct H as [->|H]; [left; reflexivity|right; apply IH, H].
Qed.
Lemma always_right : forall a p q, always a q -> always a (andthen p q).
Proof.
  intros a. induction p as [|l k IH|l v k IH]; intros q H; cbn [andthen always] in *; [exact H| |].
  - right. intro v. apply IH, H.
  - right. apply IH, H.
Qed.
Lemma always_pfor : forall a n start body i, start <= i < start + n -> always a (body i) -> always a (pfor n start body).
Proof.
  intros a. induction n as [|n IH]; intros start body i Hi H; cbn [pfor]; [lia|].
  destruct (Nat.eq_dec i start) as [->|N]; [apply always_left, H|].
  apply always_right, (IH _ _ i); [lia|exact H].
Qed.
(** Accesses that two threads cannot avoid and that conflict: a race in every
    completed execution. *)
Theorem unavoidable_race : forall n m ps i j a b, i < n -> j < n -> always a (ps i) -> always b (ps j) ->
  conflict (i, a) (j, b) ->
  forall tr m' ps', steps n m ps tr m' ps' -> joined n ps' -> racy tr.
Proof.
  intros n m ps i j a b Hi Hj A B CF tr m' ps' ST J. exists (i, a), (j, b).
  split; [exact (always_in _ _ _ _ _ _ ST J i a Hi A)|].
  split; [exact (always_in _ _ _ _ _ _ ST J j b Hj B)|exact CF].
Qed.

(** A schedule, given as the list of the threads to advance, is followed. *)
Definition next (m : mem) (p : prog) : option (mem * prog) :=
  match p with
  | Ret => None
  | Get l k => match m l with Some v => Some (m, k v) | None => None end
  | Put l v k => match m l with Some _ => Some (put m l v, k) | None => None end
  end.
Fixpoint follow (n : nat) (sched : list nat) (m : mem) (ps : pool) : option (mem * pool) :=
  match sched with
  | [] => Some (m, ps)
  | i :: rest => if i <? n then
      match next m (ps i) with
      | Some (m', p) => follow n rest m' (set_thread ps i p)
      | None => None
      end else None
  end.
Lemma follow_steps : forall n sched m ps m' ps', follow n sched m ps = Some (m', ps') ->
  exists tr, steps n m ps tr m' ps'.
Proof.
  intros n. induction sched as [|i rest IH]; intros m ps m' ps' H; cbn [follow] in H.
  - injection H as <- <-. exists []. constructor.
  - destruct (Nat.ltb_spec i n) as [Hi|]; [|discriminate].
    destruct (next m (ps i)) as [(m1, p)|] eqn:E; [|discriminate].
    destruct (IH _ _ _ _ H) as (tr & ST).
    assert (X : exists a, step m (ps i) a m1 p).
    { unfold next in E. destruct (ps i) as [|l k|l v k]; [discriminate| |].
      - destruct (m l) as [v|] eqn:E1; [|discriminate]. injection E as <- <-. exists (ARd l). constructor. exact E1.
      - destruct (m l) as [v0|] eqn:E1; [|discriminate]. injection E as <- <-. exists (AWr l). econstructor. exact E1. }
    destruct X as (a & X). exists ((i, a) :: tr). econstructor; [exact Hi|exact X|exact ST].
Qed.

End Threads.

Arguments Ret {L V}.
Arguments Get {L V} l k.
Arguments Put {L V} l v k.
Arguments mem : clear implicits.
Arguments prog : clear implicits.
