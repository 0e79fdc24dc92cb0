(** * Proofs about the multi-threaded prover: undefined executions, witnesses *)
From Coq Require Import ZArith List Bool Arith Lia.
From Verif Require Import Base Limbs Field LimbsProofs FieldProofs Fp Poly Circuit Lazy MleSpec TablesProofs FastProver.
From Verif Require Import Conc ParaProver ParaProofs ParaPhase1 ParaInit ParaUpdate.
Import ListNotations.
Open Scope nat_scope.

(** ** Threads that stay in the allocated memory finish, racing or not *)
Lemma covered_run : forall (R W : nat -> loc -> bool) (ps : nat -> thread) k start (m : memory),
  (forall i, start <= i < start + k -> foot (R i) (W i) (ps i)) ->
  (forall i l, start <= i < start + k -> (R i l || W i l) = true -> m l <> None) ->
  exists m', run_from loc_eqb ps k start m = Some m'.
Proof.
  intros R W ps. induction k as [|k IH]; intros start m F C; cbn [run_from]; [eexists; reflexivity|].
  destruct (ends_quiet (R start) (W start) (ps start) m) as (m1 & E & _ & A).
  - apply F. lia.
  - intros l. apply C. lia.
  - rewrite E. apply IH.
    + intros i Hi. apply F. lia.
    + intros i l Hi H. apply A, (C i l); [lia|exact H].
Qed.
Lemma covered_finishes : forall (R W : nat -> loc -> bool) n (ps : nat -> thread) (m : memory), fits n R W ps -> covers n R W m ->
  exists m', finishes loc_eqb n m ps m'.
Proof.
  intros R W n ps m F C. destruct (covered_run R W ps n 0 m) as (m' & E).
  - intros i Hi. apply F. lia.
  - intros i l Hi. apply C. lia.
  - exists m'. apply in_turn_finishes, E.
Qed.
(** The code has undefined behaviour: it has executions, and all of them that finish race. *)
Definition broken (f : nat -> thread) (m : memory) : Prop :=
  exec [parallel f] m None /\
  forall tr m' ps', steps loc_eqb NUM_THREADS m f tr m' ps' -> joined NUM_THREADS ps' -> racy tr.
Lemma broken_intro : forall (f : nat -> thread) (m : memory), (exists m', finishes loc_eqb NUM_THREADS m f m') ->
  (forall tr m' ps', steps loc_eqb NUM_THREADS m f tr m' ps' -> joined NUM_THREADS ps' -> racy tr) -> broken f m.
Proof.
  intros f m (m' & tr & ps' & S & J) H. split; [|exact H]. apply exec_undef. exists tr, m', ps'.
  split; [exact S|]. left. exact (H _ _ _ S J).
Qed.

Lemma phase1_broken : forall s gs b lg m V, wired gs b -> length gs = 2 ^ lg -> mtab m CircuitValue (2 ^ b) V ->
  tabs_alloc s b lg m ->
  alloc m G0f (2 ^ Nat.shiftr lg 1) /\ alloc m G0s (2 ^ (lg - Nat.shiftr lg 1)) /\
  alloc m G1f (2 ^ Nat.shiftr lg 1) /\ alloc m G1s (2 ^ (lg - Nat.shiftr lg 1)) ->
  (exists g x, nth_error gs g = Some x /\ (g_ty x = 0 \/ g_ty x = 1)%Z /\
     g / block_of (2 ^ lg) <> Z.to_nat (g_u x) / block_of (2 ^ b)) ->
  broken (phase1_init_func s gs b lg) m.
Proof.
  intros s gs b lg m V WD LEN CV AL HH (g & x & E & T & NE). apply broken_intro.
  - apply (covered_finishes (fun _ l => t_reads b lg l || w_reads b lg l) (fun id => t_writes s b lg id)).
    + intros id _. apply foot_andthen.
      * eapply foot_weaken; [apply tables_foot|auto|]. intros l H. cbv beta. rewrite H. reflexivity.
      * eapply foot_weaken; [apply (wires_foot s gs b lg WD LEN)| |].
        -- intros [a j] H. unfold w_writes, t_writes in *. cbn [fst snd] in *.
           destruct a as [| | | | | | | | | | | | | |s' t []| | | | |]; try discriminate.
           apply andb_true_iff in H as (H1 & H2). apply andb_true_iff in H1 as (H1 & _). rewrite H1, H2. reflexivity.
        -- intros l H. cbv beta. rewrite H, orb_true_r. reflexivity.
    + intros id l Hid H. rewrite <- orb_assoc, orb_comm, <- orb_assoc in H.
      apply orb_true_iff in H as [H|H].
      * destruct l as [a j]. unfold w_reads in H. cbn [fst snd] in H. destruct a; try discriminate; apply Nat.ltb_lt in H.
        -- exact (holds_some _ _ _ (CV j H)).
        -- apply AL, H.
      * apply (t_covers s b lg V m CV AL HH id l Hid). rewrite orb_comm. exact H.
  - exact (misaligned_race s gs b lg WD LEN g x E T NE m).
Qed.

(** ** Phase 2 *)
Section Two.
Variables (s : bool) (gs : list gate) (b lu : nat) (v_u : fe).
Let N := 2 ^ b.
Let U := 2 ^ lu.
Let h := Nat.shiftr lu 1.
Definition wired2 : Prop := forall x, In x gs -> (g_ty x = 0 \/ g_ty x = 1)%Z ->
  (0 <= g_u x < 2 ^ Z.of_nat lu)%Z /\ (0 <= g_v x < 2 ^ Z.of_nat b)%Z.
Definition p_reads (l : loc) : bool :=
  match fst l with
  | CircuitValue => snd l <? N
  | Uf => snd l <? 2 ^ h
  | Us => snd l <? 2 ^ (lu - h)
  | BetaGSum => snd l <? length gs
  | BetaU => snd l <? U
  | _ => false
  end.
Definition p_writes (id : nat) (l : loc) : bool :=
  match fst l with
  | Tab s' _ _ => Bool.eqb s' s && owns N (snd l) id
  | CountA | CountM => owns N (snd l) id
  | BetaU => owns U (snd l) id
  | _ => false
  end.
Hypothesis WD : wired2.

Lemma v_gates_in : forall v ty g u, In (ty, g, u) (v_gates gs v) ->
  exists x, nth_error gs g = Some x /\ g_ty x = ty /\ g_u x = u /\ g_v x = Z.of_nat v.
Proof.
  intros v ty g u H. unfold v_gates in H. apply in_flat_map in H as ((g', x) & HC & H).
  destruct (Z.eqb_spec (g_v x) (Z.of_nat v)) as [E|]; [|destruct H]. destruct H as [[= <- <- <-]|[]].
  exists x. split; [|auto].
  assert (X : forall l k j, In (j, x) (combine (seq k (length l)) l) -> k <= j /\ nth_error l (j - k) = Some x).
  { induction l as [|y l IH]; intros k j HI; cbn [length seq combine] in HI; [destruct HI|].
    destruct HI as [[= <- <-]|HI]; [split; [lia|rewrite Nat.sub_diag; reflexivity]|].
    apply IH in HI as (K & HI). split; [lia|]. replace (j - k) with (S (j - S k)) by lia. exact HI. }
  apply X in HC as (_ & HC). rewrite Nat.sub_0_r in HC. exact HC.
Qed.

Lemma p_foot : forall id, foot p_reads (p_writes id) (phase2_init_func s gs b lu v_u id).
Proof.
  intro id. unfold phase2_init_func. fold N U h.
  assert (WT : forall i, owns N i id = true -> forall t c, p_writes id (Tab s t c, i) = true).
  { intros i Hi t c. unfold p_writes. cbn [fst snd]. rewrite eqb_reflx. exact Hi. }
  assert (WC : forall i, owns N i id = true -> p_writes id (CountA, i) = true /\ p_writes id (CountM, i) = true) by (split; assumption).
  apply foot_andthen; [|apply foot_andthen; [|apply foot_andthen]].
  - apply foot_slice. intros i Hi. pose proof Hi as Hi'. apply owns_spec in Hi' as (_ & HU).
    destruct (half_ranges 0 lu i HU) as (H1 & H2). apply Nat.ltb_lt in H1, H2. fold h in H1, H2.
    unfold beta_u_entry, getf, putf. cbn [foot]. unfold p_reads, p_writes. cbn [fst snd]. rewrite H1, H2, Hi.
    split; [reflexivity|]. intros _. split; [reflexivity|]. intros _. split; [reflexivity|exact I].
  - apply foot_slice. intros i Hi. destruct (WC i Hi) as (C1 & C2). pose proof (WT i Hi) as WI.
    unfold reset2, getf, putf, puti. cbn [foot]. rewrite C1, C2, !WI.
    do 6 (split; [reflexivity|]). split.
    { unfold p_reads. cbn [fst snd]. apply owns_spec in Hi as (_ & Hi). apply Nat.ltb_lt in Hi. rewrite Hi. reflexivity. }
    intros _. split; [reflexivity|]. split; [reflexivity|exact I].
  - apply foot_slice. intros v Hv. destruct (WC v Hv) as (C1 & C2). pose proof (WT v Hv) as WI.
    assert (CU : forall cnt t k, p_writes id (cnt, v) = true -> foot p_reads (p_writes id) k -> foot p_reads (p_writes id) (count_up cnt s t v k)).
    { intros cnt t k HC HK. unfold count_up, geti, puti, getf, putf. cbn [foot]. rewrite HC, orb_true_r.
      split; [reflexivity|]. intros _. split; [reflexivity|]. split; [reflexivity|]. intro z.
      destruct (as_int z >? 30)%Z; [|exact HK]. cbn [foot]. rewrite HC, WI, orb_true_r.
      split; [reflexivity|]. split; [reflexivity|]. intros _. split; [reflexivity|exact HK]. }
    assert (X : forall l, (forall x, In x l -> In x (v_gates gs v)) -> foot p_reads (p_writes id) (each l (phase2_gate_entry s v_u v))).
    { induction l as [|[[ty g] u] l IH]; intro HI; cbn [each]; [exact I|].
      apply foot_andthen; [|apply IH; intros x Hx; apply HI; right; exact Hx].
      destruct (v_gates_in v ty g u (HI _ (or_introl eq_refl))) as (x & E & ET & EU & EV).
      assert (HG : p_reads (BetaGSum, g) = true).
      { unfold p_reads. cbn [fst snd]. apply Nat.ltb_lt. apply nth_error_Some. rewrite E. discriminate. }
      assert (HB : (ty = 0 \/ ty = 1)%Z -> (0 <= u)%Z /\ p_reads (BetaU, Z.to_nat u) = true).
      { rewrite <- ET, <- EU. intro T. destruct (WD x (nth_error_In _ _ E) T) as (HU & _). split; [lia|].
        unfold p_reads. cbn [fst snd]. apply Nat.ltb_lt. apply Nat2Z.inj_lt. unfold U. rewrite Nat2Z.inj_pow, Z2Nat.id by lia. apply HU. }
      unfold phase2_gate_entry, getfz, getf, putf.
      destruct ty as [|[| |]|]; try exact I; destruct (HB ltac:(auto)) as (H0 & H1); (destruct (Z.ltb_spec u 0); [lia|]);
        unfold getf; cbn [foot]; rewrite HG, H1, !WI, ?orb_true_r; cbn [orb].
      - do 3 (split; [reflexivity|]; intros _). split; [reflexivity|]. do 3 (split; [reflexivity|]; intros _).
        split; [reflexivity|]. apply CU; [exact C2|]. apply CU; [exact C1|exact I].
      - do 3 (split; [reflexivity|]; intros _). split; [reflexivity|]. apply CU; [exact C2|exact I]. }
    apply X. auto.
  - apply foot_slice. intros v Hv. destruct (WC v Hv) as (C1 & C2). pose proof (WT v Hv) as WI.
    unfold reduce2, geti, getf, putf. cbn [foot]. rewrite C2, orb_true_r. split; [reflexivity|]. intro z.
    assert (K : foot p_reads (p_writes id) (Get (CountA, v) (fun c : cell => if (as_int c =? 0)%Z then Ret else
       Get (Tab s TA Cb, v) (fun c0 : cell => Put (Tab s TA Cb, v) (Fe (u512_mod (as_fe c0))) Ret)))).
    { cbn [foot]. rewrite C1, orb_true_r. split; [reflexivity|]. intro z'. destruct (as_int z' =? 0)%Z; cbn [foot]; [exact I|].
      rewrite WI, orb_true_r. split; [reflexivity|]. intros _. split; [reflexivity|exact I]. }
    destruct (as_int z =? 0)%Z; [exact K|]. cbn [foot]. rewrite WI, orb_true_r. split; [reflexivity|]. intros _.
    split; [reflexivity|exact K].
Qed.

Definition alloc2 (m : memory) : Prop :=
  alloc m CircuitValue N /\ alloc m Uf (2 ^ h) /\ alloc m Us (2 ^ (lu - h)) /\ alloc m BetaGSum (length gs) /\
  alloc m BetaU U /\ alloc m CountA N /\ alloc m CountM N /\ forall t c, alloc m (Tab s t c) N.
Lemma phase2_broken : forall m, alloc2 m ->
  (exists g x, nth_error gs g = Some x /\ (g_ty x = 0 \/ g_ty x = 1)%Z /\
     Z.to_nat (g_u x) / block_of U <> Z.to_nat (g_v x) / block_of N) ->
  broken (phase2_init_func s gs b lu v_u) m.
Proof.
  intros m (A1 & A2 & A3 & A4 & A5 & A6 & A7 & A8) (g & x & E & T & NE). apply broken_intro.
  - apply (covered_finishes (fun _ => p_reads) p_writes).
    + intros id _. apply p_foot.
    + intros id [a j] _ H. unfold p_reads, p_writes in H. cbn [fst snd] in H.
      destruct a as [| | | | | | | | | | | | | |s' t c| | | | |]; try discriminate; cbn [orb] in H;
        rewrite ?orb_false_r in H.
      * apply A1, Nat.ltb_lt, H.
      * apply A4, Nat.ltb_lt, H.
      * apply A2, Nat.ltb_lt, H.
      * apply A3, Nat.ltb_lt, H.
      * apply A5. apply orb_true_iff in H as [H|H]; [apply Nat.ltb_lt, H|apply owns_spec in H; apply H].
      * apply andb_true_iff in H as (H1 & H). apply eqb_prop in H1. subst s'. apply A8. apply owns_spec in H. apply H.
      * apply A6. apply owns_spec in H. apply H.
      * apply A7. apply owns_spec in H. apply H.
  - destruct (WD x (nth_error_In _ _ E) T) as (H1 & H2). exact (phase2_race s gs b lu v_u g x E T H1 H2 NE m).
Qed.
End Two.

(** ** Witnesses *)
(** Every array the code uses, with 4 cells: the values are all 1, the half tables
    are those of [eq((1, 0), g)] and of 0. *)
Definition mem1 : memory := fun l => if snd l <? 4 then
  match fst l with
  | Outside => None
  | Tab _ _ _ | BetaGSum | RetA | RetB | RetC | G1f => Some (Fe (fe_of_int 0))
  | G0f => Some (Fe (fe_of_int (if snd l =? 1 then 1 else 0)))
  | G0s | G1s => Some (Fe (fe_of_int (if snd l =? 0 then 1 else 0)))
  | CountA | CountM => Some (Int 0)
  | _ => Some (Fe (fe_of_int 1))
  end else None.
(** Gate 1 multiplies input 0 by itself; the other gates are unused. *)
Definition gates1 : list gate := [Gate 2 0 0; Gate 1 0 0; Gate 2 0 0; Gate 2 0 0].
Definition stale : memory := match in_turn loc_eqb NUM_THREADS (phase1_init_func false gates1 2 2) mem1 with Some m => m | None => mem1 end.

Lemma wired1 : wired gates1 2.
Proof.
  intros x [<-|[<-|[<-|[<-|[]]]]] T; cbn [g_ty g_u g_v] in *; cbn; lia.
Qed.
Lemma stale_run : match in_turn loc_eqb NUM_THREADS (phase1_init_func false gates1 2 2) mem1 with
  | Some m => option_map (fun c => val512 (as_fe c)) (m (Tab false TM Cb, 0)) = Some 0%Z
  | None => False end.
Proof. vm_compute. reflexivity. Qed.
Lemma stale_finishes : finishes loc_eqb NUM_THREADS mem1 (phase1_init_func false gates1 2 2) stale.
Proof.
  apply in_turn_finishes. pose proof stale_run as H. unfold stale.
  destruct (in_turn loc_eqb NUM_THREADS (phase1_init_func false gates1 2 2) mem1); [reflexivity|destruct H].
Qed.
Lemma stale_value : option_map (fun c => val512 (as_fe c)) (stale (Tab false TM Cb, 0)) = Some 0%Z.
Proof.
  pose proof stale_run as H. unfold stale.
  destruct (in_turn loc_eqb NUM_THREADS (phase1_init_func false gates1 2 2) mem1); [exact H|destruct H].
Qed.
Lemma mem1_values : mtab mem1 CircuitValue 4 (fun _ => 1%F).
Proof.
  intros i Hi. exists (fe_of_int 1). split; [|exact rep_i1].
  unfold mem1. cbn [fst snd]. apply Nat.ltb_lt in Hi. rewrite Hi. reflexivity.
Qed.
Lemma mem1_alloc : forall a, a <> Outside -> alloc mem1 a 4.
Proof.
  intros a Ha i Hi. unfold mem1. cbn [fst snd]. apply Nat.ltb_lt in Hi. rewrite Hi. destruct a; try discriminate. contradiction.
Qed.
Lemma alloc_le : forall m a n k, k <= n -> alloc m a n -> alloc m a k.
Proof. intros m a n k H A i Hi. apply A. lia. Qed.
(** Eight products of [P - 1] by itself, all for input 0. *)
Definition top : fe := U512 (lo5 mod_512 - 1) (mid5 mod_512) (hi5 mod_512).
Definition mem2 : memory := fun l => if snd l <? 8 then
  match fst l with
  | Outside => None
  | BetaGSum | Uf => Some (Fe top)
  | CountA | CountM => Some (Int 0)
  | _ => Some (Fe (fe_of_int 1))
  end else None.
Definition gates2 : list gate := repeat (Gate 0 0 0) 8.
Definition heavy : memory := match in_turn loc_eqb NUM_THREADS (phase2_init_func false gates2 2 2 (fe_of_int 1)) mem2 with Some m => m | None => mem2 end.
Lemma heavy_run : match in_turn loc_eqb NUM_THREADS (phase2_init_func false gates2 2 2 (fe_of_int 1)) mem2 with
  | Some m => option_map (fun c => (val512 (as_fe c) <? W256)%Z) (m (Tab false TM Cb, 0)) = Some false
  | None => False end.
Proof. vm_compute. reflexivity. Qed.
Lemma heavy_finishes : finishes loc_eqb NUM_THREADS mem2 (phase2_init_func false gates2 2 2 (fe_of_int 1)) heavy.
Proof.
  apply in_turn_finishes. pose proof heavy_run as H. unfold heavy.
  destruct (in_turn loc_eqb NUM_THREADS (phase2_init_func false gates2 2 2 (fe_of_int 1)) mem2); [reflexivity|destruct H].
Qed.
Lemma heavy_value : option_map (fun c => (val512 (as_fe c) <? W256)%Z) (heavy (Tab false TM Cb, 0)) = Some false.
Proof.
  pose proof heavy_run as H. unfold heavy.
  destruct (in_turn loc_eqb NUM_THREADS (phase2_init_func false gates2 2 2 (fe_of_int 1)) mem2); [exact H|destruct H].
Qed.
Lemma top_rep : rep top (- (1))%F.
Proof. split; [wfc|]. vm_compute. reflexivity. Qed.
