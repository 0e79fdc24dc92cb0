(** * C61-C64: the multi-threaded prover *)
From Coq Require Import ZArith List Bool Arith Lia.
From Verif Require Import Base Limbs Field LimbsProofs FieldProofs Fp Poly Circuit Lazy MleSpec TablesProofs FastProver.
From Verif Require Import Conc ParaProver ParaProofs ParaPhase1 ParaInit ParaUpdate ParaWitness ParaPhase2.
Import ListNotations.
Open Scope nat_scope.

(** ** C61 *)
(** [surely c m Q]: no interleaving of [c] from [m] has a race or leaves the
    allocated memory, at least one ends, and all end with [Q]. *)
Theorem C61_V_res_parallel : forall m (R : list F) f,
  mtab m Raw (2 ^ length R) f -> alloc m (Out false) (2 ^ length R) -> alloc m (Out true) (2 ^ length R) ->
  mtab m RZero (length R) (fun j => nth j R 0%F) -> mtab m OneMinusR0 (length R) (fun j => (1 - nth j R 0)%F) ->
  surely (V_res_code (length R) (2 ^ length R)) m
    (fun m' => holds m' (Out (V_res_buffer (length R)), 0) (mle R f)).
Proof. exact V_res_code_ok. Qed.
Print Assumptions C61_V_res_parallel.
(** Eight values: the first round is run by four threads. *)
Definition mem3 : memory := fun l => if snd l <? 8 then
  match fst l with
  | Outside => None
  | OneMinusR0 => Some (Fe (fe_of_int 0))
  | RZero => Some (Fe (fe_of_int 1))
  | _ => Some (Fe (fe_of_int (Z.of_nat (snd l))))
  end else None.
Lemma mem3_at : forall i, i < 8 -> (i <? 8) = true.
Proof. intros i Hi. apply Nat.ltb_lt, Hi. Qed.
Example C61_example : surely (V_res_code 3 8) mem3
  (fun m' => holds m' (Out true, 0) (mle [1%F; 1%F; 1%F] (fun i => ofZ (Z.of_nat i)))).
Proof.
  apply (C61_V_res_parallel mem3 [1%F; 1%F; 1%F]); change (2 ^ length [1%F; 1%F; 1%F]) with 8; cbn [length].
  - intros i Hi. exists (fe_of_int (Z.of_nat i)). split; [unfold mem3; cbn [fst snd]; rewrite mem3_at by exact Hi; reflexivity|].
    do 8 (destruct i as [|i]; [split; [wfc|vm_compute; reflexivity]|]). lia.
  - intros i Hi. unfold mem3. cbn [fst snd]. rewrite mem3_at by exact Hi. discriminate.
  - intros i Hi. unfold mem3. cbn [fst snd]. rewrite mem3_at by exact Hi. discriminate.
  - intros i Hi. exists (fe_of_int 1). split; [unfold mem3; cbn [fst snd]; rewrite mem3_at by lia; reflexivity|].
    destruct i as [|[|[|i]]]; [exact rep_i1|exact rep_i1|exact rep_i1|lia].
  - intros i Hi. exists (fe_of_int 0). split; [unfold mem3; cbn [fst snd]; rewrite mem3_at by lia; reflexivity|].
    apply (rep_eq _ 0%F); [exact rep_i0|]. destruct i as [|[|[|i]]]; [cbn [nth]; ring|cbn [nth]; ring|cbn [nth]; ring|lia].
Qed.

(** ** C62 *)
(** The tables [sumcheck_phase1_init] has to form: for input [u], the sums over
    the addition and multiplication gates with left input [u]. *)
Definition left_add (gs : list gate) (V w : nat -> F) (u : nat) : F :=
  sumn (length gs) (fun g => let x := nth g gs (Gate 2 0 0) in
    if (g_u x =? Z.of_nat u)%Z then if (g_ty x =? 0)%Z then V (Z.to_nat (g_v x)) * w g else 0 else 0)%F.
Definition left_mul (gs : list gate) (V w : nat -> F) (u : nat) : F :=
  sumn (length gs) (fun g => let x := nth g gs (Gate 2 0 0) in
    if (g_u x =? Z.of_nat u)%Z then
      if (g_ty x =? 0)%Z then w g else if (g_ty x =? 1)%Z then V (Z.to_nat (g_v x)) * w g else 0 else 0)%F.
Definition phase1_tables_right (s : bool) (gs : list gate) (b : nat) (V w : nat -> F) (m' : memory) : Prop :=
  mtab m' (Tab s TV Ca) (2 ^ b) (fun _ => 0%F) /\ mtab m' (Tab s TV Cb) (2 ^ b) V /\
  mtab m' (Tab s TA Ca) (2 ^ b) (fun _ => 0%F) /\ mtab m' (Tab s TA Cb) (2 ^ b) (left_add gs V w) /\
  mtab m' (Tab s TM Ca) (2 ^ b) (fun _ => 0%F) /\ mtab m' (Tab s TM Cb) (2 ^ b) (left_mul gs V w).
(** The memory before: the values, the four half tables of the weights
    [a * eq(R0, g) + c * eq(R1, g)], and room for the rest. *)
Definition phase1_ready (s : bool) (b lg : nat) (V : nat -> F) (a c : F) (R0 R1 : list F) (m : memory) : Prop :=
  let h := Nat.shiftr lg 1 in
  mtab m CircuitValue (2 ^ b) V /\ length R0 = lg /\ length R1 = lg /\
  mtab m G0f (2 ^ h) (fun k => a * eqw (firstn h R0) k)%F /\ mtab m G0s (2 ^ (lg - h)) (eqw (skipn h R0)) /\
  mtab m G1f (2 ^ h) (fun k => c * eqw (firstn h R1) k)%F /\ mtab m G1s (2 ^ (lg - h)) (eqw (skipn h R1)) /\
  alloc m BetaGSum (2 ^ lg) /\ forall t k, alloc m (Tab s t k) (2 ^ b).
Definition weights (a c : F) (R0 R1 : list F) (g : nat) : F := (a * eqw R0 g + c * eqw R1 g)%F.

Lemma ready_parts : forall s b lg V a c R0 R1 m, phase1_ready s b lg V a c R0 R1 m ->
  mtab m CircuitValue (2 ^ b) V /\ halves lg (weights a c R0 R1) (Nat.shiftr lg 1) m /\ tabs_alloc s b lg m /\
  (alloc m G0f (2 ^ Nat.shiftr lg 1) /\ alloc m G0s (2 ^ (lg - Nat.shiftr lg 1)) /\
   alloc m G1f (2 ^ Nat.shiftr lg 1) /\ alloc m G1s (2 ^ (lg - Nat.shiftr lg 1))).
Proof.
  intros s b lg V a c R0 R1 m (CV & L0 & L1 & T0 & T1 & T2 & T3 & AG & AT).
  split; [exact CV|]. split; [exact (halves_eqw lg a c R0 R1 m L0 L1 T0 T1 T2 T3)|]. split; [split; assumption|].
  split; [exact (mtab_alloc _ _ _ _ T0)|]. split; [exact (mtab_alloc _ _ _ _ T1)|].
  split; [exact (mtab_alloc _ _ _ _ T2)|exact (mtab_alloc _ _ _ _ T3)].
Qed.
Lemma done_right : forall s gs b lg V w m', phase1_done s gs b lg V w m' -> phase1_tables_right s gs b V w m'.
Proof.
  intros s gs b lg V w m' (A & B & C & D & E & G & _). split; [exact A|]. split; [exact B|]. split; [exact C|].
  split; [|split; [exact E|]].
  - intros u Hu. destruct (D u Hu) as (x & Ex & Rx). exists x. split; [exact Ex|]. eapply rep_eq; [exact Rx|]. apply total_gates.
  - intros u Hu. destruct (G u Hu) as (x & Ex & Rx). exists x. split; [exact Ex|]. eapply rep_eq; [exact Rx|]. apply total_gates.
Qed.

(** With a join after the loop that fills [beta_g_sum]: always right. *)
Theorem C62_phase1_with_barrier : forall s gs b lg V a c R0 R1 m, wired gs b -> length gs = 2 ^ lg ->
  phase1_ready s b lg V a c R0 R1 m ->
  surely [parallel (phase1_tables s b lg); parallel (phase1_wires s gs b)] m
    (phase1_tables_right s gs b V (weights a c R0 R1)).
Proof.
  intros s gs b lg V a c R0 R1 m WD LEN RD. destruct (ready_parts _ _ _ _ _ _ _ _ _ RD) as (CV & HV & AL & HH).
  eapply surely_conseq; [exact (barrier_ok s gs b lg V _ WD LEN m CV HV AL HH)|]. apply done_right.
Qed.
Print Assumptions C62_phase1_with_barrier.
(** As written: right when every gate lies in the same slice of its layer as
    its left input in the layer below, *)
Theorem C62_phase1_aligned : forall s gs b lg V a c R0 R1 m, wired gs b -> length gs = 2 ^ lg ->
  phase1_ready s b lg V a c R0 R1 m ->
  (forall g x, nth_error gs g = Some x -> (g_ty x = 0 \/ g_ty x = 1)%Z ->
     g / block_of (2 ^ lg) = Z.to_nat (g_u x) / block_of (2 ^ b)) ->
  surely [parallel (phase1_init_func s gs b lg)] m (phase1_tables_right s gs b V (weights a c R0 R1)).
Proof.
  intros s gs b lg V a c R0 R1 m WD LEN RD ALI. destruct (ready_parts _ _ _ _ _ _ _ _ _ RD) as (CV & HV & AL & HH).
  eapply surely_conseq; [apply (aligned_ok s gs b lg V _ WD LEN m CV HV AL HH)|apply done_right].
  intros u [[ty g] v] Hu Hx US. cbn [fst snd].
  destruct (u_gates_in gs u ty g v Hx) as (x & E & ET & _ & EU).
  rewrite (ALI g x E), EU, Nat2Z.id; [reflexivity|]. rewrite ET. cbn [used] in US.
  apply orb_true_iff in US. rewrite !Z.eqb_eq in US. exact US.
Qed.
Print Assumptions C62_phase1_aligned.
(** and undefined as soon as one gate does not: all executions race. *)
Theorem C62_phase1_race : forall s gs b lg V a c R0 R1 m, wired gs b -> length gs = 2 ^ lg ->
  phase1_ready s b lg V a c R0 R1 m ->
  (exists g x, nth_error gs g = Some x /\ (g_ty x = 0 \/ g_ty x = 1)%Z /\
     g / block_of (2 ^ lg) <> Z.to_nat (g_u x) / block_of (2 ^ b)) ->
  exec [parallel (phase1_init_func s gs b lg)] m None /\
  (forall tr m' ps', steps loc_eqb NUM_THREADS m (phase1_init_func s gs b lg) tr m' ps' ->
     joined NUM_THREADS ps' -> racy tr).
Proof.
  intros s gs b lg V a c R0 R1 m WD LEN RD EX. destruct (ready_parts _ _ _ _ _ _ _ _ _ RD) as (CV & HV & AL & HH).
  exact (phase1_broken s gs b lg m V WD LEN CV AL HH EX).
Qed.
Print Assumptions C62_phase1_race.
(** The race is not benign: with the threads run one after the other, thread 0
    uses a weight that thread 1 has yet to compute, and a table is wrong. *)
Lemma eqw_one : forall r, eqw [r] 0 = (1 - r)%F /\ eqw [r] 1 = r.
Proof. intro r. unfold eqw. cbn. split; ring. Qed.
Lemma mem1_ready : phase1_ready false 2 2 (fun _ => 1%F) 1 0 [1%F; 0%F] [1%F; 0%F] mem1.
Proof.
  unfold phase1_ready. change (Nat.shiftr 2 1) with 1. change (2 ^ (2 - 1)) with 2. change (2 ^ 1) with 2. change (2 ^ 2) with 4.
  destruct (eqw_one 1) as (E0 & E1). destruct (eqw_one 0) as (Z0 & Z1). cbn [firstn skipn].
  split; [exact mem1_values|]. split; [reflexivity|]. split; [reflexivity|].
  split; [|split; [|split; [|split; [|split]]]].
  - intros [|[|i]] Hi; [exists (fe_of_int 0)|exists (fe_of_int 1)|lia]; (split; [reflexivity|]).
    + apply (rep_eq _ 0%F); [exact rep_i0|rewrite E0; ring].
    + apply (rep_eq _ 1%F); [exact rep_i1|rewrite E1; ring].
  - intros [|[|i]] Hi; [exists (fe_of_int 1)|exists (fe_of_int 0)|lia]; (split; [reflexivity|]).
    + apply (rep_eq _ 1%F); [exact rep_i1|rewrite Z0; ring].
    + apply (rep_eq _ 0%F); [exact rep_i0|rewrite Z1; ring].
  - intros [|[|i]] Hi; [exists (fe_of_int 0)|exists (fe_of_int 0)|lia]; (split; [reflexivity|]);
      (apply (rep_eq _ 0%F); [exact rep_i0|ring]).
  - intros [|[|i]] Hi; [exists (fe_of_int 1)|exists (fe_of_int 0)|lia]; (split; [reflexivity|]).
    + apply (rep_eq _ 1%F); [exact rep_i1|rewrite Z0; ring].
    + apply (rep_eq _ 0%F); [exact rep_i0|rewrite Z1; ring].
  - apply mem1_alloc. discriminate.
  - intros t k. apply mem1_alloc. discriminate.
Qed.
Theorem C62_phase1_stale_refuted : exists gs V a c R0 R1 m m', wired gs 2 /\ length gs = 2 ^ 2 /\
  phase1_ready false 2 2 V a c R0 R1 m /\ finishes loc_eqb NUM_THREADS m (phase1_init_func false gs 2 2) m' /\
  ~ phase1_tables_right false gs 2 V (weights a c R0 R1) m'.
Proof.
  exists gates1, (fun _ => 1%F), 1%F, 0%F, [1%F; 0%F], [1%F; 0%F], mem1, stale.
  split; [exact wired1|]. split; [reflexivity|]. split; [exact mem1_ready|]. split; [exact stale_finishes|].
  intros (_ & _ & _ & _ & _ & T). destruct (T 0 ltac:(cbn; lia)) as (x & E & (_ & V)).
  pose proof stale_value as SV. rewrite E in SV. cbn [option_map as_fe] in SV. injection SV as SV. rewrite SV in V.
  assert (L : left_mul gates1 (fun _ => 1%F) (weights 1 0 [1%F; 0%F] [1%F; 0%F]) 0 = 1%F).
  { unfold left_mul, weights, gates1, eqw. cbn. ring. }
  rewrite L in V. revert V. vm_compute. discriminate.
Qed.
Print Assumptions C62_phase1_stale_refuted.
Example C62_example : wired gates1 2 /\ phase1_ready false 2 2 (fun _ => 1%F) 1 0 [1%F; 0%F] [1%F; 0%F] mem1 /\
  1 / block_of (2 ^ 2) <> Z.to_nat 0 / block_of (2 ^ 2) /\
  wired [Gate 1 0 0; Gate 0 1 3; Gate 1 2 0; Gate 1 3 1] 2.
Proof.
  split; [exact wired1|]. split; [exact mem1_ready|]. split; [discriminate|].
  intros x [<-|[<-|[<-|[<-|[]]]]] _; cbn; lia.
Qed.

(** ** C63 *)
(** Phase 2 reads [beta_u[u]] in the slice of the right input [v] and writes it
    in the slice of [u]. *)
Theorem C63_phase2_race : forall s gs b lu v_u m, wired2 gs b lu -> alloc2 s gs b lu m ->
  (exists g x, nth_error gs g = Some x /\ (g_ty x = 0 \/ g_ty x = 1)%Z /\
     Z.to_nat (g_u x) / block_of (2 ^ lu) <> Z.to_nat (g_v x) / block_of (2 ^ b)) ->
  exec [parallel (phase2_init_func s gs b lu v_u)] m None /\
  (forall tr m' ps', steps loc_eqb NUM_THREADS m (phase2_init_func s gs b lu v_u) tr m' ps' ->
     joined NUM_THREADS ps' -> racy tr).
Proof. intros s gs b lu v_u m WD AL EX. exact (phase2_broken s gs b lu v_u WD m AL EX). Qed.
Print Assumptions C63_phase2_race.
Lemma mem1_alloc2 : forall gs, length gs <= 4 -> alloc2 false gs 2 2 mem1.
Proof.
  intros gs L. unfold alloc2. change (Nat.shiftr 2 1) with 1. change (2 ^ (2 - 1)) with 2. change (2 ^ 1) with 2. change (2 ^ 2) with 4.
  split; [apply mem1_alloc; discriminate|]. split; [apply (alloc_le _ _ 4); [lia|apply mem1_alloc; discriminate]|].
  split; [apply (alloc_le _ _ 4); [lia|apply mem1_alloc; discriminate]|].
  split; [apply (alloc_le _ _ 4); [lia|apply mem1_alloc; discriminate]|].
  split; [apply mem1_alloc; discriminate|]. split; [apply mem1_alloc; discriminate|]. split; [apply mem1_alloc; discriminate|].
  intros t c. apply mem1_alloc. discriminate.
Qed.
Example C63_example : let gs := [Gate 0 0 3] in wired2 gs 2 2 /\ alloc2 false gs 2 2 mem1 /\
  Z.to_nat 0 / block_of (2 ^ 2) <> Z.to_nat 3 / block_of (2 ^ 2).
Proof.
  split; [intros x [<-|[]] _; cbn; lia|]. split; [apply mem1_alloc2; cbn; lia|]. discriminate.
Qed.
(** What it should leave: for the right input [v], the sums over the gates with
    right input [v], [vu] being the claimed value of the left input. *)
Definition right_add (gs : list gate) (wg wu : nat -> F) (vu : F) (v : nat) : F :=
  sumn (length gs) (fun g => let x := nth g gs (Gate 2 0 0) in
    if (g_v x =? Z.of_nat v)%Z then if (g_ty x =? 0)%Z then wg g * wu (Z.to_nat (g_u x)) * vu else 0 else 0)%F.
Definition right_mul (gs : list gate) (wg wu : nat -> F) (vu : F) (v : nat) : F :=
  sumn (length gs) (fun g => let x := nth g gs (Gate 2 0 0) in
    if (g_v x =? Z.of_nat v)%Z then
      if (g_ty x =? 0)%Z then wg g * wu (Z.to_nat (g_u x))
      else if (g_ty x =? 1)%Z then wg g * wu (Z.to_nat (g_u x)) * vu else 0 else 0)%F.
Definition phase2_tables_right (s : bool) (gs : list gate) (b : nat) (V wg wu : nat -> F) (vu : F) (m' : memory) : Prop :=
  mtab m' (Tab s TV Ca) (2 ^ b) (fun _ => 0%F) /\ mtab m' (Tab s TV Cb) (2 ^ b) V /\
  mtab m' (Tab s TA Ca) (2 ^ b) (fun _ => 0%F) /\ mtab m' (Tab s TA Cb) (2 ^ b) (right_add gs wg wu vu) /\
  mtab m' (Tab s TM Ca) (2 ^ b) (fun _ => 0%F) /\ mtab m' (Tab s TM Cb) (2 ^ b) (right_mul gs wg wu vu).
(** The memory before: the values, the weights [beta_g_sum], the half tables of
    [eq(ru, u)], and room for the rest. *)
Definition phase2_ready (s : bool) (gs : list gate) (b lu : nat) (V wg : nat -> F) (ru : list F) (m : memory) : Prop :=
  let h := Nat.shiftr lu 1 in
  mtab m CircuitValue (2 ^ b) V /\ mtab m BetaGSum (length gs) wg /\ length ru = lu /\
  mtab m Uf (2 ^ h) (eqw (firstn h ru)) /\ mtab m Us (2 ^ (lu - h)) (eqw (skipn h ru)) /\ alloc2 s gs b lu m.
(** Right, in all executions, when both inputs of every gate lie in the slices
    of one thread and no right input has more than three additions (any number
    of multiplications is fine). *)
Theorem C63_phase2_aligned : forall s gs b lu V wg ru v_u vu m, wired2 gs b lu -> rep v_u vu ->
  phase2_ready s gs b lu V wg ru m ->
  (forall g x, nth_error gs g = Some x -> (g_ty x = 0 \/ g_ty x = 1)%Z ->
     Z.to_nat (g_u x) / block_of (2 ^ lu) = Z.to_nat (g_v x) / block_of (2 ^ b)) ->
  (forall v, v < 2 ^ b -> length (filter (fun x => (g_ty x =? 0) && (g_v x =? Z.of_nat v))%Z gs) <= 3) ->
  surely [parallel (phase2_init_func s gs b lu v_u)] m (phase2_tables_right s gs b V wg (eqw ru) vu).
Proof.
  intros s gs b lu V wg ru v_u vu m WD Rvu (CV & HG & LR & HF & HS & AL) ALI few.
  eapply surely_conseq; [apply (phase2_ok s gs b lu V wg (eqw ru) v_u vu Rvu WD m CV HG)|].
  - intros i Hi. destruct (half_ranges 0 lu i Hi) as (H1 & H2).
    exists (eqw (firstn (Nat.shiftr lu 1) ru) (Nat.land i (2 ^ Nat.shiftr lu 1 - 1))),
      (eqw (skipn (Nat.shiftr lu 1) ru) (Nat.shiftr i (Nat.shiftr lu 1))).
    split; [apply HF, H1|]. split; [apply HS, H2|].
    rewrite <- (firstn_skipn (Nat.shiftr lu 1) ru) at 3. rewrite eqw_app.
    assert (HL : Nat.shiftr lu 1 <= lu).
    { rewrite shr_div. change (2 ^ 1) with 2. pose proof (Nat.div_le_upper_bound lu 2 lu). lia. }
    rewrite firstn_length, Nat.min_l, land_mask, !shr_div by lia. reflexivity.
  - exact AL.
  - intros v Hv. rewrite adds_count. specialize (few v Hv). lia.
  - exact ALI.
  - intros m' (D & _). split; [intros i Hi; apply (D i Hi)|]. split; [intros i Hi; apply (D i Hi)|].
    split; [intros i Hi; apply (D i Hi)|]. split; [|split; [intros i Hi; apply (D i Hi)|]].
    + intros i Hi. destruct (D i Hi) as (_ & (x & Ex & Rx) & _). exists x. split; [exact Ex|]. eapply rep_eq; [exact Rx|]. apply total_vgates.
    + intros i Hi. destruct (D i Hi) as (_ & _ & (x & Ex & Rx)). exists x. split; [exact Ex|]. eapply rep_eq; [exact Rx|]. apply total_vgates.
Qed.
Print Assumptions C63_phase2_aligned.
(** The memory [mem1] with the half tables of [eq((1, 0), u)] and weights 1. *)
Definition mem1u : memory := fun l => match fst l with
  | Uf => mem1 (G0f, snd l) | Us => mem1 (G0s, snd l) | BetaGSum => mem1 (CircuitValue, snd l) | _ => mem1 l end.
Example C63_aligned_example : let gs := [Gate 0 1 1; Gate 1 1 1; Gate 0 1 1; Gate 1 3 3] in
  surely [parallel (phase2_init_func false gs 2 2 (fe_of_int 1))] mem1u
    (phase2_tables_right false gs 2 (fun _ => 1%F) (fun _ => 1%F) (eqw [1%F; 0%F]) 1).
Proof.
  intro gs. destruct mem1_ready as (R1 & _ & _ & R2 & R3 & _).
  change (Nat.shiftr 2 1) with 1 in *. change (2 ^ (2 - 1)) with 2 in *. change (2 ^ 1) with 2 in *. change (2 ^ 2) with 4 in *.
  apply C63_phase2_aligned.
  - intros x [<-|[<-|[<-|[<-|[]]]]] _; cbn; lia.
  - exact rep_i1.
  - split; [exact R1|]. split; [exact R1|]. split; [reflexivity|]. split; [|split; [exact R3|]].
    + intros i Hi. destruct (R2 i Hi) as (x & E & R). exists x. split; [exact E|]. eapply rep_eq; [exact R|]. cbv beta. change (Nat.shiftr 2 1) with 1. ring.
    + destruct (mem1_alloc2 gs ltac:(cbn; lia)) as (A1 & _ & _ & _ & A5 & A6 & A7 & A8).
      split; [exact A1|]. split; [exact (mtab_alloc _ _ _ _ R2)|]. split; [exact (mtab_alloc _ _ _ _ R3)|].
      split; [exact A1|]. split; [exact A5|]. split; [exact A6|]. split; [exact A7|exact A8].
  - intros [|[|[|[|g]]]] x E _; unfold gs in E; cbn [nth_error] in E; first [discriminate|injection E as <-; reflexivity|destruct g; discriminate].
  - intros v _. etransitivity; [|exact (le_n 3)].
    assert (X : forall p, p (Gate 1 1 1) = false -> p (Gate 1 3 3) = false -> length (filter p gs) <= 2).
    { intros p P1 P2. unfold gs. cbn [filter]. rewrite P1, P2. destruct (p (Gate 0 1 1)); cbn [length]; lia. }
    etransitivity; [apply X; reflexivity|lia].
Qed.
(** Without a race: eight gates on the inputs (0, 0) and reduced tables leave
    an entry that is not a field element, it does not even fit in 256 bits. *)
Theorem C63_phase2_unreduced_refuted : exists gs v_u m m' x,
  (forall y, In y gs -> g_u y = 0%Z /\ g_v y = 0%Z) /\ length gs = 8 /\ reduced v_u /\
  (forall a i y, m (a, i) = Some (Fe y) -> reduced y) /\
  finishes loc_eqb NUM_THREADS m (phase2_init_func false gs 2 2 v_u) m' /\
  m' (Tab false TM Cb, 0) = Some (Fe x) /\ (W256 <= val512 x)%Z.
Proof.
  pose proof heavy_value as HV.
  destruct (heavy (Tab false TM Cb, 0)) as [[x|z]|] eqn:E; cbn [option_map as_fe] in HV; [|exfalso; revert HV; vm_compute; discriminate|discriminate].
  assert (R1 : reduced (fe_of_int 1)) by (split; [wfc|vm_compute; split; congruence]).
  exists gates2, (fe_of_int 1), mem2, heavy, x. split; [|split; [reflexivity|split; [exact R1|split; [|split; [exact heavy_finishes|split; [exact E|]]]]]].
  - intros y Hy. apply repeat_spec in Hy. subst y. split; reflexivity.
  - intros a i y H. unfold mem2 in H. cbn [fst snd] in H. destruct (i <? 8); [|discriminate].
    assert (RT : reduced top) by (split; [wfc|vm_compute; split; congruence]).
    revert RT R1 H. generalize top (fe_of_int 1). intros tp one RT R1 H. clear - RT R1 H.
    destruct a; inversion H; subst; assumption.
  - injection HV as HV. apply Z.ltb_ge in HV. exact HV.
Qed.
Print Assumptions C63_phase2_unreduced_refuted.

(** ** C64 *)
(** Before a round: two linear polynomials [p Ca j * x + p Cb j] per index;
    [value] is the value at the last challenge (the constant in round 0). *)
Definition value (cb : nat) (r : F) (p : table -> comp -> nat -> F) (t : table) (j : nat) : F :=
  if cb =? 0 then p t Cb j else (p t Ca j * r + p t Cb j)%F.
Definition rounds_ready (s : bool) (n : nat) (p : table -> comp -> nat -> F) (m : memory) : Prop :=
  (forall t c, mtab m (Tab s t c) (2 ^ S n) (p t c)) /\ room s n m.
(** After it: the line through the values of two neighbours. *)
Definition rounds_right (s : bool) (n cb : nat) (r : F) (p : table -> comp -> nat -> F) (m' : memory) : Prop :=
  forall t i, i < 2 ^ n -> holds m' (Tab (negb s) t Cb, i) (value cb r p t (2 * i)) /\
    holds m' (Tab (negb s) t Ca, i) (value cb r p t (2 * i + 1) - value cb r p t (2 * i))%F.

Definition cells_of (m : memory) (s : bool) (t : table) (c : comp) (j : nat) : fe :=
  match m (Tab s t c, j) with Some x => as_fe x | None => fe_zero end.
Lemma ready_src : forall s n p m, rounds_ready s n p m ->
  src s n (cells_of m s) m /\ (forall t c j, j < 2 ^ S n -> rep (cells_of m s t c j) (p t c j)).
Proof.
  intros s n p m (T & _). split; intros t c j Hj; destruct (T t c j Hj) as (x & E & R); unfold cells_of; rewrite E; [reflexivity|exact R].
Qed.
Theorem C64_phase1_update : forall s n cb r rF p m, rep r rF -> rounds_ready s n p m ->
  surely (phase1_update_code s (2 ^ S n) cb r) m (rounds_right s n cb rF p).
Proof.
  intros s n cb r rF p m Hr RD. destruct (ready_src s n p m RD) as (S & Hf). destruct RD as (_ & RO).
  eapply surely_conseq; [exact (phase1_update_ok s n cb r _ m S RO)|]. intros m' FO t i Hi. split.
  - exists (newb cb r (cells_of m s) t i). split; [exact (FO t Cb i Hi)|]. exact (newb_rep n cb r rF _ p Hr Hf t i Hi).
  - exists (newa minus1 cb r (cells_of m s) t i). split; [exact (FO t Ca i Hi)|]. exact (newa1_rep n cb r rF _ p Hr Hf t i Hi).
Qed.
Print Assumptions C64_phase1_update.
(** Phase 2 forgets to add the modulus before subtracting. No race, and the
    constants are right, but a slope is right exactly when the integer
    difference is not negative. *)
Theorem C64_phase2_update : forall s n cb r rF p m, rep r rF -> rounds_ready s n p m ->
  surely (phase2_update_code s (2 ^ S n) cb r) m (fun m' => forall t i, i < 2 ^ n ->
    holds m' (Tab (negb s) t Cb, i) (value cb rF p t (2 * i)) /\
    (cb = 0 -> holds m' (Tab (negb s) t Ca, i) (value cb rF p t (2 * i + 1) - value cb rF p t (2 * i))%F) /\
    (cb <> 0 -> (holds m' (Tab (negb s) t Ca, i) (value cb rF p t (2 * i + 1) - value cb rF p t (2 * i))%F <->
       (fz (value cb rF p t (2 * i)) <= fz (p t Ca (2 * i + 1)%nat) * fz rF + fz (p t Cb (2 * i + 1)%nat))%Z))).
Proof.
  intros s n cb r rF p m Hr RD. destruct (ready_src s n p m RD) as (S & Hf). destruct RD as (_ & RO).
  eapply surely_conseq; [exact (phase2_update_ok s n cb r _ m S RO)|]. intros m' FO t i Hi.
  pose proof (newb_rep n cb r rF _ p Hr Hf t i Hi) as RB. pose proof (FO t Ca i Hi) as FA. cbn [newc] in FA. split; [|split].
  - exists (newb cb r (cells_of m s) t i). split; [exact (FO t Cb i Hi)|exact RB].
  - intro Z. exists (newa minus2 cb r (cells_of m s) t i). split; [exact FA|].
    pose proof (newa1_rep n cb r rF _ p Hr Hf t i Hi) as RA. unfold newa in *. rewrite Z in *. exact RA.
  - intro NZ. rewrite <- (newa2_rep n cb r rF _ p Hr Hf t i Hi NZ). split.
    + intros (x & E & R). rewrite FA in E. injection E as <-. exact R.
    + intro R. eexists. split; [exact FA|exact R].
Qed.
Print Assumptions C64_phase2_update.
(** Tables of zeros and one 1 already go wrong. *)
Definition p4 (t : table) (c : comp) (j : nat) : F := match c, j with Cb, 0 => 1%F | _, _ => 0%F end.
Definition mem4 : memory := fun l => if snd l <? 4 then
  match fst l with
  | Outside => None
  | Tab _ _ Cb => Some (Fe (fe_of_int (if snd l =? 0 then 1 else 0)))
  | _ => Some (Fe (fe_of_int 0))
  end else None.
Lemma mem4_ready : forall n, n <= 1 -> rounds_ready false n p4 mem4.
Proof.
  intros n Hn.
  assert (B : 2 ^ n <= 2 /\ 2 ^ S n <= 4) by (destruct n as [|[|n]]; [cbn; lia|cbn; lia|lia]).
  assert (X : forall j, j < 4 -> (j <? 4) = true) by (intros j Hj; apply Nat.ltb_lt, Hj).
  split; [|split].
  - intros t c j Hj. unfold mem4, holds. cbn [fst snd]. rewrite X by lia. destruct c; [exists (fe_of_int 0)|].
    + split; [reflexivity|]. apply (rep_eq _ 0%F); [exact rep_i0|]. destruct j; reflexivity.
    + destruct j as [|j]; [exists (fe_of_int 1)|exists (fe_of_int 0)]; (split; [reflexivity|]); [exact rep_i1|exact rep_i0].
  - intros t c j Hj. unfold mem4. cbn [fst snd]. rewrite X by lia. destruct c; discriminate.
  - intros id Hid. unfold NUM_THREADS in Hid. unfold mem4. cbn [fst snd]. rewrite X by lia. split; [discriminate|]. split; discriminate.
Qed.
Example C64_example : rep (fe_of_int 1) 1%F /\ rounds_ready false 1 p4 mem4.
Proof. split; [exact rep_i1|apply mem4_ready; lia]. Qed.
Theorem C64_phase2_update_refuted : exists s n cb r rF p m, rep r rF /\ rounds_ready s n p m /\
  forall o, exec (phase2_update_code s (2 ^ S n) cb r) m o -> exists m', o = Some m' /\ ~ rounds_right s n cb rF p m'.
Proof.
  exists false, 0, 1, (fe_of_int 0), 0%F, p4, mem4.
  split; [exact rep_i0|]. pose proof (mem4_ready 0 ltac:(lia)) as RD. split; [exact RD|].
  destruct (C64_phase2_update false 0 1 (fe_of_int 0) 0%F p4 mem4 rep_i0 RD) as (A & _).
  intros o E. destruct (A o E) as (m' & -> & H). exists m'. split; [reflexivity|]. intro RR.
  destruct (H TV 0 ltac:(cbn; lia)) as (_ & _ & I2). destruct (RR TV 0 ltac:(cbn; lia)) as (_ & HA).
  apply (proj1 (I2 ltac:(discriminate))) in HA. revert HA. vm_compute. intro HA. apply HA. reflexivity.
Qed.
Print Assumptions C64_phase2_update_refuted.
