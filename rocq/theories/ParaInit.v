(** * Proofs about the multi-threaded prover: races in the initialisations *)
From Coq Require Import ZArith List Bool Arith Lia.
From Verif Require Import Base Limbs Field Fp Poly Circuit Lazy MleSpec TablesProofs FastProver Conc ParaProver ParaProofs ParaPhase1.
Import ListNotations.
Open Scope nat_scope.

(** ** Footprints *)
Section Foot.
Variables (s : bool) (gs : list gate) (b lg : nat).
Let N := 2 ^ b.
Let G := 2 ^ lg.
Let h := Nat.shiftr lg 1.

Definition t_reads (l : loc) : bool :=
  match fst l with
  | CircuitValue => snd l <? N
  | G0f | G1f => snd l <? 2 ^ h
  | G0s | G1s => snd l <? 2 ^ (lg - h)
  | _ => false
  end.
Definition t_writes (id : nat) (l : loc) : bool :=
  match fst l with
  | Tab s' _ _ => Bool.eqb s' s && owns N (snd l) id
  | BetaGSum => owns G (snd l) id
  | _ => false
  end.
Definition w_reads (l : loc) : bool :=
  match fst l with
  | CircuitValue => snd l <? N
  | BetaGSum => snd l <? G
  | _ => false
  end.
Definition w_writes (id : nat) (l : loc) : bool :=
  match fst l with
  | Tab s' t Cb => Bool.eqb s' s && negb (table_eqb t TV) && owns N (snd l) id
  | _ => false
  end.

Lemma owns_unique : forall t i x y, owns t i x = true -> owns t i y = true -> x = y.
Proof. intros t i x y H1 H2. apply owns_spec in H1 as (<- & _). apply owns_spec in H2 as (<- & _). reflexivity. Qed.
Lemma owns_other : forall t i x y, x <> y -> owns t i x = true -> owns t i y = false.
Proof.
  intros t i x y NE H. destruct (owns t i y) eqn:E; [|reflexivity]. destruct (NE (owns_unique _ _ _ _ H E)).
Qed.

Lemma t_separate : separate NUM_THREADS (fun _ => t_reads) t_writes.
Proof.
  intros x y [a j] _ _ NE H. unfold t_reads, t_writes in *. cbn [fst snd] in *.
  destruct a; try discriminate; cbn [orb].
  - exact (owns_other _ _ _ _ NE H).
  - apply andb_true_iff in H as (H1 & H2). rewrite H1. cbn [andb]. exact (owns_other _ _ _ _ NE H2).
Qed.
Lemma w_separate : separate NUM_THREADS (fun _ => w_reads) w_writes.
Proof.
  intros x y [a j] _ _ NE H. unfold w_reads, w_writes in *. cbn [fst snd] in *.
  destruct a as [| | | | | | | | | | | | | |s' t []| | | | |]; try discriminate; cbn [orb].
  apply andb_true_iff in H as (H1 & H2). rewrite H1. cbn [andb]. exact (owns_other _ _ _ _ NE H2).
Qed.

Lemma half_ranges : forall i, i < G -> Nat.land i (2 ^ h - 1) < 2 ^ h /\ Nat.shiftr i h < 2 ^ (lg - h).
Proof.
  intros i Hi. rewrite land_mask, shr_div. pose proof (pow2_pos h).
  split; [apply Nat.mod_upper_bound; lia|]. apply Nat.div_lt_upper_bound; [lia|].
  rewrite <- Nat.pow_add_r. replace (h + (lg - h)) with lg; [exact Hi|].
  unfold h. rewrite shr_div. change (2 ^ 1) with 2. pose proof (Nat.div_le_upper_bound lg 2 lg). lia.
Qed.

Lemma tables_foot : forall id, foot t_reads (t_writes id) (phase1_tables s b lg id).
Proof.
  intro id. unfold phase1_tables. fold N G h. apply foot_andthen.
  - apply foot_slice. intros i Hi. pose proof Hi as Hi'. apply owns_spec in Hi' as (_ & HN).
    assert (K : forall t c, t_writes id (Tab s t c, i) = true).
    { intros t c. unfold t_writes. cbn [fst snd]. rewrite eqb_reflx. exact Hi. }
    unfold reset1, getf, putf. cbn [foot]. split.
    { unfold t_reads. cbn [fst snd]. destruct (Nat.ltb_spec i N); [reflexivity|lia]. }
    intros _. rewrite !K. split; [reflexivity|]. split; [reflexivity|]. split; [reflexivity|].
    split; [reflexivity|]. split; [reflexivity|]. split; [reflexivity|exact I].
  - apply foot_slice. intros i Hi. pose proof Hi as Hi'. apply owns_spec in Hi' as (_ & HG).
    destruct (half_ranges i HG) as (H1 & H2). apply Nat.ltb_lt in H1, H2.
    unfold beta_g_entry, getf, putf. cbn [foot]. unfold t_reads, t_writes. cbn [fst snd]. rewrite H1, H2, Hi.
    split; [reflexivity|]. intros _. split; [reflexivity|]. intros _. split; [reflexivity|]. intros _.
    split; [reflexivity|]. intros _. split; [reflexivity|exact I].
Qed.

Lemma entry_foot : forall R W u x, 
  (used x = true -> let '(_, g, v) := x in (0 <= v)%Z /\ (R (CircuitValue, Z.to_nat v) || W (CircuitValue, Z.to_nat v)) = true /\
      (R (BetaGSum, g) || W (BetaGSum, g)) = true /\ W (Tab s TA Cb, u) = true /\ W (Tab s TM Cb, u) = true) ->
  foot R W (phase1_gate_entry s u x).
Proof.
  intros R W u [[ty g] v] H. unfold phase1_gate_entry, used, getf, putf, getfz in *.
  destruct ty as [|[| |]|]; try exact I; destruct (H eq_refl) as (H0 & H1 & H2 & H3 & H4);
    (destruct (Z.ltb_spec v 0); [lia|]); cbn [foot]; unfold getf; cbn [foot].
  - rewrite H1, H2, H3, H4, !orb_true_r. split; [reflexivity|]. intros _. split; [reflexivity|]. intros _.
    split; [reflexivity|]. intros _. split; [reflexivity|]. split; [reflexivity|]. intros _. split; [reflexivity|].
    intros _. split; [reflexivity|exact I].
  - rewrite H1, H2, H4, !orb_true_r. split; [reflexivity|]. intros _. split; [reflexivity|]. intros _.
    split; [reflexivity|]. intros _. split; [reflexivity|exact I].
Qed.
Lemma each_foot : forall R W u l, (forall x, In x l -> foot R W (phase1_gate_entry s u x)) ->
  foot R W (each l (phase1_gate_entry s u)).
Proof.
  intros R W u l. induction l as [|x l IH]; intro H; cbn [each]; [exact I|].
  apply foot_andthen; [apply H; left; reflexivity|apply IH; intros y Hy; apply H; right; exact Hy].
Qed.

Hypothesis WD : wired gs b.
Hypothesis LEN : length gs = G.

Lemma wires_foot : forall id, foot w_reads (w_writes id) (phase1_wires s gs b id).
Proof.
  intro id. unfold phase1_wires, slice_open. fold N. apply foot_pfor. intros u Hu. apply each_foot.
  intros [[ty g] v] Hx. apply entry_foot. intro US.
  destruct (u_gates_out gs b lg _ eq_refl u ty g v WD Hx US) as (Hu' & Hv & Hg). fold N in Hu', Hv.
  assert (OW : owns N u id = true) by (apply owns_spec; split; [apply in_block; lia|exact Hu']).
  unfold w_reads, w_writes. cbn [fst snd table_eqb negb andb]. rewrite eqb_reflx, OW, !orb_false_r.
  split; [lia|]. split; [apply Nat.ltb_lt; lia|]. split; [apply Nat.ltb_lt; lia|]. split; reflexivity.
Qed.

(** Every used gate is formed and read by one thread. *)
Definition aligned : Prop := forall u x, u < N -> In x (u_gates gs u) -> used x = true ->
  snd (fst x) / block_of G = u / block_of N.

Lemma aligned_foot : aligned -> forall id, foot t_reads (t_writes id) (phase1_init_func s gs b lg id).
Proof.
  intros AL id. apply foot_andthen; [apply tables_foot|].
  unfold phase1_wires, slice_open. fold N. apply foot_pfor. intros u Hu. apply each_foot.
  intros [[ty g] v] Hx. apply entry_foot. intro US.
  destruct (u_gates_out gs b lg _ eq_refl u ty g v WD Hx US) as (Hu' & Hv & Hg). fold N in Hu', Hv.
  assert (OW : owns N u id = true) by (apply owns_spec; split; [apply in_block; lia|exact Hu']).
  assert (OG : owns G g id = true).
  { apply owns_spec. split; [|lia]. pose proof (AL u _ Hu' Hx US) as E. cbn [fst snd] in E. rewrite E. apply in_block. lia. }
  unfold t_reads, t_writes. cbn [fst snd]. rewrite eqb_reflx, OW, OG, !orb_false_r.
  split; [lia|]. split; [apply Nat.ltb_lt; lia|]. split; [reflexivity|]. split; reflexivity.
Qed.

(** ** Without alignment every execution has a race *)
Lemma each_always : forall a u l x, In x l -> always a (phase1_gate_entry s u x) -> always a (each l (phase1_gate_entry s u)).
Proof.
  intros a u l x. induction l as [|y l IH]; intros H A; [destruct H|]. cbn [each]. destruct H as [->|H].
  - apply always_left, A.
  - apply always_right, IH; assumption.
Qed.
Lemma entry_reads_beta : forall u ty g v, used (ty, g, v) = true ->
  always (ARd (BetaGSum, g)) (phase1_gate_entry s u (ty, g, v)).
Proof.
  intros u ty g v US. unfold phase1_gate_entry, used, getf, putf, getfz in *.
  destruct ty as [|[| |]|]; try discriminate; destruct (v <? 0)%Z; cbn [always]; unfold getf; cbn [always];
    (right; intros _; right; intros _; left; reflexivity).
Qed.
Lemma misaligned_race : forall g x, nth_error gs g = Some x -> (g_ty x = 0 \/ g_ty x = 1)%Z ->
  g / block_of G <> Z.to_nat (g_u x) / block_of N ->
  forall m tr m' ps', steps loc_eqb NUM_THREADS m (phase1_init_func s gs b lg) tr m' ps' ->
  joined NUM_THREADS ps' -> racy tr.
Proof.
  intros g x E T NE.
  assert (Hg : g < G) by (rewrite <- LEN; apply nth_error_Some; rewrite E; discriminate).
  destruct (WD x (nth_error_In _ _ E) T) as (Hu & _). fold N in Hu. set (u := Z.to_nat (g_u x)) in *.
  assert (HU : u < N) by lia.
  intros m. eapply (unavoidable_race loc_eqb NUM_THREADS m _ (g / block_of G) (u / block_of N)
     (AWr (BetaGSum, g)) (ARd (BetaGSum, g))).
  - apply owner_lt, Hg.
  - apply owner_lt, HU.
  - unfold phase1_init_func, phase1_tables. apply always_left, always_right. fold G.
    apply (always_slice _ _ _ _ g); [apply owns_spec; split; [reflexivity|exact Hg]|].
    unfold beta_g_entry, getf, putf. cbn [always]. right. intros _. right. intros _. right. intros _. right. intros _.
    left. reflexivity.
  - unfold phase1_init_func. apply always_right. unfold phase1_wires, slice_open. fold N.
    apply (always_pfor _ _ _ _ u).
    + assert (B : u / block_of N * block_of N <= u < (u / block_of N + 1) * block_of N) by (apply in_block; reflexivity). lia.
    + apply (each_always _ u _ (g_ty x, g, g_v x)).
      * unfold u_gates. apply in_flat_map. exists (g, x). split.
        -- clear - E. assert (X : forall l k i, nth_error l i = Some x -> In (k + i, x) (combine (seq k (length l)) l)).
           { induction l as [|y l IH]; intros k [|i] H; cbn [nth_error] in H; try discriminate; cbn [length seq combine].
             - injection H as ->. rewrite Nat.add_0_r. left. reflexivity.
             - right. rewrite Nat.add_succ_r. apply (IH (S k) i H). }
           apply (X gs 0 g E).
        -- destruct (Z.eqb_spec (g_u x) (Z.of_nat u)); [left; reflexivity|lia].
      * apply entry_reads_beta. unfold used. destruct T as [->| ->]; reflexivity.
  - split; [cbn [fst]; exact NE|]. split; reflexivity.
Qed.
End Foot.

(** ** Correct tables when the two parts are separated by a join, or aligned *)
Section Correct.
Variables (s : bool) (gs : list gate) (b lg : nat) (V w : nat -> F).
Let N := 2 ^ b.
Let G := 2 ^ lg.
Let h := Nat.shiftr lg 1.
Hypothesis WD : wired gs b.
Hypothesis LEN : length gs = G.
Variable m : memory.
Hypothesis CV : mtab m CircuitValue N V.
Hypothesis HV : halves lg w h m.
Hypothesis AL : tabs_alloc s b lg m.
Hypothesis HH : alloc m G0f (2 ^ h) /\ alloc m G0s (2 ^ (lg - h)) /\ alloc m G1f (2 ^ h) /\ alloc m G1s (2 ^ (lg - h)).

Lemma t_covers : covers NUM_THREADS (fun _ => t_reads b lg) (t_writes s b lg) m.
Proof.
  destruct AL as (AG & AT). destruct HH as (H0 & H1 & H2 & H3).
  intros id [a j] _ H. apply orb_true_iff in H as [H|H]; unfold t_reads, t_writes in H; cbn [fst snd] in H.
  - destruct a; try discriminate; apply Nat.ltb_lt in H.
    + exact (holds_some _ _ _ (CV j H)).
    + apply H0, H.
    + apply H1, H.
    + apply H2, H.
    + apply H3, H.
  - destruct a as [| | | | | | | | | | | | | |s' t c| | | | |]; try discriminate.
    + apply owns_spec in H as (_ & H). apply AG, H.
    + apply andb_true_iff in H as (E & H). apply eqb_prop in E. subst s'. apply owns_spec in H as (_ & H). apply AT, H.
Qed.

(** The tables [sumcheck_phase1_init] has to leave. *)
Definition phase1_done (m' : memory) : Prop :=
  mtab m' (Tab s TV Ca) N (fun _ => 0%F) /\ mtab m' (Tab s TV Cb) N V /\
  mtab m' (Tab s TA Ca) N (fun _ => 0%F) /\ mtab m' (Tab s TA Cb) N (fun u => total (termA V w) (u_gates gs u)) /\
  mtab m' (Tab s TM Ca) N (fun _ => 0%F) /\ mtab m' (Tab s TM Cb) N (fun u => total (termM V w) (u_gates gs u)) /\
  mtab m' BetaGSum G w.

Definition tables_done (m' : memory) : Prop :=
  (forall i, i < N -> clean s V m' i) /\ mtab m' BetaGSum G w /\
  (forall l, (forall t c i, l <> (Tab s t c, i)) -> (forall i, l <> (BetaGSum, i)) -> m' l = m l).

Lemma owner_owns : forall k i, i < 2 ^ k -> owns (2 ^ k) i (i / block_of (2 ^ k)) = true.
Proof. intros k i H. apply owns_spec. split; [reflexivity|exact H]. Qed.

Lemma tables_phase : good NUM_THREADS (phase1_tables s b lg) m tables_done.
Proof.
  apply (good_sep NUM_THREADS (fun _ => t_reads b lg) (t_writes s b lg) _ _ (tables_post s b lg V w m)).
  - apply t_separate.
  - intros id _. apply tables_foot.
  - exact t_covers.
  - intros id _. apply (tables_ok s b lg V w h eq_refl m id CV HV AL).
  - intros m' A B. split; [|split].
    + intros i Hi. pose proof (owner_owns b i Hi) as OW. pose proof (owner_lt b i Hi) as OL. fold N in OW, OL.
      assert (X : forall t c f, (forall id mi, tables_post s b lg V w m id mi -> owns N i id = true -> holds mi (Tab s t c, i) f) ->
                holds m' (Tab s t c, i) f).
      { intros t c f H. destruct (A _ (Tab s t c, i) OL) as (mi & T & E).
        - unfold t_writes. cbn [fst snd]. rewrite eqb_reflx. exact OW.
        - eapply holds_eq; [exact E|]. exact (H _ _ T OW). }
      split; [apply X; intros id mi (T & _) O1; apply (T i O1)|].
      split; [apply X; intros id mi (T & _) O1; apply (T i O1)|].
      split; [apply X; intros id mi (T & _) O1; apply (T i O1)|].
      split; [apply X; intros id mi (T & _) O1; apply (T i O1)|].
      split; [apply X; intros id mi (T & _) O1; apply (T i O1)|apply X; intros id mi (T & _) O1; apply (T i O1)].
    + intros i Hi. pose proof (owner_owns lg i Hi) as OW. pose proof (owner_lt lg i Hi) as OL.
      destruct (A _ (BetaGSum, i) OL) as (mi & (_ & T & _) & E); [exact OW|].
      eapply holds_eq; [exact E|]. apply T, OW.
    + intros [a j] H1 H2. apply B. intros id _. unfold t_writes. cbn [fst snd].
      destruct a; try reflexivity; [destruct (H2 j eq_refl)|].
      destruct (Bool.eqb_spec s0 s) as [->|]; [destruct (H1 t c j eq_refl)|reflexivity].
Qed.

Lemma w_covers : forall m1, tables_done m1 -> covers NUM_THREADS (fun _ => w_reads b lg) (w_writes s b) m1.
Proof.
  intros m1 (C & T & U) id [a j] _ H. apply orb_true_iff in H as [H|H]; unfold w_reads, w_writes in H; cbn [fst snd] in H.
  - destruct a; try discriminate; apply Nat.ltb_lt in H.
    + rewrite U by discriminate. exact (holds_some _ _ _ (CV j H)).
    + exact (holds_some _ _ _ (T j H)).
  - destruct a as [| | | | | | | | | | | | | |s' t []| | | | |]; try discriminate.
    apply andb_true_iff in H as (E & H). apply andb_true_iff in E as (E & _). apply eqb_prop in E. subst s'.
    apply owns_spec in H as (_ & H). destruct (C j H) as (C1 & C2 & C3 & C4 & C5 & C6).
    destruct t; [exact (holds_some _ _ _ C2)|exact (holds_some _ _ _ C4)|exact (holds_some _ _ _ C6)].
Qed.

Lemma wires_phase : forall m1, tables_done m1 -> good NUM_THREADS (phase1_wires s gs b) m1 phase1_done.
Proof.
  intros m1 TD. pose proof TD as (C & T & U).
  apply (good_sep NUM_THREADS (fun _ => w_reads b lg) (w_writes s b) _ _ (wires_post s gs b V w m1)).
  - apply w_separate.
  - intros id _. apply (wires_foot s gs b lg WD LEN).
  - exact (w_covers m1 TD).
  - intros id _. apply (wires_ok s gs b lg V w _ eq_refl m1 id WD).
    + intros i Hi. eapply holds_eq; [apply U; discriminate|apply CV, Hi].
    + intros u Hu. apply owns_spec in Hu as (_ & Hu). destruct (C u Hu) as (_ & _ & _ & C4 & _ & C6). split; assumption.
    + intros u [[ty g] v] Hu Hx US. cbn [fst snd]. apply T.
      destruct (u_gates_out gs b lg _ eq_refl u ty g v WD Hx US) as (_ & _ & Hg). fold G. lia.
  - intros m' A B.
    assert (X : forall t f, table_eqb t TV = false ->
       (forall id mi u, wires_post s gs b V w m1 id mi -> owns N u id = true -> holds mi (Tab s t Cb, u) (f u)) ->
       mtab m' (Tab s t Cb) N f).
    { intros t f Ht H i Hi. pose proof (owner_owns b i Hi) as OW. pose proof (owner_lt b i Hi) as OL.
      destruct (A _ (Tab s t Cb, i) OL) as (mi & T1 & E).
      - unfold w_writes. cbn [fst snd]. rewrite eqb_reflx, Ht. exact OW.
      - eapply holds_eq; [exact E|]. exact (H _ _ _ T1 OW). }
    assert (Y : forall l, (match fst l with Tab _ t Cb => table_eqb t TV | _ => true end) = true -> m' l = m1 l).
    { intros [a j] Hl. apply B. intros id _. unfold w_writes. cbn [fst snd] in *.
      destruct a as [| | | | | | | | | | | | | |s' t []| | | | |]; try reflexivity. rewrite Hl, andb_false_r. reflexivity. }
    split; [intros i Hi; eapply holds_eq; [apply Y; reflexivity|apply (C i Hi)]|].
    split; [intros i Hi; eapply holds_eq; [apply Y; reflexivity|apply (C i Hi)]|].
    split; [intros i Hi; eapply holds_eq; [apply Y; reflexivity|apply (C i Hi)]|].
    split; [apply X; [reflexivity|]; intros id mi u (T1 & _) O1; apply (T1 u O1)|].
    split; [intros i Hi; eapply holds_eq; [apply Y; reflexivity|apply (C i Hi)]|].
    split; [apply X; [reflexivity|]; intros id mi u (T1 & _) O1; apply (T1 u O1)|].
    intros i Hi. eapply holds_eq; [apply Y; reflexivity|apply T, Hi].
Qed.

(** With a join between the second and the third loop. *)
Lemma barrier_ok : surely [parallel (phase1_tables s b lg); parallel (phase1_wires s gs b)] m phase1_done.
Proof.
  eapply surely_cons; [exact tables_phase|]. intros m1 T.
  eapply surely_cons; [exact (wires_phase m1 T)|]. intros m2 D. apply surely_nil, D.
Qed.

(** As written, for an aligned layer. *)
Lemma aligned_ok : aligned gs b lg -> surely [parallel (phase1_init_func s gs b lg)] m phase1_done.
Proof.
  intros ALI. eapply surely_cons; [|intros m2 D; apply surely_nil, D].
  apply (good_sep NUM_THREADS (fun _ => t_reads b lg) (t_writes s b lg) _ _
     (fun id m' => exists m1, tables_post s b lg V w m id m1 /\ wires_post s gs b V w m1 id m')).
  - apply t_separate.
  - intros id _. apply (aligned_foot s gs b lg WD LEN ALI).
  - exact t_covers.
  - intros id _. unfold phase1_init_func.
    eapply ends_andthen; [apply (tables_ok s b lg V w h eq_refl m id CV HV AL)|].
    intros m1 T. pose proof T as (C & BG & U).
    eapply ends_conseq; [apply (wires_ok s gs b lg V w _ eq_refl m1 id WD)|].
    + intros i Hi. eapply holds_eq; [apply U; discriminate|apply CV, Hi].
    + intros u Hu. destruct (C u Hu) as (_ & _ & _ & C4 & _ & C6). split; assumption.
    + intros u [[ty g] v] Hu Hx US. cbn [fst snd]. apply BG.
      destruct (u_gates_out gs b lg _ eq_refl u ty g v WD Hx US) as (Hu' & _ & Hg).
      apply owns_spec. split; [|fold G in LEN; lia].
      pose proof (ALI u _ Hu' Hx US) as E. cbn [fst snd] in E. fold G N in E. fold G. rewrite E.
      apply owns_spec in Hu as (Hu & _). exact Hu.
    + intros m2 W. exists m1. split; assumption.
  - intros m' A B.
    assert (X : forall t c f, (forall id mi u, (exists m1, tables_post s b lg V w m id m1 /\ wires_post s gs b V w m1 id mi) ->
                  owns N u id = true -> holds mi (Tab s t c, u) (f u)) -> mtab m' (Tab s t c) N f).
    { intros t c f H i Hi. pose proof (owner_owns b i Hi) as OW. pose proof (owner_lt b i Hi) as OL.
      destruct (A _ (Tab s t c, i) OL) as (mi & T1 & E).
      - unfold t_writes. cbn [fst snd]. rewrite eqb_reflx. exact OW.
      - eapply holds_eq; [exact E|]. exact (H _ _ _ T1 OW). }
    assert (Y : forall t c f, c = Ca \/ t = TV -> (forall id mi u, tables_post s b lg V w m id mi -> owns N u id = true -> holds mi (Tab s t c, u) (f u)) ->
                mtab m' (Tab s t c) N f).
    { intros t c f TC H. apply X. intros id mi u (m1 & T & W) O1. destruct W as (_ & W).
      eapply holds_eq; [apply W; intros u' _; split; intros [= E1 E2]; destruct TC; congruence|].
      exact (H _ _ _ T O1). }
    split; [apply Y; [auto|]; intros id mi u (T & _) O1; apply (T u O1)|].
    split; [apply Y; [auto|]; intros id mi u (T & _) O1; apply (T u O1)|].
    split; [apply Y; [auto|]; intros id mi u (T & _) O1; apply (T u O1)|].
    split; [apply X; intros id mi u (m1 & _ & (W & _)) O1; apply (W u O1)|].
    split; [apply Y; [auto|]; intros id mi u (T & _) O1; apply (T u O1)|].
    split; [apply X; intros id mi u (m1 & _ & (W & _)) O1; apply (W u O1)|].
    intros i Hi. pose proof (owner_owns lg i Hi) as OW. pose proof (owner_lt lg i Hi) as OL.
    destruct (A _ (BetaGSum, i) OL) as (mi & (m1 & (_ & T & _) & (_ & W)) & E); [exact OW|].
    eapply holds_eq; [exact E|]. eapply holds_eq; [apply W; intros u' _; split; discriminate|]. apply T, OW.
Qed.
End Correct.

(** ** Sums over the gates *)
Lemma total_gates : forall gs u (t : Z * nat * Z -> F),
  total t (u_gates gs u) = sumn (length gs) (fun g => let x := nth g gs (Gate 2 0 0) in
    if (g_u x =? Z.of_nat u)%Z then t (g_ty x, g, g_v x) else 0%F).
Proof.
  intros gs u t. unfold u_gates.
  assert (app : forall l l', total t (l ++ l') = (total t l + total t l')%F).
  { induction l as [|x l IH]; intro l'; cbn [total app]; [ring|]. rewrite IH. ring. }
  assert (X : forall k l, total t (flat_map (fun gt : nat * gate => let '(g, x) := gt in
      if (g_u x =? Z.of_nat u)%Z then [(g_ty x, g, g_v x)] else []) (combine (seq k (length l)) l)) =
     sumn (length l) (fun g => let x := nth g l (Gate 2 0 0) in
       if (g_u x =? Z.of_nat u)%Z then t (g_ty x, k + g, g_v x) else 0%F)).
  { intros k l. revert k. induction l as [|x l IH]; intro k; cbn [length seq combine flat_map]; [reflexivity|].
    rewrite app, IH. change (S (length l)) with (1 + length l). rewrite sumn_app. cbn [sumn nth]. rewrite Nat.add_0_r.
    f_equal.
    - destruct (g_u x =? Z.of_nat u)%Z; cbn [total]; ring.
    - apply sumn_ext. intros g _. cbn [Nat.add nth]. rewrite Nat.add_succ_r. reflexivity. }
  rewrite X. apply sumn_ext. intros g _. reflexivity.
Qed.

(** ** The half tables *)
Lemma halves_eqw : forall lg a c R0 R1 m, length R0 = lg -> length R1 = lg ->
  let h := Nat.shiftr lg 1 in
  mtab m G0f (2 ^ h) (fun k => a * eqw (firstn h R0) k)%F -> mtab m G0s (2 ^ (lg - h)) (eqw (skipn h R0)) ->
  mtab m G1f (2 ^ h) (fun k => c * eqw (firstn h R1) k)%F -> mtab m G1s (2 ^ (lg - h)) (eqw (skipn h R1)) ->
  halves lg (fun g => a * eqw R0 g + c * eqw R1 g)%F h m.
Proof.
  intros lg a c R0 R1 m L0 L1 h T0 T1 T2 T3 i Hi.
  destruct (half_ranges 0 lg i Hi) as (H1 & H2). fold h in H1, H2.
  destruct (T0 _ H1) as (x0 & E0 & X0). destruct (T1 _ H2) as (x1 & E1 & X1).
  destruct (T2 _ H1) as (x2 & E2 & X2). destruct (T3 _ H2) as (x3 & E3 & X3).
  exists x0, x1, x2, x3. split; [exact E0|]. split; [exact E1|]. split; [exact E2|]. split; [exact E3|].
  assert (Hl : h <= lg).
  { unfold h. rewrite shr_div. change (2 ^ 1) with 2. pose proof (Nat.div_le_upper_bound lg 2 lg). lia. }
  assert (S0 : forall R, length R = lg -> eqw R i = (eqw (firstn h R) (Nat.land i (2 ^ h - 1)) * eqw (skipn h R) (Nat.shiftr i h))%F).
  { intros R L. rewrite <- (firstn_skipn h R) at 1. rewrite eqw_app.
    rewrite firstn_length, Nat.min_l, land_mask, shr_div by lia. reflexivity. }
  rewrite (S0 R0 L0), (S0 R1 L1). lzr.
Qed.
