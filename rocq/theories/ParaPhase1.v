(** * Proofs about the multi-threaded prover: the tables of phase 1 *)
From Coq Require Import ZArith List Bool Arith Lia.
From Verif Require Import Base Limbs Field Fp Poly Circuit Lazy MleSpec TablesProofs FastProver Conc ParaProver ParaProofs.
Import ListNotations.
Open Scope nat_scope.

(** ** Slices *)
Lemma block_pos : forall total, 0 < block_of total.
Proof. intro t. unfold block_of. destruct (Nat.eqb_spec (t / NUM_THREADS) 0); lia. Qed.
(** Thread [id] owns index [i]. *)
Definition owns (total i id : nat) : bool := (i / block_of total =? id) && (i <? total).
Lemma owns_spec : forall total i id, owns total i id = true <-> i / block_of total = id /\ i < total.
Proof. intros. unfold owns. rewrite andb_true_iff, Nat.eqb_eq, Nat.ltb_lt. reflexivity. Qed.
Lemma in_block : forall total i id, id * block_of total <= i < (id + 1) * block_of total <-> i / block_of total = id.
Proof.
  intros total i id. pose proof (block_pos total) as P. set (bs := block_of total) in *. split.
  - intros H. symmetry. apply (Nat.div_unique i bs id (i - id * bs)); lia.
  - intros <-. pose proof (Nat.div_mod i bs ltac:(lia)). pose proof (Nat.mod_upper_bound i bs ltac:(lia)). nia.
Qed.
Lemma owner_lt : forall k i, i < 2 ^ k -> i / block_of (2 ^ k) < NUM_THREADS.
Proof.
  intros k i H. apply Nat.div_lt_upper_bound; [pose proof (block_pos (2 ^ k)); lia|].
  unfold block_of. destruct (Nat.eqb_spec (2 ^ k / NUM_THREADS) 0) as [E|E].
  - assert (2 ^ k < NUM_THREADS); [|lia].
    destruct (Nat.lt_ge_cases (2 ^ k) NUM_THREADS) as [|G]; [assumption|].
    pose proof (Nat.div_str_pos (2 ^ k) NUM_THREADS ltac:(unfold NUM_THREADS in *; lia)). lia.
  - assert (Hk : 2 <= k).
    { destruct k as [|[|k']]; [destruct E; reflexivity|destruct E; reflexivity|lia]. }
    pose proof (split_quarters k Hk) as Q. rewrite Nat.mul_comm, <- Q. exact H.
Qed.
Lemma owner_block : forall k, 2 <= k -> block_of (2 ^ k) = 2 ^ (k - 2).
Proof.
  intros k H. unfold block_of, NUM_THREADS.
  assert (E : 2 ^ k = 2 ^ (k - 2) * 4).
  { change 4 with (2 ^ 2). rewrite <- Nat.pow_add_r. f_equal. lia. }
  rewrite E, Nat.div_mul by lia. pose proof (pow2_pos (k - 2)). destruct (Nat.eqb_spec (2 ^ (k - 2)) 0); lia.
Qed.

(** Indices [st .. cur - 1] are done. *)
Lemma ends_slice : forall total id body (I : nat -> memory -> Prop) (m : memory),
  I (id * block_of total) m ->
  (forall i m', owns total i id = true -> I i m' -> ends loc_eqb (body i) m' (I (S i))) ->
  ends loc_eqb (slice total id body) m (fun m' => exists e, I e m' /\
     forall i, id * block_of total <= i < e <-> owns total i id = true).
Proof.
  intros total id body I m H0 HS. unfold slice.
  set (bs := block_of total) in *. set (ed := Nat.min ((id + 1) * bs) total).
  eapply ends_conseq; [apply (ends_pfor _ _ _ _ I m H0)|].
  - intros i m' Hi. apply HS. apply owns_spec. split; [apply in_block; fold bs; lia|lia].
  - intros m' H. exists (id * bs + (ed - id * bs)). split; [exact H|].
    intro i. rewrite owns_spec, <- in_block. fold bs. lia.
Qed.
Lemma foot_slice : forall R W total id body, (forall i, owns total i id = true -> foot R W (body i)) ->
  foot R W (slice total id body).
Proof.
  intros R W total id body H. unfold slice. apply foot_pfor. intros i Hi. apply H. apply owns_spec.
  split; [apply in_block; lia|lia].
Qed.
Lemma always_slice : forall a total id body i, owns total i id = true -> always a (body i) ->
  always (L := loc) (V := cell) a (slice total id body).
Proof.
  intros a total id body i H A. unfold slice. apply owns_spec in H as (H1 & H2). apply in_block in H1.
  apply (always_pfor a _ _ _ i); [lia|exact A].
Qed.

Ltac neq := let E := fresh in intro E; inversion E; congruence.
Ltac cells := repeat (rewrite puta_other by neq).
Ltac cell := first [apply puta_same | rewrite puta_other by neq; cell].

(** ** The layer *)
Section Layer.
Variables (s : bool) (gs : list gate) (b lg : nat) (V w : nat -> F) (h : nat).
Let N := 2 ^ b.
Let G := 2 ^ lg.
Hypothesis Hh : h = Nat.shiftr lg 1.

(** What a thread needs to form [beta_g_sum]. *)
Definition halves (m : memory) : Prop := forall i, i < G -> exists x0 x1 x2 x3,
  m (G0f, Nat.land i (2 ^ h - 1)) = Some (Fe x0) /\ m (G0s, Nat.shiftr i h) = Some (Fe x1) /\
  m (G1f, Nat.land i (2 ^ h - 1)) = Some (Fe x2) /\ m (G1s, Nat.shiftr i h) = Some (Fe x3) /\
  rep (u512_mod (u512_add (u512_mul x0 x1) (u512_mul x2 x3))) (w i).
Definition tabs_alloc (m : memory) : Prop := alloc m BetaGSum G /\ forall t c, alloc m (Tab s t c) N.

Definition clean (m : memory) (i : nat) : Prop :=
  holds m (Tab s TV Ca, i) 0%F /\ holds m (Tab s TV Cb, i) (V i) /\
  holds m (Tab s TA Ca, i) 0%F /\ holds m (Tab s TA Cb, i) 0%F /\
  holds m (Tab s TM Ca, i) 0%F /\ holds m (Tab s TM Cb, i) 0%F.
Lemma clean_eq : forall m m' i, (forall t c, m' (Tab s t c, i) = m (Tab s t c, i)) -> clean m i -> clean m' i.
Proof.
  intros m m' i E (C1 & C2 & C3 & C4 & C5 & C6).
  split; [eapply holds_eq; [apply E|exact C1]|]. split; [eapply holds_eq; [apply E|exact C2]|].
  split; [eapply holds_eq; [apply E|exact C3]|]. split; [eapply holds_eq; [apply E|exact C4]|].
  split; [eapply holds_eq; [apply E|exact C5]|eapply holds_eq; [apply E|exact C6]].
Qed.

(** The first two loops of thread [id]. *)
Definition tables_post (m : memory) (id : nat) (m' : memory) : Prop :=
  (forall i, owns N i id = true -> clean m' i) /\
  (forall i, owns G i id = true -> holds m' (BetaGSum, i) (w i)) /\
  (forall l, (forall t c i, owns N i id = true -> l <> (Tab s t c, i)) ->
             (forall i, owns G i id = true -> l <> (BetaGSum, i)) -> m' l = m l).

Lemma tables_ok : forall m id, mtab m CircuitValue N V -> halves m -> tabs_alloc m ->
  ends loc_eqb (phase1_tables s b lg id) m (tables_post m id).
Proof.
  intros m id CV HV (AG & AT). unfold phase1_tables. rewrite <- Hh. fold N G.
  eapply ends_andthen.
  - apply (ends_slice N id (reset1 s) (fun cur m' =>
      (forall i, id * block_of N <= i < cur -> clean m' i) /\
      (forall l, (forall t c i, id * block_of N <= i < cur -> l <> (Tab s t c, i)) -> m' l = m l))).
    + split; [intros; lia|reflexivity].
    + intros i m' Hi (C & U). apply owns_spec in Hi as (Hi & HN). unfold reset1.
      assert (AT' : forall t c, m' (Tab s t c, i) <> None).
      { intros t c. destruct (Nat.lt_ge_cases i i) as [|_]; [lia|].
        rewrite U; [apply AT, HN|]. intros t' c' i' Hi' E. inversion E. lia. }
      eapply ends_holds; [eapply holds_eq; [apply U; discriminate|apply CV, HN]|]. intros x Rx.
      do 6 (apply ends_putf; [repeat apply put_some; apply AT'|]).
      apply ends_ret. split.
      * intros i' Hi'. destruct (Nat.eq_dec i' i) as [->|NE].
        -- split; [eexists; split; [cell|exact rep_i0]|].
           split; [eexists; split; [cell|exact Rx]|].
           split; [eexists; split; [cell|exact rep_i0]|].
           split; [eexists; split; [cell|exact rep_i0]|].
           split; [eexists; split; [cell|exact rep_i0]|eexists; split; [cell|exact rep_i0]].
        -- eapply clean_eq; [|apply C; lia]. intros t c. cells. reflexivity.
      * intros l Hl.
        assert (D : forall t c, (Tab s t c, i) <> l).
        { intros t c E. apply (Hl t c i); [|symmetry; exact E]. apply in_block in Hi. lia. }
        rewrite !puta_other by apply D. apply U. intros t c i' Hi'. apply Hl. lia.
  - intros m1 (e & (C1 & U1) & E1).
    assert (U1' : forall l, (forall t c i, owns N i id = true -> l <> (Tab s t c, i)) -> m1 l = m l).
    { intros l Hl. apply U1. intros t c i Hi. apply Hl, E1, Hi. }
    eapply ends_conseq.
    + apply (ends_slice G id (beta_g_entry h) (fun cur m' =>
        (forall i, id * block_of G <= i < cur -> holds m' (BetaGSum, i) (w i)) /\
        (forall l, (forall i, id * block_of G <= i < cur -> l <> (BetaGSum, i)) -> m' l = m1 l))).
      * split; [intros; lia|reflexivity].
      * intros i m' Hi (B & U). apply owns_spec in Hi as (Hi & HG).
        destruct (HV i HG) as (x0 & x1 & x2 & x3 & X0 & X1 & X2 & X3 & RW).
        unfold beta_g_entry.
        eapply ends_getf; [rewrite U, U1' by discriminate; exact X0|].
        eapply ends_getf; [rewrite U, U1' by discriminate; exact X1|].
        eapply ends_getf; [rewrite U, U1' by discriminate; exact X2|].
        eapply ends_getf; [rewrite U, U1' by discriminate; exact X3|].
        apply ends_putf.
        { rewrite U by (intros i' Hi' E; injection E as E; lia). rewrite U1' by discriminate. apply AG, HG. }
        apply ends_ret. split.
        -- intros i' Hi'. destruct (Nat.eq_dec i' i) as [->|NE]; [eexists; split; [apply puta_same|exact RW]|].
           eapply holds_eq; [apply puta_other; intros [= E]; lia|]. apply B. lia.
        -- intros l Hl. rewrite puta_other; [apply U; intros i' Hi'; apply Hl; lia|].
           apply not_eq_sym, Hl. apply in_block in Hi. lia.
    + intros m2 (e2 & (B2 & U2) & E2). split; [|split].
      * intros i Hi. eapply clean_eq; [|apply C1, E1, Hi]. intros t c. apply U2. intros i' Hi'. discriminate.
      * intros i Hi. apply B2, E2, Hi.
      * intros l Hl1 Hl2. rewrite U2 by (intros i Hi; apply Hl2, E2, Hi). apply U1', Hl1.
Qed.

(** ** The third loop *)
Definition termA (x : Z * nat * Z) : F :=
  let '(ty, g, v) := x in if (ty =? 0)%Z then (V (Z.to_nat v) * w g)%F else 0%F.
Definition termM (x : Z * nat * Z) : F :=
  let '(ty, g, v) := x in
  if (ty =? 0)%Z then w g else if (ty =? 1)%Z then (V (Z.to_nat v) * w g)%F else 0%F.
Fixpoint total (t : Z * nat * Z -> F) (l : list (Z * nat * Z)) : F :=
  match l with [] => 0%F | x :: r => (t x + total t r)%F end.
Definition used (x : Z * nat * Z) : bool := let '(ty, _, _) := x in (ty =? 0)%Z || (ty =? 1)%Z.

(** The gate entries with left input [u] that thread reads are in order. *)
Definition entry_ok (m : memory) (x : Z * nat * Z) : Prop :=
  used x = true -> let '(_, g, v) := x in (0 <= v < Z.of_nat N)%Z /\ holds m (BetaGSum, g) (w g).

Definition wires_at (m : memory) (u : nat) (a mm : F) (m' : memory) : Prop :=
  holds m' (Tab s TA Cb, u) a /\ holds m' (Tab s TM Cb, u) mm /\
  (forall l, l <> (Tab s TA Cb, u) -> l <> (Tab s TM Cb, u) -> m' l = m l).

Lemma getfz_ok : forall a z k (m : memory) f (Q : memory -> Prop), (0 <= z)%Z -> holds m (a, Z.to_nat z) f ->
  (forall x, rep x f -> ends loc_eqb (k x) m Q) -> ends loc_eqb (getfz a z k) m Q.
Proof.
  intros a z k m f Q Hz H K. unfold getfz. destruct (Z.ltb_spec z 0); [lia|]. eapply ends_holds; [exact H|exact K].
Qed.

Lemma entry_step : forall m u x a mm m', mtab m CircuitValue N V -> entry_ok m x -> wires_at m u a mm m' ->
  ends loc_eqb (phase1_gate_entry s u x) m' (wires_at m u (a + termA x)%F (mm + termM x)%F).
Proof.
  intros m u [[ty g] v] a mm m' CV OK (HA & HM & U). unfold phase1_gate_entry, termA, termM, entry_ok, used in *.
  assert (skip : wires_at m u (a + 0)%F (mm + 0)%F m').
  { split; [|split; [|exact U]].
    - destruct HA as (y & E & Ry). exists y. split; [exact E|]. eapply rep_eq; [exact Ry|ring].
    - destruct HM as (y & E & Ry). exists y. split; [exact E|]. eapply rep_eq; [exact Ry|ring]. }
  assert (U' : forall l, (forall u, l <> (Tab s TA Cb, u)) -> (forall u, l <> (Tab s TM Cb, u)) -> m' l = m l).
  { intros l H1 H2. apply U; [apply H1|apply H2]. }
  destruct ty as [|ty|ty].
  - cbn [Z.eqb orb] in *. destruct (OK eq_refl) as (Hv & HW).
    eapply ends_holds; [exact HA|]. intros xa Ra.
    eapply getfz_ok; [lia|eapply holds_eq; [apply U'; discriminate|apply CV; lia]|]. intros y Ry.
    eapply ends_holds; [eapply holds_eq; [apply U'; discriminate|exact HW]|]. intros ww Rw.
    apply ends_putf; [exact (holds_some _ _ _ HA)|].
    eapply ends_holds; [eapply holds_eq; [apply puta_other; neq|exact HM]|]. intros xm Rm.
    eapply ends_holds; [eapply holds_eq; [apply puta_other; discriminate|eapply holds_eq; [apply U'; discriminate|exact HW]]|].
    intros w2 Rw2.
    apply ends_putf; [apply put_some; exact (holds_some _ _ _ HM)|]. apply ends_ret. split; [|split].
    + eexists. split; [cell|]. lzr.
    + eexists. split; [cell|]. lzr.
    + intros l H1 H2. rewrite !puta_other by congruence. apply U; assumption.
  - destruct (Z.eqb_spec (Z.pos ty) 1) as [E|NE].
    + injection E as ->. cbn [Z.eqb Pos.eqb orb] in *. destruct (OK eq_refl) as (Hv & HW).
      eapply ends_holds; [exact HM|]. intros xm Rm.
      eapply getfz_ok; [lia|eapply holds_eq; [apply U'; discriminate|apply CV; lia]|]. intros y Ry.
      eapply ends_holds; [eapply holds_eq; [apply U'; discriminate|exact HW]|]. intros ww Rw.
      apply ends_putf; [exact (holds_some _ _ _ HM)|]. apply ends_ret. split; [|split].
      * eapply holds_eq; [apply puta_other; neq|]. exact (proj1 skip).
      * eexists. split; [cell|]. lzr.
      * intros l H1 H2. rewrite puta_other by congruence. apply U; assumption.
    + destruct ty; [| |destruct NE; reflexivity]; cbn [Z.eqb]; apply ends_ret; exact skip.
  - cbn [Z.eqb]. apply ends_ret. exact skip.
Qed.

Lemma each_ok : forall m u l a mm m', mtab m CircuitValue N V -> (forall x, In x l -> entry_ok m x) ->
  wires_at m u a mm m' ->
  ends loc_eqb (each l (phase1_gate_entry s u)) m' (wires_at m u (a + total termA l)%F (mm + total termM l)%F).
Proof.
  intros m u l. induction l as [|x l IH]; intros a mm m' CV OK H; cbn [each total].
  - apply ends_ret. destruct H as (HA & HM & U). split; [|split; [|exact U]].
    + destruct HA as (y & E & Ry). exists y. split; [exact E|]. eapply rep_eq; [exact Ry|ring].
    + destruct HM as (y & E & Ry). exists y. split; [exact E|]. eapply rep_eq; [exact Ry|ring].
  - eapply ends_andthen; [apply (entry_step m u x a mm m' CV (OK x (or_introl eq_refl)) H)|].
    intros m1 H1. eapply ends_conseq; [apply (IH _ _ m1 CV (fun y Hy => OK y (or_intror Hy)) H1)|].
    intros m2 (HA & HM & U). split; [|split; [|exact U]].
    + destruct HA as (y & E & Ry). exists y. split; [exact E|]. eapply rep_eq; [exact Ry|ring].
    + destruct HM as (y & E & Ry). exists y. split; [exact E|]. eapply rep_eq; [exact Ry|ring].
Qed.

(** Gates of type 0 and 1 have both inputs in the layer below. *)
Definition wired : Prop := forall x, In x gs -> (g_ty x = 0 \/ g_ty x = 1)%Z ->
  (0 <= g_u x < Z.of_nat N)%Z /\ (0 <= g_v x < Z.of_nat N)%Z.
Lemma u_gates_in : forall u ty g v, In (ty, g, v) (u_gates gs u) ->
  exists x, nth_error gs g = Some x /\ g_ty x = ty /\ g_v x = v /\ g_u x = Z.of_nat u.
Proof.
  intros u ty g v H. unfold u_gates in H. apply in_flat_map in H as ((g', x) & HC & H).
  destruct (Z.eqb_spec (g_u x) (Z.of_nat u)) as [E|]; [|destruct H]. destruct H as [[= <- <- <-]|[]].
  exists x. split; [|auto].
  clear - HC. assert (X : forall l k, In (g', x) (combine (seq k (length l)) l) -> k <= g' /\ nth_error l (g' - k) = Some x).
  { induction l as [|y l IH]; intros k H; cbn [length seq combine] in H; [destruct H|]. destruct H as [[= -> ->]|H].
    - rewrite Nat.sub_diag. split; [lia|reflexivity].
    - destruct (IH (S k) H) as (L & E). split; [lia|]. replace (g' - k) with (S (g' - S k)) by lia. exact E. }
  destruct (X gs 0 HC) as (_ & E). rewrite Nat.sub_0_r in E. exact E.
Qed.
Lemma u_gates_out : forall u ty g v, wired -> In (ty, g, v) (u_gates gs u) -> used (ty, g, v) = true ->
  u < N /\ (0 <= v < Z.of_nat N)%Z /\ g < length gs.
Proof.
  intros u ty g v WD H US. destruct (u_gates_in _ _ _ _ H) as (x & E & T & EV & EU).
  cbn [used] in US. apply orb_true_iff in US. rewrite !Z.eqb_eq in US.
  destruct (WD x (nth_error_In _ _ E) ltac:(lia)) as (W1 & W2).
  split; [lia|]. split; [lia|]. apply nth_error_Some. rewrite E. discriminate.
Qed.

Definition wires_post (m : memory) (id : nat) (m' : memory) : Prop :=
  (forall u, owns N u id = true -> holds m' (Tab s TA Cb, u) (total termA (u_gates gs u)) /\
                                   holds m' (Tab s TM Cb, u) (total termM (u_gates gs u))) /\
  (forall l, (forall u, owns N u id = true -> l <> (Tab s TA Cb, u) /\ l <> (Tab s TM Cb, u)) -> m' l = m l).

Lemma each_skip : forall u l, (forall x, In x l -> used x = false) ->
  each l (phase1_gate_entry s u) = Ret.
Proof.
  intros u. induction l as [|((ty & g) & v) l IH]; intros H; cbn [each]; [reflexivity|].
  pose proof (H _ (or_introl eq_refl)) as US. cbn [used] in US. apply orb_false_iff in US as (U0 & U1).
  rewrite (IH (fun y Hy => H y (or_intror Hy))).
  destruct ty as [|[| |]|]; try discriminate; reflexivity.
Qed.

Lemma wires_ok : forall m id, wired -> mtab m CircuitValue N V ->
  (forall u, owns N u id = true -> holds m (Tab s TA Cb, u) 0%F /\ holds m (Tab s TM Cb, u) 0%F) ->
  (forall u x, owns N u id = true -> In x (u_gates gs u) -> used x = true ->
     holds m (BetaGSum, snd (fst x)) (w (snd (fst x)))) ->
  ends loc_eqb (phase1_wires s gs b id) m (wires_post m id).
Proof.
  intros m id WD CV Z0 HW. unfold phase1_wires, slice_open. fold N. set (bs := block_of N).
  eapply ends_conseq; [apply (ends_pfor _ _ (id * bs) _ (fun cur m' =>
    (forall u, id * bs <= u < cur -> u < N -> holds m' (Tab s TA Cb, u) (total termA (u_gates gs u)) /\
                                   holds m' (Tab s TM Cb, u) (total termM (u_gates gs u))) /\
    (forall l, (forall u, id * bs <= u < cur -> u < N -> l <> (Tab s TA Cb, u) /\ l <> (Tab s TM Cb, u)) -> m' l = m l)))|].
  - split; [intros; lia|reflexivity].
  - intros u m' Hu (D & U). destruct (Nat.lt_ge_cases u N) as [HN|HN].
    + assert (OW : owns N u id = true) by (apply owns_spec; split; [apply in_block; fold bs; lia|exact HN]).
      assert (EQ : forall l, (l = (Tab s TA Cb, u) \/ l = (Tab s TM Cb, u) \/ forall t c i, l <> (Tab s t c, i)) -> m' l = m l).
      { intros l [->|[->|H]]; apply U; intros u' Hu' _; try (split; intros [= E]; lia). split; apply H. }
      eapply ends_conseq; [apply (each_ok m' u (u_gates gs u) 0%F 0%F m')|].
      * intros i Hi. eapply holds_eq; [apply EQ; right; right; discriminate|apply CV, Hi].
      * intros ((ty & g) & v) Hx US. split; [apply (u_gates_out u ty g v WD Hx US)|].
        eapply holds_eq; [apply EQ; right; right; discriminate|]. exact (HW u _ OW Hx US).
      * destruct (Z0 u OW) as (Z1 & Z2). split; [eapply holds_eq; [apply EQ; auto|exact Z1]|].
        split; [eapply holds_eq; [apply EQ; auto|exact Z2]|reflexivity].
      * intros m2 (HA & HM & U2). split.
        -- intros u' Hu' HN'. destruct (Nat.eq_dec u' u) as [->|NE].
           ++ split; [destruct HA as (y & E & Ry)|destruct HM as (y & E & Ry)]; exists y; (split; [exact E|]);
                (eapply rep_eq; [exact Ry|ring]).
           ++ destruct (D u' ltac:(lia) HN') as (D1 & D2).
              split; [eapply holds_eq; [apply U2; neq|exact D1]|eapply holds_eq; [apply U2; neq|exact D2]].
        -- intros l Hl. destruct (Hl u ltac:(lia) HN) as (L1 & L2). rewrite U2 by assumption. apply U.
           intros u' Hu' HN'. apply Hl; [lia|exact HN'].
    + rewrite each_skip.
      * apply ends_ret. split.
        -- intros u' Hu' HN'. apply D; lia.
        -- intros l Hl. apply U. intros u' Hu' HN'. apply Hl; [lia|exact HN'].
      * intros ((ty & g) & v) Hx. destruct (used (ty, g, v)) eqn:US; [|reflexivity].
        pose proof (u_gates_out u ty g v WD Hx US). lia.
  - intros m' (D & U). replace (id * bs + ((id + 1) * bs - id * bs)) with ((id + 1) * bs) in * by lia. split.
    + intros u Hu. apply owns_spec in Hu as (H1 & H2). apply D; [apply in_block; exact H1|exact H2].
    + intros l Hl. apply U. intros u Hu HN. apply Hl. apply owns_spec. split; [apply in_block; exact Hu|exact HN].
Qed.
End Layer.
