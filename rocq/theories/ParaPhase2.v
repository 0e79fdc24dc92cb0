(** * Proofs about the multi-threaded prover: the tables of phase 2 *)
From Coq Require Import ZArith List Bool Arith Lia.
From Verif Require Import Base Limbs Field Fp Poly Circuit Lazy ModNear MleSpec TablesProofs FastProver.
From Verif Require Import Conc ParaProver ParaProofs ParaPhase1 ParaInit ParaUpdate ParaWitness.
Import ListNotations.
Open Scope nat_scope.

Lemma lzy_eq : forall x a c m n, lzy x a m n -> a = c -> lzy x c m n.
Proof. intros x a c m n H <-. exact H. Qed.

Lemma ends_getfz : forall a z k (m : memory) f (Q : memory -> Prop), (0 <= z)%Z -> holds m (a, Z.to_nat z) f ->
  (forall x, rep x f -> ends loc_eqb (k x) m Q) -> ends loc_eqb (getfz a z k) m Q.
Proof.
  intros a z k m f Q Hz H K. unfold getfz. destruct (Z.ltb_spec z 0); [lia|]. eapply ends_holds; [exact H|exact K].
Qed.

(** A slice whose iterations work on disjoint sets of cells. *)
Lemma ends_rows : forall total id body (S : nat -> loc -> Prop) (Post : nat -> memory -> Prop) (m : memory),
  (forall i j l, S i l -> S j l -> i = j) ->
  (forall i m1 m2, (forall l, S i l -> m2 l = m1 l) -> Post i m1 -> Post i m2) ->
  (forall i m', owns total i id = true -> (forall l, (forall j, j <> i -> ~ S j l) -> m' l = m l) ->
     ends loc_eqb (body i) m' (fun m2 => Post i m2 /\ forall l, ~ S i l -> m2 l = m' l)) ->
  ends loc_eqb (slice total id body) m (fun m' => (forall i, owns total i id = true -> Post i m') /\
     forall l, (forall i, owns total i id = true -> ~ S i l) -> m' l = m l).
Proof.
  intros total id body S Post m DJ ST HB.
  eapply ends_conseq; [apply (ends_slice total id body (fun cur m' =>
     (forall i, id * block_of total <= i < cur -> Post i m') /\
     (forall l, (forall i, id * block_of total <= i < cur -> ~ S i l) -> m' l = m l)))|].
  - split; [intros; lia|reflexivity].
  - intros i m' Hi (D & U). eapply ends_conseq; [apply (HB i m' Hi)|].
    + intros l Hl. apply U. intros j Hj. apply Hl. lia.
    + intros m2 (Pi & U2). split.
      * intros j Hj. destruct (Nat.eq_dec j i) as [->|NE]; [exact Pi|].
        apply (ST j m'); [|apply D; lia]. intros l Hl. apply U2. intro Hl'. apply NE. exact (DJ j i l Hl Hl').
      * intros l Hl. rewrite U2; [apply U; intros j Hj; apply Hl; lia|]. apply Hl.
        apply owns_spec in Hi as (Hi & _). apply in_block in Hi. lia.
  - intros m' (e & (D & U) & E). split.
    + intros i Hi. apply D, E, Hi.
    + intros l Hl. apply U. intros i Hi. apply Hl, E, Hi.
Qed.

Section Layer.
Variables (s : bool) (gs : list gate) (b lu : nat) (V wg wu : nat -> F) (v_u : fe) (vu : F).
Let N := 2 ^ b.
Let U := 2 ^ lu.
Let h := Nat.shiftr lu 1.
Hypothesis Rvu : rep v_u vu.

Definition termA2 (x : Z * nat * Z) : F :=
  let '(ty, g, u) := x in if (ty =? 0)%Z then (wg g * wu (Z.to_nat u) * vu)%F else 0%F.
Definition termM2 (x : Z * nat * Z) : F :=
  let '(ty, g, u) := x in
  if (ty =? 0)%Z then (wg g * wu (Z.to_nat u))%F else if (ty =? 1)%Z then (wg g * wu (Z.to_nat u) * vu)%F else 0%F.
(** The number of additions. *)
Fixpoint adds (l : list (Z * nat * Z)) : Z :=
  match l with [] => 0%Z | (ty, _, _) :: r => ((if (ty =? 0)%Z then 1 else 0) + adds r)%Z end.
Lemma adds_nonneg : forall l, (0 <= adds l)%Z.
Proof. induction l as [|[[ty g] u] l IH]; cbn [adds]; [lia|]. destruct (ty =? 0)%Z; lia. Qed.

(** An accumulator and its counter. *)
Definition acc (m : memory) (t : table) (cnt : arr) (v : nat) (f : F) (k : Z) : Prop :=
  exists x c, m (Tab s t Cb, v) = Some (Fe x) /\ m (cnt, v) = Some (Int c) /\ (0 <= c <= 30)%Z /\
    lzy x f k (c + 1) /\ (c = 0%Z -> rep x f).
Lemma acc_eq : forall m m' t cnt v f k, m' (Tab s t Cb, v) = m (Tab s t Cb, v) -> m' (cnt, v) = m (cnt, v) ->
  acc m t cnt v f k -> acc m' t cnt v f k.
Proof. intros m m' t cnt v f k E1 E2 (x & c & H1 & H2 & H). exists x, c. rewrite E1, E2. auto. Qed.

Definition is_count (a : arr) : Prop := a = CountA \/ a = CountM.
Lemma ends_geti : forall a i k (m : memory) z (Q : memory -> Prop), m (a, i) = Some (Int z) ->
  ends loc_eqb (k z) m Q -> ends loc_eqb (geti a i k) m Q.
Proof. intros a i k m z Q E H. unfold geti. eapply ends_get; [exact E|]. cbn [as_int]. exact H. Qed.

Lemma count_up_ok : forall cnt t v y c f k K (m : memory) (Q : memory -> Prop), is_count cnt ->
  m (Tab s t Cb, v) = Some (Fe y) -> m (cnt, v) = Some (Int c) -> (0 <= c <= 30)%Z -> lzy y f k (c + 2) -> (0 <= k <= 3)%Z ->
  (forall m2, acc m2 t cnt v f k -> (forall l, l <> (Tab s t Cb, v) -> l <> (cnt, v) -> m2 l = m l) -> ends loc_eqb K m2 Q) ->
  ends loc_eqb (count_up cnt s t v K) m Q.
Proof.
  intros cnt t v y c f k K m Q IC EY EC Hc LZ Hk HK. unfold count_up.
  assert (NE : (cnt, v) <> (Tab s t Cb, v)) by (destruct IC as [-> | ->]; discriminate).
  eapply ends_geti; [exact EC|]. apply ends_puti; [rewrite EC; discriminate|].
  eapply ends_geti; [apply puta_same|]. destruct (Z.gtb_spec (c + 1) 30) as [G|G].
  - apply ends_puti; [rewrite puta_same; discriminate|].
    eapply ends_getf; [rewrite !puta_other by exact NE; exact EY|].
    apply ends_putf; [rewrite !puta_other by exact NE; rewrite EY; discriminate|].
    assert (RY : rep (u512_mod y) f) by (eapply lzy_mod3; [exact LZ|lia|lia]).
    apply HK.
    + exists (u512_mod y), 0%Z. split; [apply puta_same|]. split; [rewrite puta_other by (intro E; apply NE; symmetry; exact E); apply puta_same|].
      split; [lia|]. split; [|intros _; exact RY]. eapply lzy_weaken; [apply lzy_rep, RY|lia|lia].
    + intros l H1 H2. rewrite !puta_other by congruence. reflexivity.
  - apply HK.
    + exists y, (c + 1)%Z. split; [rewrite puta_other by exact NE; exact EY|]. split; [apply puta_same|].
      split; [lia|]. split; [eapply lzy_weaken; [exact LZ|lia|lia]|lia].
    + intros l H1 H2. rewrite puta_other by congruence. reflexivity.
Qed.

(** The cells of row [v] that the gate loop changes. *)
Definition row (v : nat) (l : loc) : Prop :=
  l = (Tab s TA Cb, v) \/ l = (Tab s TM Cb, v) \/ l = (CountA, v) \/ l = (CountM, v).
Lemma row_other : forall v l, ~ row v l -> l <> (Tab s TA Cb, v) /\ l <> (Tab s TM Cb, v) /\ l <> (CountA, v) /\ l <> (CountM, v).
Proof. intros v l H. unfold row in H. split; [|split; [|split]]; intro E; apply H; auto. Qed.
Definition at_row (m0 : memory) (v : nat) (fa : F) (ka : Z) (fm : F) (km : Z) (m : memory) : Prop :=
  acc m TA CountA v fa ka /\ acc m TM CountM v fm km /\ forall l, ~ row v l -> m l = m0 l.

Definition entry2_ok (m : memory) (x : Z * nat * Z) : Prop :=
  used x = true -> let '(_, g, u) := x in (0 <= u)%Z /\ holds m (BetaGSum, g) (wg g) /\ holds m (BetaU, Z.to_nat u) (wu (Z.to_nat u)).

Lemma acc_val : forall m t cnt v f f' k k', acc m t cnt v f k -> f = f' -> (k <= k')%Z -> acc m t cnt v f' k'.
Proof.
  intros m t cnt v f f' k k' (x & c & H1 & H2 & H3 & H4 & H5) <- Hk. exists x, c.
  split; [exact H1|]. split; [exact H2|]. split; [exact H3|]. split; [eapply lzy_weaken; [exact H4|lia|lia]|exact H5].
Qed.

Lemma entry2_step : forall m0 v x fa ka fm km m, entry2_ok m0 x -> at_row m0 v fa ka fm km m ->
  (0 <= ka)%Z -> (0 <= km)%Z -> (ka + adds [x] <= 3)%Z -> (km + adds [x] <= 3)%Z ->
  ends loc_eqb (phase2_gate_entry s v_u v x) m
    (at_row m0 v (fa + termA2 x)%F (ka + adds [x])%Z (fm + termM2 x)%F (km + adds [x])%Z).
Proof.
  intros m0 v [[ty g] u] fa ka fm km m OK (HA & HM & UC) Ka Km La Lm.
  unfold phase2_gate_entry, termA2, termM2, entry2_ok, used in *. cbn [adds] in *.
  assert (skip : ends loc_eqb Ret m (at_row m0 v (fa + 0)%F (ka + (0 + 0))%Z (fm + 0)%F (km + (0 + 0))%Z)).
  { apply ends_ret. split; [eapply acc_val; [exact HA|ring|lia]|]. split; [eapply acc_val; [exact HM|ring|lia]|exact UC]. }
  assert (rd : forall a i f, (forall t c, a <> Tab s t c) -> a <> CountA -> a <> CountM -> holds m0 (a, i) f -> holds m (a, i) f).
  { intros a i f H1 H2 H3 H. eapply holds_eq; [|exact H]. apply UC. intros [E|[E|[E|E]]]; injection E as E _; congruence. }
  destruct ty as [|ty|ty].
  - cbn [Z.eqb orb] in *. destruct (OK eq_refl) as (Hu & HG & HB).
    apply rd in HG; [|discriminate..]. apply rd in HB; [|discriminate..].
    destruct HA as (xa & ca & A1 & A2 & A3 & A4 & A5). destruct HM as (xm & cm & M1 & M2 & M3 & M4 & M5).
    eapply ends_getf; [exact M1|].
    eapply ends_holds; [exact HG|]. intros g1 G1. eapply ends_getfz; [exact Hu|exact HB|]. intros u1 U1.
    apply ends_putf; [rewrite M1; discriminate|].
    eapply ends_holds; [eapply holds_eq; [apply puta_other; discriminate|exact HG]|]. intros g2 G2.
    eapply ends_getfz; [exact Hu|eapply holds_eq; [apply puta_other; discriminate|exact HB]|]. intros u2 U2.
    eapply ends_getf; [rewrite puta_other by discriminate; exact A1|].
    apply ends_putf; [rewrite puta_other by discriminate; rewrite A1; discriminate|].
    assert (LM : lzy (u512_add xm (u512_mul g1 u1)) (fm + wg g * wu (Z.to_nat u))%F (km + 1) (cm + 2)).
    { eapply lzy_weaken; [eapply lzy_add; [exact M4|apply lzy_mul; eassumption|]|lia|lia].
      apply andb_true_iff. split; apply Z.leb_le; lia. }
    assert (LA : lzy (u512_add (u512_mul (u512_mod (u512_mul g2 u2)) v_u) xa) (fa + wg g * wu (Z.to_nat u) * vu)%F (ka + 1) (ca + 2)).
    { eapply lzy_weaken; [eapply lzy_eq; [eapply lzy_add; [apply lzy_mul; [|exact Rvu]|exact A4|]|]|lia|lia].
      - eapply lzy_mod; [apply lzy_mul; eassumption|reflexivity].
      - apply andb_true_iff. split; apply Z.leb_le; lia.
      - ring. }
    eapply (count_up_ok CountM TM v _ cm); [right; reflexivity|rewrite puta_other by discriminate; apply puta_same| |exact M3|exact LM|lia|].
    { rewrite !puta_other by discriminate. exact M2. }
    intros m2 AM U2'.
    eapply (count_up_ok CountA TA v _ ca); [left; reflexivity|rewrite U2' by discriminate; apply puta_same| |exact A3|exact LA|lia|].
    { rewrite U2' by discriminate. rewrite !puta_other by discriminate. exact A2. }
    intros m3 AA U3. apply ends_ret. split; [eapply acc_val; [exact AA|reflexivity|lia]|]. split.
    + eapply acc_val; [eapply acc_eq; [apply U3; discriminate|apply U3; discriminate|exact AM]|reflexivity|lia].
    + intros l Hl. destruct (row_other v l Hl) as (R1 & R2 & R3 & R4).
      rewrite U3, U2' by assumption. rewrite !puta_other by congruence. apply UC, Hl.
  - destruct (Z.eqb_spec (Z.pos ty) 1) as [E|NE].
    + injection E as ->. cbn [Z.eqb Pos.eqb orb] in *. destruct (OK eq_refl) as (Hu & HG & HB).
      apply rd in HG; [|discriminate..]. apply rd in HB; [|discriminate..].
      destruct HM as (xm & cm & M1 & M2 & M3 & M4 & M5).
      eapply ends_getf; [exact M1|].
      eapply ends_holds; [exact HG|]. intros g1 G1. eapply ends_getfz; [exact Hu|exact HB|]. intros u1 U1.
      apply ends_putf; [rewrite M1; discriminate|].
      assert (LM : lzy (u512_add xm (u512_mod (u512_mul (u512_mod (u512_mul g1 u1)) v_u))) (fm + wg g * wu (Z.to_nat u) * vu)%F km (cm + 2)).
      { eapply lzy_weaken; [eapply lzy_add; [exact M4|apply lzy_rep; lz|]|lia|lia].
        apply andb_true_iff. split; apply Z.leb_le; lia. }
      eapply (count_up_ok CountM TM v _ cm); [right; reflexivity|apply puta_same| |exact M3|exact LM|lia|].
      { rewrite puta_other by discriminate. exact M2. }
      intros m2 AM U2'. apply ends_ret. split; [|split].
      * eapply acc_val; [eapply acc_eq; [| |exact HA]|ring|lia].
        -- rewrite U2' by discriminate. apply puta_other. discriminate.
        -- rewrite U2' by discriminate. apply puta_other. discriminate.
      * eapply acc_val; [exact AM|reflexivity|lia].
      * intros l Hl. destruct (row_other v l Hl) as (R1 & R2 & R3 & R4).
        rewrite U2' by assumption. rewrite puta_other by congruence. apply UC, Hl.
    + destruct ty; [| |destruct NE; reflexivity]; cbn [Z.eqb]; exact skip.
  - cbn [Z.eqb]. exact skip.
Qed.

Lemma each2_ok : forall m0 v l fa ka fm km m, (forall x, In x l -> entry2_ok m0 x) -> at_row m0 v fa ka fm km m ->
  (0 <= ka)%Z -> (0 <= km)%Z -> (ka + adds l <= 3)%Z -> (km + adds l <= 3)%Z ->
  ends loc_eqb (each l (phase2_gate_entry s v_u v)) m
    (at_row m0 v (fa + total termA2 l)%F (ka + adds l)%Z (fm + total termM2 l)%F (km + adds l)%Z).
Proof.
  intros m0 v l. induction l as [|x l IH]; intros fa ka fm km m OK H Ka Km La Lm; cbn [each total].
  - apply ends_ret. destruct H as (HA & HM & UC). cbn [adds].
    split; [eapply acc_val; [exact HA|ring|lia]|]. split; [eapply acc_val; [exact HM|ring|lia]|exact UC].
  - assert (EA : adds (x :: l) = (adds [x] + adds l)%Z) by (destruct x as [[ty g] u]; cbn [adds]; lia).
    rewrite EA in *. pose proof (adds_nonneg [x]). pose proof (adds_nonneg l).
    eapply ends_andthen; [apply (entry2_step m0 v x fa ka fm km m (OK x (or_introl eq_refl)) H); lia|].
    intros m1 HR. eapply ends_conseq; [apply (IH _ _ _ _ m1 (fun y Hy => OK y (or_intror Hy)) HR); lia|].
    intros m2 (HA & HM & UC). split; [eapply acc_val; [exact HA|ring|lia]|]. split; [eapply acc_val; [exact HM|ring|lia]|exact UC].
Qed.

(** ** The four loops of one thread *)
Hypothesis WD : wired2 gs b lu.
Variable m : memory.
Hypothesis CV : mtab m CircuitValue N V.
Hypothesis HG : mtab m BetaGSum (length gs) wg.
Definition halves2 : Prop := forall i, i < U -> exists f0 f1,
  holds m (Uf, Nat.land i (2 ^ h - 1)) f0 /\ holds m (Us, Nat.shiftr i h) f1 /\ (f0 * f1)%F = wu i.
Hypothesis HH : halves2.
Hypothesis AL : alloc2 s gs b lu m.
Hypothesis few : forall v, v < N -> (adds (v_gates gs v) <= 3)%Z.

Definition cells2 (i : nat) (l : loc) : Prop := (exists t c, l = (Tab s t c, i)) \/ l = (CountA, i) \/ l = (CountM, i).
Lemma row_cells2 : forall i l, row i l -> cells2 i l.
Proof. intros i l [E|[E|[E|E]]]; unfold cells2; eauto. Qed.
Definition fixed (mm : memory) (i : nat) : Prop :=
  holds mm (Tab s TV Ca, i) 0%F /\ holds mm (Tab s TV Cb, i) (V i) /\
  holds mm (Tab s TA Ca, i) 0%F /\ holds mm (Tab s TM Ca, i) 0%F.
Lemma fixed_eq : forall m1 m2 i, (forall t c, (t = TV \/ c = Ca) -> m2 (Tab s t c, i) = m1 (Tab s t c, i)) -> fixed m1 i -> fixed m2 i.
Proof.
  intros m1 m2 i E (F1 & F2 & F3 & F4).
  split; [eapply holds_eq; [apply E; auto|exact F1]|]. split; [eapply holds_eq; [apply E; auto|exact F2]|].
  split; [eapply holds_eq; [apply E; auto|exact F3]|eapply holds_eq; [apply E; auto|exact F4]].
Qed.
Definition done2 (mm : memory) (i : nat) : Prop :=
  fixed mm i /\ holds mm (Tab s TA Cb, i) (total termA2 (v_gates gs i)) /\
  holds mm (Tab s TM Cb, i) (total termM2 (v_gates gs i)).
Definition post2 (id : nat) (mm : memory) : Prop :=
  (forall i, owns N i id = true -> done2 mm i) /\ (forall i, owns U i id = true -> holds mm (BetaU, i) (wu i)).

Lemma loop1 : forall id, ends loc_eqb (slice U id (beta_u_entry h)) m (fun m' =>
  (forall i, owns U i id = true -> holds m' (BetaU, i) (wu i)) /\
  forall l, (forall i, owns U i id = true -> l <> (BetaU, i)) -> m' l = m l).
Proof.
  intro id. apply (ends_rows U id (beta_u_entry h) (fun i l => l = (BetaU, i)) (fun i mm => holds mm (BetaU, i) (wu i))).
  - intros i j l -> E. congruence.
  - intros i m1 m2 E H. eapply holds_eq; [apply E; reflexivity|exact H].
  - intros i m' Hi UC. apply owns_spec in Hi as (_ & Hi). destruct (HH i Hi) as (f0 & f1 & H0 & H1 & E).
    unfold beta_u_entry.
    eapply ends_holds; [eapply holds_eq; [apply UC; discriminate|exact H0]|]. intros x0 R0.
    eapply ends_holds; [eapply holds_eq; [apply UC; discriminate|exact H1]|]. intros x1 R1.
    apply ends_putf.
    { rewrite UC by (intros j Hj E'; congruence). destruct AL as (_ & _ & _ & _ & A & _). apply A, Hi. }
    apply ends_ret. split.
    + eexists. split; [apply puta_same|]. eapply rep_eq; [lz|exact E].
    + intros l Hl. apply puta_other. congruence.
Qed.

Lemma loop2 : forall id m1, mtab m1 CircuitValue N V -> (forall l i, cells2 i l -> i < N -> m1 l <> None) ->
  ends loc_eqb (slice N id (reset2 s)) m1 (fun m' =>
  (forall i, owns N i id = true -> fixed m' i /\ acc m' TA CountA i 0%F 0 /\ acc m' TM CountM i 0%F 0) /\
  forall l, (forall i, owns N i id = true -> ~ cells2 i l) -> m' l = m1 l).
Proof.
  intros id m1 CV1 AC.
  apply (ends_rows N id (reset2 s) cells2 (fun i m' => fixed m' i /\ acc m' TA CountA i 0%F 0 /\ acc m' TM CountM i 0%F 0)).
  - intros i j l [(t & c & ->)|[-> | ->]] [(t' & c' & E)|[E|E]]; congruence.
  - intros i m2 m3 E (F & A1 & A2). split; [|split].
    + eapply fixed_eq; [|exact F]. intros t c _. apply E. left. eauto.
    + eapply acc_eq; [apply E; left; eauto|apply E; right; left; reflexivity|exact A1].
    + eapply acc_eq; [apply E; left; eauto|apply E; right; right; reflexivity|exact A2].
  - intros i m' Hi UC. apply owns_spec in Hi as (_ & Hi). unfold reset2.
    assert (AC' : forall l, cells2 i l -> m' l <> None).
    { intros l Hl. rewrite UC; [exact (AC l i Hl Hi)|]. intros j NE Hj. apply NE.
      destruct Hl as [(t & c & ->)|[-> | ->]]; destruct Hj as [(t' & c' & E)|[E|E]]; congruence. }
    assert (AT : forall t c, m' (Tab s t c, i) <> None) by (intros t c; apply AC'; left; eauto).
    assert (A1 : m' (CountA, i) <> None) by (apply AC'; right; left; reflexivity).
    assert (A2 : m' (CountM, i) <> None) by (apply AC'; right; right; reflexivity).
    do 4 (apply ends_putf; [repeat apply put_some; apply AT|]).
    apply ends_puti; [repeat apply put_some; exact A1|]. apply ends_puti; [repeat apply put_some; exact A2|].
    eapply ends_holds.
    { eapply holds_eq; [|apply CV1, Hi]. cells. apply UC. intros j _ [(t & c & E)|[E|E]]; discriminate. }
    intros x Rx.
    do 2 (apply ends_putf; [repeat apply put_some; apply AT|]).
    apply ends_ret. split; [split; [|split]|].
    + split; [eexists; split; [cell|exact rep_i0]|]. split; [eexists; split; [cell|exact Rx]|].
      split; [eexists; split; [cell|exact rep_i0]|eexists; split; [cell|exact rep_i0]].
    + exists (fe_of_int 0), 0%Z. split; [cell|]. split; [cell|]. split; [lia|]. split; [exact (lzy_rep _ _ rep_i0)|intros _; exact rep_i0].
    + exists (fe_of_int 0), 0%Z. split; [cell|]. split; [cell|]. split; [lia|]. split; [exact (lzy_rep _ _ rep_i0)|intros _; exact rep_i0].
    + intros l Hl.
      assert (D : forall t c, (Tab s t c, i) <> l) by (intros t c E; apply Hl; left; eauto).
      assert (D1 : (CountA, i) <> l) by (intro E; apply Hl; right; left; auto).
      assert (D2 : (CountM, i) <> l) by (intro E; apply Hl; right; right; auto).
      rewrite !puta_other by first [apply D|assumption]. reflexivity.
Qed.

Lemma row_uniq : forall i j l, row i l -> row j l -> i = j.
Proof. intros i j l [-> |[-> |[-> | ->]]] [E|[E|[E|E]]]; congruence. Qed.
Lemma loop3 : forall id m2,
  (forall i, owns N i id = true -> acc m2 TA CountA i 0%F 0 /\ acc m2 TM CountM i 0%F 0) ->
  (forall v x, owns N v id = true -> In x (v_gates gs v) -> entry2_ok m2 x) ->
  ends loc_eqb (slice N id (fun i => each (v_gates gs i) (phase2_gate_entry s v_u i))) m2 (fun m' =>
  (forall i, owns N i id = true -> acc m' TA CountA i (total termA2 (v_gates gs i)) 3 /\
                                   acc m' TM CountM i (total termM2 (v_gates gs i)) 3) /\
  forall l, (forall i, owns N i id = true -> ~ row i l) -> m' l = m2 l).
Proof.
  intros id m2 A0 OK.
  apply (ends_rows N id _ row (fun i m' => acc m' TA CountA i (total termA2 (v_gates gs i)) 3 /\
                                   acc m' TM CountM i (total termM2 (v_gates gs i)) 3)).
  - exact row_uniq.
  - intros i m3 m4 E (B1 & B2). unfold row in E.
    split; [eapply acc_eq; [apply E; auto|apply E; auto|exact B1]|eapply acc_eq; [apply E; auto|apply E; auto|exact B2]].
  - intros i m' Hi UC. pose proof Hi as Hi'. apply owns_spec in Hi' as (_ & HN).
    assert (EI : forall l, row i l -> m' l = m2 l).
    { intros l Hl. apply UC. intros j NE Hj. apply NE. exact (row_uniq _ _ _ Hj Hl). }
    unfold row in EI. destruct (A0 i Hi) as (B1 & B2).
    eapply ends_conseq; [apply (each2_ok m' i (v_gates gs i) 0%F 0 0%F 0 m')|].
    + intros x Hx US. pose proof (OK i x Hi Hx US) as K. destruct x as [[ty g] u]. destruct K as (K0 & K1 & K2).
      split; [exact K0|].
      assert (X : forall a j f, (forall t c, a <> Tab s t c) -> a <> CountA -> a <> CountM -> holds m2 (a, j) f -> holds m' (a, j) f).
      { intros a j f H1 H2 H3 H. eapply holds_eq; [|exact H]. apply UC. intros j' _ [E|[E|[E|E]]]; injection E as E _; congruence. }
      split; (apply X; [discriminate|discriminate|discriminate|assumption]).
    + split; [eapply acc_eq; [apply EI; auto|apply EI; auto|exact B1]|].
      split; [eapply acc_eq; [apply EI; auto|apply EI; auto|exact B2]|reflexivity].
    + lia.
    + lia.
    + specialize (few i HN). lia.
    + specialize (few i HN). lia.
    + intros m3 (HA & HM & U3). specialize (few i HN). split; [|exact U3].
      split; [eapply acc_val; [exact HA|ring|lia]|eapply acc_val; [exact HM|ring|lia]].
Qed.

Definition ends_cells (i : nat) (l : loc) : Prop := l = (Tab s TA Cb, i) \/ l = (Tab s TM Cb, i).
Lemma loop4 : forall id m3 fa fm, (forall i, owns N i id = true -> acc m3 TA CountA i (fa i) 3 /\ acc m3 TM CountM i (fm i) 3) ->
  ends loc_eqb (slice N id (reduce2 s)) m3 (fun m' =>
  (forall i, owns N i id = true -> holds m' (Tab s TA Cb, i) (fa i) /\ holds m' (Tab s TM Cb, i) (fm i)) /\
  forall l, (forall i, owns N i id = true -> ~ ends_cells i l) -> m' l = m3 l).
Proof.
  intros id m3 fa fm A0.
  apply (ends_rows N id _ ends_cells (fun i m' => holds m' (Tab s TA Cb, i) (fa i) /\ holds m' (Tab s TM Cb, i) (fm i))).
  - intros i j l [-> | ->] [E|E]; congruence.
  - intros i m4 m5 E (B1 & B2). unfold ends_cells in E.
    split; [eapply holds_eq; [apply E; auto|exact B1]|eapply holds_eq; [apply E; auto|exact B2]].
  - intros i m' Hi UC. destruct (A0 i Hi) as (B1 & B2).
    assert (EI : forall l, ends_cells i l \/ l = (CountA, i) \/ l = (CountM, i) -> m' l = m3 l).
    { intros l Hl. apply UC. intros j NE [-> | ->]; destruct Hl as [[E|E]|[E|E]]; congruence. }
    unfold ends_cells in EI.
    apply (acc_eq m3 m') in B1; [|apply EI; auto..]. apply (acc_eq m3 m') in B2; [|apply EI; auto..].
    destruct B1 as (xa & ca & P1 & P2 & P3 & P4 & P5). destruct B2 as (xm & cm & Q1 & Q2 & Q3 & Q4 & Q5).
    unfold reduce2.
    assert (RA : rep (u512_mod xa) (fa i)) by (eapply lzy_mod3; [exact P4|lia|lia]).
    assert (RM : rep (u512_mod xm) (fm i)) by (eapply lzy_mod3; [exact Q4|lia|lia]).
    assert (LA : forall mm : memory, holds mm (Tab s TM Cb, i) (fm i) -> mm (Tab s TA Cb, i) = Some (Fe xa) -> mm (CountA, i) = Some (Int ca) ->
      (forall l, ~ ends_cells i l -> mm l = m' l) ->
      ends loc_eqb (geti CountA i (fun n => if (n =? 0)%Z then Ret else getf (Tab s TA Cb) i (fun y => putf (Tab s TA Cb) i (u512_mod y) Ret))) mm
        (fun m4 => (holds m4 (Tab s TA Cb, i) (fa i) /\ holds m4 (Tab s TM Cb, i) (fm i)) /\ forall l, ~ ends_cells i l -> m4 l = m' l)).
    { intros mm HM E1 E2 UM. eapply ends_geti; [exact E2|]. destruct (Z.eqb_spec ca 0) as [Z0|NZ].
      - apply ends_ret. split; [|exact UM]. split; [exists xa; split; [exact E1|exact (P5 Z0)]|exact HM].
      - eapply ends_getf; [exact E1|]. apply ends_putf; [rewrite E1; discriminate|]. apply ends_ret. split.
        + split; [eexists; split; [apply puta_same|exact RA]|]. eapply holds_eq; [apply puta_other; discriminate|exact HM].
        + intros l Hl. rewrite puta_other; [apply UM, Hl|]. intro E. apply Hl. left. auto. }
    eapply ends_geti; [exact Q2|]. destruct (Z.eqb_spec cm 0) as [Z0|NZ].
    + apply LA; [exists xm; split; [exact Q1|exact (Q5 Z0)]|exact P1|exact P2|reflexivity].
    + eapply ends_getf; [exact Q1|]. apply ends_putf; [rewrite Q1; discriminate|].
      apply LA; [eexists; split; [apply puta_same|exact RM]| | |].
      * rewrite puta_other by discriminate. exact P1.
      * rewrite puta_other by discriminate. exact P2.
      * intros l Hl. apply puta_other. intro E. apply Hl. right. auto.
Qed.

(** Every used gate has both inputs in the slices of one thread. *)
Definition aligned2 : Prop := forall g x, nth_error gs g = Some x -> (g_ty x = 0 \/ g_ty x = 1)%Z ->
  Z.to_nat (g_u x) / block_of U = Z.to_nat (g_v x) / block_of N.
Hypothesis ALI : aligned2.

Lemma gate_inputs : forall v ty g u, In (ty, g, u) (v_gates gs v) -> used (ty, g, u) = true ->
  g < length gs /\ (0 <= u)%Z /\ Z.to_nat u < U /\ Z.to_nat u / block_of U = v / block_of N.
Proof.
  clear HG HH AL few CV. intros v ty g u H US. destruct (v_gates_in gs b lu v ty g u H) as (x & E & ET & EU & EV).
  cbn [used] in US. apply orb_true_iff in US. rewrite !Z.eqb_eq in US. rewrite <- ET in US.
  destruct (WD x (nth_error_In _ _ E) US) as (Hu & Hv). pose proof (ALI g x E US) as A. rewrite EU, EV, Nat2Z.id in A. rewrite EU in Hu.
  split; [apply nth_error_Some; rewrite E; discriminate|]. split; [lia|]. split; [|exact A].
  apply Nat2Z.inj_lt. unfold U. rewrite Nat2Z.inj_pow, Z2Nat.id by lia. apply Hu.
Qed.

Lemma thread2_ok : forall id, ends loc_eqb (phase2_init_func s gs b lu v_u id) m (post2 id).
Proof.
  intro id. unfold phase2_init_func. fold N U h.
  eapply ends_andthen; [apply loop1|]. intros m1 (B1 & U1).
  assert (N1 : forall l, fst l <> BetaU -> m1 l = m l).
  { intros l Hl. apply U1. intros i _ E. apply Hl. rewrite E. reflexivity. }
  eapply ends_andthen; [apply (loop2 id m1)|].
  { intros i Hi. eapply holds_eq; [apply N1; discriminate|apply CV, Hi]. }
  { intros l i Hl Hi. destruct AL as (_ & _ & _ & _ & _ & A6 & A7 & A8).
    destruct Hl as [(t & c & ->)|[-> | ->]]; (rewrite N1 by discriminate); [apply A8|apply A6|apply A7]; exact Hi. }
  intros m2 (B2 & U2).
  assert (N2 : forall a j, (forall t c, a <> Tab s t c) -> a <> CountA -> a <> CountM -> m2 (a, j) = m1 (a, j)).
  { intros a j H1 H2 H3. apply U2. intros i _ [(t & c & E)|[E|E]]; injection E as E _; [exact (H1 t c E)|contradiction..]. }
  eapply ends_andthen; [apply (loop3 id m2)|].
  { intros i Hi. apply (B2 i Hi). }
  { intros v [[ty g] u] Hv Hx US. destruct (gate_inputs v ty g u Hx US) as (G1 & G2 & G3 & G4).
    split; [exact G2|]. split.
    - eapply holds_eq; [apply N2; discriminate|]. eapply holds_eq; [apply N1; discriminate|apply HG, G1].
    - eapply holds_eq; [apply N2; discriminate|]. apply B1. apply owns_spec. split; [|exact G3]. rewrite G4.
      apply owns_spec in Hv. apply Hv. }
  intros m3 (B3 & U3).
  eapply ends_conseq; [apply (loop4 id m3 _ _ B3)|]. intros m4 (B4 & U4). split.
  - intros i Hi. destruct (B4 i Hi) as (C1 & C2). split; [|split; assumption].
    eapply fixed_eq; [|apply (B2 i Hi)]. intros t c TC.
    rewrite U4, U3; [reflexivity| |].
    + intros j _ [E|[E|[E|E]]]; [| |discriminate..]; injection E as E1 E2; destruct TC; congruence.
    + intros j _ [E|E]; injection E as E1 E2; destruct TC; congruence.
  - intros i Hi. eapply holds_eq; [|apply (B1 i Hi)].
    rewrite U4, U3, N2 by (first [discriminate|intros j _ [E|[E|[E|E]]]; discriminate|intros j _ [E|E]; discriminate]). reflexivity.
Qed.

(** ** All threads *)
Definition q_reads (l : loc) : bool :=
  match fst l with
  | CircuitValue => snd l <? N
  | Uf => snd l <? 2 ^ h
  | Us => snd l <? 2 ^ (lu - h)
  | BetaGSum => snd l <? length gs
  | _ => false
  end.
Lemma q_foot : forall id, foot q_reads (p_writes s b lu id) (phase2_init_func s gs b lu v_u id).
Proof.
  clear Rvu CV HG HH AL few. intro id. unfold phase2_init_func. fold N U h. set (W := p_writes s b lu id).
  assert (WT : forall i, owns N i id = true -> forall t c, W (Tab s t c, i) = true).
  { intros i Hi t c. unfold W, p_writes. cbn [fst snd]. rewrite eqb_reflx. exact Hi. }
  assert (WC : forall i, owns N i id = true -> W (CountA, i) = true /\ W (CountM, i) = true) by (split; assumption).
  assert (WB : forall i, owns U i id = true -> W (BetaU, i) = true) by (intros i Hi; exact Hi).
  clearbody W.
  apply foot_andthen; [|apply foot_andthen; [|apply foot_andthen]].
  - apply foot_slice. intros i Hi. pose proof Hi as Hi'. apply owns_spec in Hi' as (_ & HU).
    destruct (half_ranges 0 lu i HU) as (H1 & H2). apply Nat.ltb_lt in H1, H2. fold h in H1, H2.
    unfold beta_u_entry, getf, putf. cbn [foot]. unfold q_reads. cbn [fst snd]. rewrite H1, H2, (WB i Hi).
    split; [reflexivity|]. intros _. split; [reflexivity|]. intros _. split; [reflexivity|exact I].
  - apply foot_slice. intros i Hi. destruct (WC i Hi) as (C1 & C2). pose proof (WT i Hi) as WI.
    unfold reset2, getf, putf, puti. cbn [foot]. rewrite C1, C2, !WI.
    do 6 (split; [reflexivity|]). split.
    { unfold q_reads. cbn [fst snd]. apply owns_spec in Hi as (_ & Hi). apply Nat.ltb_lt in Hi. rewrite Hi. reflexivity. }
    intros _. split; [reflexivity|]. split; [reflexivity|exact I].
  - apply foot_slice. intros v Hv. destruct (WC v Hv) as (C1 & C2). pose proof (WT v Hv) as WI.
    assert (CU : forall cnt t k, W (cnt, v) = true -> foot q_reads W k -> foot q_reads W (count_up cnt s t v k)).
    { intros cnt t k HC HK. unfold count_up, geti, puti, getf, putf. cbn [foot]. rewrite HC, orb_true_r.
      split; [reflexivity|]. intros _. split; [reflexivity|]. split; [reflexivity|]. intro z.
      destruct (as_int z >? 30)%Z; [|exact HK]. cbn [foot]. rewrite HC, WI, orb_true_r.
      split; [reflexivity|]. split; [reflexivity|]. intros _. split; [reflexivity|exact HK]. }
    assert (X : forall l, (forall x, In x l -> In x (v_gates gs v)) -> foot q_reads W (each l (phase2_gate_entry s v_u v))).
    { induction l as [|[[ty g] u] l IH]; intro HI; cbn [each]; [exact I|].
      apply foot_andthen; [|apply IH; intros x Hx; apply HI; right; exact Hx].
      assert (HB : used (ty, g, u) = true -> (0 <= u)%Z /\ W (BetaU, Z.to_nat u) = true /\ q_reads (BetaGSum, g) = true).
      { intro US. destruct (gate_inputs v ty g u (HI _ (or_introl eq_refl)) US) as (G1 & G2 & G3 & G4).
        split; [exact G2|]. split; [|unfold q_reads; cbn [fst snd]; apply Nat.ltb_lt, G1].
        apply WB, owns_spec. split; [|exact G3]. rewrite G4. apply owns_spec in Hv. apply Hv. }
      unfold phase2_gate_entry, getfz, getf, putf.
      destruct ty as [|[| |]|]; try exact I; destruct (HB eq_refl) as (H0 & H1 & H2); (destruct (Z.ltb_spec u 0); [lia|]);
        unfold getf; cbn [foot]; rewrite H1, H2, !WI, ?orb_true_r; cbn [orb].
      - do 3 (split; [reflexivity|]; intros _). split; [reflexivity|]. do 3 (split; [reflexivity|]; intros _).
        split; [reflexivity|]. apply CU; [exact C2|]. apply CU; [exact C1|exact I].
      - do 3 (split; [reflexivity|]; intros _). split; [reflexivity|]. apply CU; [exact C2|exact I]. }
    apply X. auto.
  - apply foot_slice. intros v Hv. destruct (WC v Hv) as (C1 & C2). pose proof (WT v Hv) as WI.
    unfold reduce2, geti, getf, putf. cbn [foot]. rewrite C2, orb_true_r. split; [reflexivity|]. intro z.
    assert (K : foot q_reads W (Get (CountA, v) (fun c : cell => if (as_int c =? 0)%Z then Ret else
       Get (Tab s TA Cb, v) (fun c0 : cell => Put (Tab s TA Cb, v) (Fe (u512_mod (as_fe c0))) Ret)))).
    { cbn [foot]. rewrite C1, orb_true_r. split; [reflexivity|]. intro z'. destruct (as_int z' =? 0)%Z; cbn [foot]; [exact I|].
      rewrite WI, orb_true_r. split; [reflexivity|]. intros _. split; [reflexivity|exact I]. }
    destruct (as_int z =? 0)%Z; [exact K|]. cbn [foot]. rewrite WI, orb_true_r. split; [reflexivity|]. intros _.
    split; [reflexivity|exact K].
Qed.
Lemma q_separate : separate NUM_THREADS (fun _ => q_reads) (p_writes s b lu).
Proof.
  intros x y [a j] _ _ NE H. unfold q_reads, p_writes in *. cbn [fst snd] in *.
  destruct a; try discriminate; cbn [orb]; try exact (owns_other _ _ _ _ NE H).
  apply andb_true_iff in H as (H1 & H2). rewrite H1. cbn [andb]. exact (owns_other _ _ _ _ NE H2).
Qed.
Lemma q_covers : covers NUM_THREADS (fun _ => q_reads) (p_writes s b lu) m.
Proof.
  destruct AL as (A1 & A2 & A3 & A4 & A5 & A6 & A7 & A8).
  intros id [a j] _ H. unfold q_reads, p_writes in H. cbn [fst snd] in H.
  destruct a as [| | | | | | | | | | | | | |s' t c| | | | |]; try discriminate; cbn [orb] in H; rewrite ?orb_false_r in H.
  - apply A1, Nat.ltb_lt, H.
  - apply A4, Nat.ltb_lt, H.
  - apply A2, Nat.ltb_lt, H.
  - apply A3, Nat.ltb_lt, H.
  - apply A5. apply owns_spec in H. apply H.
  - apply andb_true_iff in H as (H1 & H). apply eqb_prop in H1. subst s'. apply A8. apply owns_spec in H. apply H.
  - apply A6. apply owns_spec in H. apply H.
  - apply A7. apply owns_spec in H. apply H.
Qed.

Lemma phase2_ok : surely [parallel (phase2_init_func s gs b lu v_u)] m (fun m' =>
  (forall i, i < N -> done2 m' i) /\ mtab m' BetaU U wu).
Proof.
  eapply surely_cons; [|intros m2 D; apply surely_nil, D].
  apply (good_sep NUM_THREADS (fun _ => q_reads) (p_writes s b lu) _ _ post2).
  - exact q_separate.
  - intros id _. apply q_foot.
  - exact q_covers.
  - intros id _. apply thread2_ok.
  - intros m' A _.
    assert (X : forall t c i f, i < N -> (forall mi, done2 mi i -> holds mi (Tab s t c, i) f) -> holds m' (Tab s t c, i) f).
    { intros t c i f Hi H. pose proof (owner_owns b i Hi) as OW. pose proof (owner_lt b i Hi) as OL.
      destruct (A _ (Tab s t c, i) OL) as (mi & (T & _) & E).
      - unfold p_writes. cbn [fst snd]. rewrite eqb_reflx. exact OW.
      - eapply holds_eq; [exact E|]. apply H, T, OW. }
    split.
    + intros i Hi. unfold done2, fixed.
      split; [split; [|split; [|split]]|split]; (apply X; [exact Hi|]); intros mi ((D1 & D2 & D3 & D4) & D5 & D6); assumption.
    + intros i Hi. pose proof (owner_owns lu i Hi) as OW. pose proof (owner_lt lu i Hi) as OL.
      destruct (A _ (BetaU, i) OL) as (mi & (_ & T) & E); [exact OW|]. eapply holds_eq; [exact E|]. apply T, OW.
Qed.
End Layer.

(** ** Sums over the gates *)
Lemma total_vgates : forall gs v (t : Z * nat * Z -> F),
  total t (v_gates gs v) = sumn (length gs) (fun g => let x := nth g gs (Gate 2 0 0) in
    if (g_v x =? Z.of_nat v)%Z then t (g_ty x, g, g_u x) else 0%F).
Proof.
  intros gs v t. unfold v_gates.
  assert (app : forall l l', total t (l ++ l') = (total t l + total t l')%F).
  { induction l as [|x l IH]; intro l'; cbn [total app]; [ring|]. rewrite IH. ring. }
  assert (X : forall k l, total t (flat_map (fun gt : nat * gate => let '(g, x) := gt in
      if (g_v x =? Z.of_nat v)%Z then [(g_ty x, g, g_u x)] else []) (combine (seq k (length l)) l)) =
     sumn (length l) (fun g => let x := nth g l (Gate 2 0 0) in
       if (g_v x =? Z.of_nat v)%Z then t (g_ty x, k + g, g_u x) else 0%F)).
  { intros k l. revert k. induction l as [|x l IH]; intro k; cbn [length seq combine flat_map]; [reflexivity|].
    rewrite app, IH. change (S (length l)) with (1 + length l). rewrite sumn_app. cbn [sumn nth]. rewrite Nat.add_0_r.
    f_equal.
    - destruct (g_v x =? Z.of_nat v)%Z; cbn [total]; ring.
    - apply sumn_ext. intros g _. cbn [Nat.add nth]. rewrite Nat.add_succ_r. reflexivity. }
  rewrite X. apply sumn_ext. intros g _. reflexivity.
Qed.
Lemma adds_count : forall gs v,
  adds (v_gates gs v) = Z.of_nat (length (filter (fun x => (g_ty x =? 0) && (g_v x =? Z.of_nat v))%Z gs)).
Proof.
  intros gs v. unfold v_gates.
  assert (app : forall l l', adds (l ++ l') = (adds l + adds l')%Z).
  { induction l as [|[[ty g] u] l IH]; intro l'; cbn [adds app]; [lia|]. rewrite IH. lia. }
  assert (X : forall l k, adds (flat_map (fun gt : nat * gate => let '(g, x) := gt in
      if (g_v x =? Z.of_nat v)%Z then [(g_ty x, g, g_u x)] else []) (combine (seq k (length l)) l)) =
      Z.of_nat (length (filter (fun x => (g_ty x =? 0) && (g_v x =? Z.of_nat v))%Z l))).
  { induction l as [|x l IH]; intro k; cbn [length seq combine flat_map filter]; [reflexivity|].
    rewrite app, IH. destruct (g_v x =? Z.of_nat v)%Z; cbn [adds]; destruct (g_ty x =? 0)%Z; cbn [andb length]; lia. }
  apply X.
Qed.
