(** * C71: the messages of the multi-threaded rounds *)
From Coq Require Import ZArith List Bool Arith Lia.
From Verif Require Import Base Limbs Field LimbsProofs FieldProofs Fp Poly Circuit Lazy MleSpec TablesProofs FastProver.
From Verif Require Import Conc ParaProver ParaProofs ParaPhase1 ParaInit ParaUpdate ParaMessages PropsPara.
Import ListNotations.
Open Scope nat_scope.

(** The line of a pair of neighbours: constant and slope ([value] is that of C64). *)
Definition line (cb : nat) (r : F) (p : table -> comp -> nat -> F) (t : table) (c : comp) (i : nat) : F :=
  match c with
  | Cb => value cb r p t (2 * i)
  | Ca => (value cb r p t (2 * i + 1) - value cb r p t (2 * i))%F
  end.
(** The coefficient that is sent, summed up over the threads, is this field element. *)
Definition sends (m : memory) (a : arr) (v : F) : Prop := exists x, sum_rets m a = Some x /\ rep x v.
(** The coefficients of the sum of [M_i V_i + A_i]. *)
Definition sum_a (n cb : nat) (r : F) p : F := sumn (2 ^ n) (fun i => line cb r p TM Ca i * line cb r p TV Ca i)%F.
Definition sum_b (n cb : nat) (r : F) p : F :=
  sumn (2 ^ n) (fun i => line cb r p TM Ca i * line cb r p TV Cb i + line cb r p TM Cb i * line cb r p TV Ca i + line cb r p TA Ca i)%F.
Definition sum_c (n cb : nat) (r : F) p : F := sumn (2 ^ n) (fun i => line cb r p TM Cb i * line cb r p TV Cb i + line cb r p TA Cb i)%F.
Lemma sums_are_the_round : forall n cb r p X,
  (sum_a n cb r p * X * X + sum_b n cb r p * X + sum_c n cb r p)%F =
  sumn (2 ^ n) (fun i => (line cb r p TM Ca i * X + line cb r p TM Cb i) * (line cb r p TV Ca i * X + line cb r p TV Cb i)
                         + (line cb r p TA Ca i * X + line cb r p TA Cb i))%F.
Proof.
  intros n cb r p X. unfold sum_a, sum_b, sum_c. induction (2 ^ n) as [|k IH]; cbn [sumn]; [ring|]. rewrite <- IH. ring.
Qed.

Lemma lines_1 : forall s n cb r rF p m, rep r rF -> rounds_ready s n p m ->
  forall t c i, i < 2 ^ n -> rep (cur minus1 cb r (cells_of m s) t c i) (line cb rF p t c i).
Proof.
  intros s n cb r rF p m Hr RD t c i Hi. destruct (ready_src s n p m RD) as (_ & Hf). unfold cur, newc. destruct c.
  - exact (newa1_rep n cb r rF _ p Hr Hf t i Hi).
  - exact (newb_rep n cb r rF _ p Hr Hf t i Hi).
Qed.
(** The slopes of phase 2 do not underflow (C64). *)
Definition no_underflow (n cb : nat) (r : F) (p : table -> comp -> nat -> F) : Prop := cb <> 0 -> forall t i, i < 2 ^ n ->
  (fz (value cb r p t (2 * i)) <= fz (p t Ca (2 * i + 1)%nat) * fz r + fz (p t Cb (2 * i + 1)%nat))%Z.
Lemma lines_2 : forall s n cb r rF p m, rep r rF -> rounds_ready s n p m -> no_underflow n cb rF p ->
  forall t c i, i < 2 ^ n -> rep (cur minus2 cb r (cells_of m s) t c i) (line cb rF p t c i).
Proof.
  intros s n cb r rF p m Hr RD NU t c i Hi. destruct (ready_src s n p m RD) as (_ & Hf). unfold cur, newc. destruct c.
  - destruct (Nat.eq_dec cb 0) as [Z|NZ].
    + pose proof (newa1_rep n cb r rF _ p Hr Hf t i Hi) as RA. unfold newa in *. rewrite Z in *. exact RA.
    + apply (newa2_rep n cb r rF _ p Hr Hf t i Hi NZ). exact (NU NZ t i Hi).
  - exact (newb_rep n cb r rF _ p Hr Hf t i Hi).
Qed.

(** Phase 1: the outer coefficients for all tables, the middle one when no
    thread has more than one entry. *)
Theorem C71_phase1_messages : forall s n cb r rF p m, rep r rF -> rounds_ready s n p m ->
  surely (phase1_update_code s (2 ^ S n) cb r) m (fun m' =>
    sends m' RetA (sum_a n cb rF p) /\ sends m' RetC (sum_c n cb rF p) /\ (n <= 2 -> sends m' RetB (sum_b n cb rF p))).
Proof.
  intros s n cb r rF p m Hr RD. destruct (ready_src s n p m RD) as (S & _). pose proof (lines_1 s n cb r rF p m Hr RD) as L.
  eapply surely_conseq; [exact (phase1_messages_raw s n cb r _ m S (proj2 RD))|]. intros m' AS.
  destruct (all_summed_messages minus1 4 n cb r _ m' AS) as (EA & EB & EC). split; [|split].
  - eexists. split; [exact EA|]. apply (coefA _ _ _ _ _ _ _ L), light_4.
  - eexists. split; [exact EC|]. apply (coefC _ _ _ _ _ _ _ L), light_4.
  - intro Hn. eexists. split; [exact EB|]. apply (coefB _ _ _ _ _ _ _ L), light_2_4, Hn.
Qed.
Print Assumptions C71_phase1_messages.
(** Phase 2 reduces half as often; for slopes that do not underflow. *)
Theorem C71_phase2_messages : forall s n cb r rF p m, rep r rF -> rounds_ready s n p m -> no_underflow n cb rF p ->
  surely (phase2_update_code s (2 ^ S n) cb r) m (fun m' =>
    (n <= 3 -> sends m' RetA (sum_a n cb rF p) /\ sends m' RetC (sum_c n cb rF p)) /\ (n <= 2 -> sends m' RetB (sum_b n cb rF p))).
Proof.
  intros s n cb r rF p m Hr RD NU. destruct (ready_src s n p m RD) as (S & _). pose proof (lines_2 s n cb r rF p m Hr RD NU) as L.
  eapply surely_conseq; [exact (phase2_messages_raw s n cb r _ m S (proj2 RD))|]. intros m' AS.
  destruct (all_summed_messages minus2 8 n cb r _ m' AS) as (EA & EB & EC). split.
  - intro Hn. split.
    + eexists. split; [exact EA|]. apply (coefA _ _ _ _ _ _ _ L), light_1_8, Hn.
    + eexists. split; [exact EC|]. apply (coefC _ _ _ _ _ _ _ L), light_1_8, Hn.
  - intro Hn. eexists. split; [exact EB|]. apply (coefB _ _ _ _ _ _ _ L), light_2_8, Hn.
Qed.
Print Assumptions C71_phase2_messages.
(** The polynomial of a small round. *)
Theorem C71_small_round : forall s n cb r rF p m, rep r rF -> rounds_ready s n p m -> n <= 2 ->
  surely (phase1_update_code s (2 ^ S n) cb r) m (fun m' => exists a b c,
    sends m' RetA a /\ sends m' RetB b /\ sends m' RetC c /\ forall X, (a * X * X + b * X + c)%F =
    sumn (2 ^ n) (fun i => (line cb rF p TM Ca i * X + line cb rF p TM Cb i) * (line cb rF p TV Ca i * X + line cb rF p TV Cb i)
                         + (line cb rF p TA Ca i * X + line cb rF p TA Cb i))%F).
Proof.
  intros s n cb r rF p m Hr RD Hn. eapply surely_conseq; [exact (C71_phase1_messages s n cb r rF p m Hr RD)|].
  intros m' (A & C & B). exists (sum_a n cb rF p), (sum_b n cb rF p), (sum_c n cb rF p).
  split; [exact A|]. split; [exact (B Hn)|]. split; [exact C|]. intro X. apply sums_are_the_round.
Qed.
Print Assumptions C71_small_round.
Example C71_example : rep (fe_of_int 1) 1%F /\ rounds_ready false 1 p4 mem4 /\ no_underflow 1 0 1%F p4.
Proof. split; [exact rep_i1|]. split; [apply mem4_ready; lia|]. intro H. destruct H. reflexivity. Qed.

(** Intended: every message is right.  Tables of 64 entries 0, -1 and -2: in every execution the middle coefficient does not fit in 256 bits. *)
Definition top : fe := fe_sub (fe_of_int 0) (fe_of_int 1).
Definition top2 : fe := fe_sub (fe_of_int 0) (fe_of_int 2).
Definition p5 (t : table) (c : comp) (j : nat) : F :=
  match c with Ca => 0%F | Cb => if 16 <=? j then 0%F else if Nat.even j then (0 - 1)%F else (0 - (1 + 1))%F end.
Definition mem5 : memory := fun l => if snd l <? 64 then
  match fst l with
  | Outside => None
  | Tab _ _ Cb => Some (Fe (if 16 <=? snd l then fe_of_int 0 else if Nat.even (snd l) then top else top2))
  | _ => Some (Fe (fe_of_int 0))
  end else None.
Lemma mem5_ready : rounds_ready false 5 p5 mem5.
Proof.
  assert (X : forall j, j < 64 -> (j <? 64) = true) by (intros j Hj; apply Nat.ltb_lt, Hj).
  change (2 ^ 6) with 64. split; [|split].
  - intros t c j Hj. change (2 ^ 6) with 64 in Hj. unfold mem5, holds, p5. cbn [fst snd]. rewrite X by lia. destruct c; [exists (fe_of_int 0)|].
    + split; [reflexivity|exact rep_i0].
    + destruct (16 <=? j); [exists (fe_of_int 0); split; [reflexivity|exact rep_i0]|].
      destruct (Nat.even j); eexists; (split; [reflexivity|]); apply rep_sub; [exact rep_i0|exact rep_i1|exact rep_i0|exact rep_i2].
  - intros t c j Hj. change (2 ^ 5) with 32 in Hj. unfold mem5. cbn [fst snd]. rewrite X by lia. destruct c; discriminate.
  - intros id Hid. unfold NUM_THREADS in Hid. unfold mem5. cbn [fst snd]. rewrite X by lia. split; [discriminate|]. split; discriminate.
Qed.
Lemma mem5_heavy : (val512 (message 4 5 (rawB minus1 0 (fe_of_int 0) (cells_of mem5 false))) <? W256)%Z = false.
Proof. vm_compute. reflexivity. Qed.
Theorem C71_middle_refuted : exists s n cb r rF p m, rep r rF /\ rounds_ready s n p m /\
  forall o, exec (phase1_update_code s (2 ^ S n) cb r) m o ->
    exists m' x, o = Some m' /\ sum_rets m' RetB = Some x /\ (W256 <= val512 x)%Z.
Proof.
  exists false, 5, 0, (fe_of_int 0), 0%F, p5, mem5.
  split; [exact rep_i0|]. pose proof mem5_ready as RD. split; [exact RD|].
  destruct (ready_src false 5 p5 mem5 RD) as (S & _).
  destruct (phase1_messages_raw false 5 0 (fe_of_int 0) _ mem5 S (proj2 RD)) as (A & _).
  intros o E. destruct (A o E) as (m' & -> & AS). destruct (all_summed_messages _ _ _ _ _ _ m' AS) as (_ & EB & _).
  exists m'. eexists. split; [reflexivity|]. split; [exact EB|]. apply Z.ltb_ge. exact mem5_heavy.
Qed.
Print Assumptions C71_middle_refuted.

(** Already two entries per thread are too many: in every execution the middle
    coefficient is not reduced. *)
Definition c6 (t : table) (j : nat) : Z :=
  match t, j with
  | TV, 4 | TM, 4 | TV, 6 | TM, 6 => 1%Z | TV, 5 | TM, 5 | TV, 7 | TM, 7 => 2%Z
  | TA, 1 | TA, 9 | TA, 13 => 1%Z
  | TA, 5 | TA, 7 => 3%Z
  | _, _ => 0%Z
  end.
(** 0, -1, -2 or 1 *)
Definition fe6 (z : Z) : fe := match z with 1%Z => top | 2%Z => top2 | 3%Z => fe_of_int 1 | _ => fe_of_int 0 end.
Definition F6 (z : Z) : F := match z with 1%Z => (0 - 1)%F | 2%Z => (0 - (1 + 1))%F | 3%Z => 1%F | _ => 0%F end.
Lemma rep6 : forall z, rep (fe6 z) (F6 z).
Proof.
  intro z. unfold fe6, F6. destruct z as [|[[q|q|]|[q|q|]|]|q]; try exact rep_i0; try exact rep_i1; apply rep_sub;
    first [exact rep_i0|exact rep_i1|exact rep_i2].
Qed.
Definition p6 (t : table) (c : comp) (j : nat) : F := match c with Ca => 0%F | Cb => F6 (c6 t j) end.
Definition mem6 : memory := fun l => if snd l <? 16 then
  match fst l with
  | Outside => None
  | Tab _ t Cb => Some (Fe (fe6 (c6 t (snd l))))
  | _ => Some (Fe (fe_of_int 0))
  end else None.
Lemma mem6_ready : rounds_ready false 3 p6 mem6.
Proof.
  assert (X : forall j, j < 16 -> (j <? 16) = true) by (intros j Hj; apply Nat.ltb_lt, Hj).
  split; [|split].
  - intros t c j Hj. change (2 ^ 4) with 16 in Hj. unfold mem6, holds, p6. cbn [fst snd]. rewrite X by lia. destruct c; [exists (fe_of_int 0)|].
    + split; [reflexivity|exact rep_i0].
    + eexists. split; [reflexivity|apply rep6].
  - intros t c j Hj. change (2 ^ 3) with 8 in Hj. unfold mem6. cbn [fst snd]. rewrite X by lia. destruct c; discriminate.
  - intros id Hid. unfold NUM_THREADS in Hid. unfold mem6. cbn [fst snd]. rewrite X by lia. split; [discriminate|]. split; discriminate.
Qed.
Lemma mem6_edge : (val512 (message 4 3 (rawB minus1 0 (fe_of_int 0) (cells_of mem6 false))) =? P + 3)%Z = true.
Proof. vm_compute. reflexivity. Qed.
Theorem C71_middle_edge_refuted : exists s cb r rF p m, rep r rF /\ rounds_ready s 3 p m /\
  forall o, exec (phase1_update_code s (2 ^ 4) cb r) m o ->
    exists m' x, o = Some m' /\ sum_rets m' RetB = Some x /\ forall v, ~ rep x v.
Proof.
  exists false, 0, (fe_of_int 0), 0%F, p6, mem6.
  split; [exact rep_i0|]. pose proof mem6_ready as RD. split; [exact RD|].
  destruct (ready_src false 3 p6 mem6 RD) as (S & _).
  destruct (phase1_messages_raw false 3 0 (fe_of_int 0) _ mem6 S (proj2 RD)) as (A & _).
  intros o E. destruct (A o E) as (m' & -> & AS). destruct (all_summed_messages _ _ _ _ _ _ m' AS) as (_ & EB & _).
  exists m'. eexists. split; [reflexivity|]. split; [exact EB|].
  pose proof mem6_edge as X. apply Z.eqb_eq in X. revert X. generalize (message 4 3 (rawB minus1 0 (fe_of_int 0) (cells_of mem6 false))).
  intros x X v (_ & V). pose proof (fz_range v). lia.
Qed.
Print Assumptions C71_middle_edge_refuted.
