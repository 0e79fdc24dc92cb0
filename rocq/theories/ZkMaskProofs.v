(** * The zk prover's mask polynomial *)
From Coq Require Import ZArith List Bool Arith Lia Ring.
From Verif Require Import Limbs Field Fp Base ArithProofs MleSpec GkrMath Poly PolyProofs Circuit
  FastProver Lazy TablesProofs SpecGkr SpecVpd VpdGroup VpdR VpdMask VpdInput ZkProver.
Import ListNotations.
Open Scope nat_scope.

(** ** The polynomial, split by variables *)
(** [2n+1] variables; variable [k] contributes a square and a linear term,
    variables [n-1] and [2n-1] also terms of degree 5, 4, 3. *)
Section Split.
Local Open Scope F_scope.
Definition lo (c : nat -> F) (k : nat) (t : F) : F := c (2 * k)%nat * (t * t) + c (2 * k + 1)%nat * t.
Definition hi (c : nat -> F) (d h : nat) (t : F) : F :=
  c (d * 2 + h)%nat * Fpow t 5 + c (d * 2 + h + 1)%nat * Fpow t 4 + c (d * 2 + h + 2)%nat * Fpow t 3.
Definition qv (c : nat -> F) (n k : nat) (t : F) : F :=
  lo c k t + ind (k =? n - 1)%nat * hi c (2 * n + 1) 1 t + ind (k =? 2 * n - 1)%nat * hi c (2 * n + 1) 4 t.
Definition qsum (c : nat -> F) (n : nat) (rs : list F) : F := sumn (length rs) (fun k => qv c n k (nth k rs 0)).
(** What remains of the announced sum when the first [j] variables are taken out. *)
Definition Sc (c : nat -> F) (n j : nat) : F :=
  Fpow two (2 * n + 1 - j) * (c ((2 * n + 1) * 2)%nat + half * sumn (2 * n + 1 - j) (fun k => qv c n (j + k) 1)).
(** Sum of the polynomial over the free variables, [rs] being the values of the first. *)
Definition Mk (c : nat -> F) (n : nat) (rs : list F) : F :=
  Sc c n (length rs) + Fpow two (2 * n + 1 - length rs) * qsum c n rs.
(** The same with variable number [length rs] set to [t]. *)
Definition mround (c : nat -> F) (n : nat) (rs : list F) (t : F) : F :=
  Fpow two (2 * n - length rs) * (qv c n (length rs) t + qsum c n rs) + Sc c n (S (length rs)).

Lemma sumn_S_first : forall n f, sumn (S n) f = f 0%nat + sumn n (fun i => f (S i)).
Proof.
  intros n f. change (S n) with (1 + n)%nat. rewrite sumn_app. cbn [sumn].
  rewrite (sumn_ext n (fun i => f (1 + i)%nat) (fun i => f (S i))) by reflexivity. ring.
Qed.
Lemma lo_0 : forall c k, lo c k 0 = 0. Proof. intros. unfold lo. ring. Qed.
Lemma hi_0 : forall c d h, hi c d h 0 = 0. Proof. intros. unfold hi. cbn [Fpow]. ring. Qed.
Lemma qv_0 : forall c n k, qv c n k 0 = 0.
Proof. intros. unfold qv. rewrite lo_0, !hi_0. ring. Qed.
Lemma two_half' : two * half = 1.
Proof. rewrite <- two_half. unfold two. ring. Qed.
Lemma Sc_step : forall c n j, (j < 2 * n + 1)%nat ->
  (Sc c n j - Fpow two (2 * n - j) * qv c n j 1) * half = Sc c n (S j).
Proof.
  intros c n j H. unfold Sc. replace (2 * n + 1 - j)%nat with (S (2 * n - j)) by lia.
  replace (2 * n + 1 - S j)%nat with (2 * n - j)%nat by lia.
  rewrite sumn_S_first. rewrite Nat.add_0_r. cbn [Fpow].
  rewrite (sumn_ext (2 * n - j) (fun i => qv c n (j + S i) 1) (fun k => qv c n (S j + k) 1))
    by (intros; f_equal; lia).
  set (T := sumn _ _). pose proof two_half' as H2.
  transitivity (Fpow two (2 * n - j) * ((two * half) * (c ((2 * n + 1) * 2)%nat + half * (qv c n j 1 + T)) - half * qv c n j 1));
    [ring|]. rewrite H2. ring.
Qed.
Lemma qsum_snoc : forall c n rs t, qsum c n (rs ++ [t]) = qsum c n rs + qv c n (length rs) t.
Proof.
  intros. unfold qsum. rewrite app_length. cbn [length]. rewrite Nat.add_1_r. cbn [sumn].
  f_equal; [|rewrite app_nth2, Nat.sub_diag by lia; reflexivity].
  apply sumn_ext. intros i Hi. rewrite app_nth1 by exact Hi. reflexivity.
Qed.
Lemma mround_01 : forall c n rs, (length rs <= 2 * n)%nat -> mround c n rs 0 + mround c n rs 1 = Mk c n rs.
Proof.
  intros c n rs H. unfold mround, Mk. rewrite qv_0.
  pose proof (Sc_step c n (length rs) ltac:(lia)) as E.
  replace (2 * n + 1 - length rs)%nat with (S (2 * n - length rs)) by lia. cbn [Fpow]. rewrite <- E.
  set (a := Sc c n (length rs)). set (p := Fpow two (2 * n - length rs)). set (q := qv c n (length rs) 1).
  transitivity (two * p * qsum c n rs + p * q + (two * half) * (a - p * q)); [unfold two; ring|].
  rewrite two_half'. ring.
Qed.
Lemma mround_next : forall c n rs t, (length rs <= 2 * n)%nat -> mround c n rs t = Mk c n (rs ++ [t]).
Proof.
  intros c n rs t H. unfold mround, Mk. rewrite qsum_snoc, app_length. cbn [length]. rewrite Nat.add_1_r.
  replace (2 * n + 1 - S (length rs))%nat with (2 * n - length rs)%nat by lia. ring.
Qed.
Lemma Mk_end : forall c n rs, (0 < n)%nat -> length rs = (2 * n + 1)%nat ->
  Mk c n rs = mask_poly (2 * n + 1) c (fun i => nth i rs 0).
Proof.
  intros c n rs Hn H. unfold Mk, Sc, qsum, mask_poly. rewrite H, Nat.sub_diag. cbn [sumn Fpow].
  replace ((2 * n + 1) / 2 - 1)%nat with (n - 1)%nat
    by (rewrite Nat.mul_comm, Nat.div_add_l by lia; simpl; lia).
  replace (2 * n + 1 - 2)%nat with (2 * n - 1)%nat by lia.
  replace ((2 * n + 1) * 2)%nat with (2 * (2 * n + 1))%nat by lia.
  unfold qv. rewrite !sumn_add.
  rewrite (sumn_ind (2 * n + 1) (n - 1) (fun k => hi c (2 * n + 1) 1 (nth k rs 0))) by lia.
  rewrite (sumn_ind (2 * n + 1) (2 * n - 1) (fun k => hi c (2 * n + 1) 4 (nth k rs 0))) by lia.
  unfold hi, lo. rewrite !sumn_add.
  replace ((2 * n + 1) * 2 + 1 + 1)%nat with (2 * (2 * n + 1) + 2)%nat by lia.
  replace ((2 * n + 1) * 2 + 1 + 2)%nat with (2 * (2 * n + 1) + 3)%nat by lia.
  replace ((2 * n + 1) * 2 + 4 + 1)%nat with (2 * (2 * n + 1) + 5)%nat by lia.
  replace ((2 * n + 1) * 2 + 4 + 2)%nat with (2 * (2 * n + 1) + 6)%nat by lia.
  replace ((2 * n + 1) * 2 + 1)%nat with (2 * (2 * n + 1) + 1)%nat by lia.
  replace ((2 * n + 1) * 2 + 4)%nat with (2 * (2 * n + 1) + 4)%nat by lia.
  cbn [Fpow]. ring.
Qed.

(** ** Sum over the cube *)
Lemma hyper_const : forall n a, hyper n (fun _ => a) = Fpow two n * a.
Proof.
  unfold hyper. induction n as [|n IH]; intro a.
  - cbn. ring.
  - rewrite pow2_S, sumn_double. change (sumn (2 ^ n) (fun _ => a + a) = Fpow two (S n) * a).
    rewrite IH. cbn [Fpow]. unfold two. ring.
Qed.
Lemma hyper_S : forall n f, hyper (S n) f = hyper n (fun X => f (0 :: X)) + hyper n (fun X => f (1 :: X)).
Proof.
  intros n f. unfold hyper. rewrite pow2_S, sumn_double, <- sumn_add. apply sumn_ext. intros x Hx.
  cbn [bitvec]. rewrite odd_2, odd_21, Nat.add_1_r, Nat.div2_succ_double, Nat.div2_double. reflexivity.
Qed.
Lemma hyper_add : forall n f g, hyper n (fun X => f X + g X) = hyper n f + hyper n g.
Proof. intros. unfold hyper. apply sumn_add. Qed.
Lemma hyper_ext : forall n f g, (forall X, length X = n -> f X = g X) -> hyper n f = hyper n g.
Proof. intros n f g H. apply sumn_ext. intros x Hx. apply H, bitvec_length. Qed.
(** A sum of functions of one variable each. *)
Lemma hyper_separable : forall n (f : nat -> F -> F),
  hyper n (fun X => sumn n (fun i => f i (nth i X 0))) = Fpow two n * (half * sumn n (fun i => f i 0 + f i 1)).
Proof.
  induction n as [|n IH]; intro f.
  - unfold hyper. cbn. ring.
  - rewrite hyper_S.
    rewrite (hyper_ext n _ (fun X => f 0%nat 0 + sumn n (fun i => f (S i) (nth i X 0))))
      by (intros; rewrite sumn_S_first; reflexivity).
    rewrite (hyper_ext n (fun X => sumn (S n) (fun i => f i (nth i (1 :: X) 0))) (fun X => f 0%nat 1 + sumn n (fun i => f (S i) (nth i X 0))))
      by (intros; rewrite sumn_S_first; reflexivity).
    rewrite !hyper_add, !hyper_const, (IH (fun i => f (S i))), sumn_S_first. cbn [Fpow].
    set (T := sumn n _). pose proof two_half' as H2.
    transitivity (Fpow two n * ((f 0%nat 0 + f 0%nat 1) + two * half * T)); [unfold two; ring|].
    transitivity (Fpow two n * ((two * half) * (f 0%nat 0 + f 0%nat 1) + two * half * T)); [rewrite H2; ring|unfold two; ring].
Qed.
Lemma hyper_mask : forall c n, (0 < n)%nat ->
  hyper (2 * n + 1) (fun X => mask_poly (2 * n + 1) c (fun i => nth i X 0)) = Sc c n 0.
Proof.
  intros c n Hn.
  rewrite (hyper_ext _ _ (fun X => c ((2 * n + 1) * 2)%nat + sumn (2 * n + 1) (fun i => qv c n i (nth i X 0)))).
  - rewrite hyper_add, hyper_const, hyper_separable. unfold Sc. rewrite Nat.sub_0_r.
    rewrite (sumn_ext _ (fun i => qv c n i 0 + qv c n i 1) (fun i => qv c n (0 + i) 1))
      by (intros; rewrite qv_0; simpl Nat.add; ring). ring.
  - intros X HX. rewrite <- Mk_end by assumption. unfold Mk, Sc, qsum. rewrite HX, Nat.sub_diag. cbn [sumn Fpow]. ring.
Qed.
End Split.

(** ** The code *)
Lemma dbl_n_ok : forall k x a, rep x a -> rep (dbl_n k x) (Fpow two k * a)%F.
Proof.
  induction k as [|k IH]; intros x a H.
  - eapply rep_eq; [exact H|]. cbn [Fpow]. ring.
  - change (dbl_n (S k) x) with (fe_add (dbl_n k x) (dbl_n k x)).
    eapply rep_eq; [apply rep_add; apply IH, H|]. cbn [Fpow]. unfold two. ring.
Qed.
Lemma mulpow_ok : forall k x r a b, rep x a -> rep r b -> rep (mulpow k x r) (a * Fpow b k)%F.
Proof.
  induction k as [|k IH]; intros x r a b H R.
  - eapply rep_eq; [exact H|]. cbn [Fpow]. ring.
  - change (mulpow (S k) x r) with (fe_mul (mulpow k x r) r).
    eapply rep_eq; [apply rep_mul; [apply IH; eassumption|exact R]|]. cbn [Fpow]. ring.
Qed.

(** The mask of [2n+1] variables with coefficients [c], the sums for round [j]. *)
Record mstate (n : nat) (c : nat -> F) (M : mpart) (j : nat) (s : F) : Prop := {
  ms_poly : tab (4 * n + 9) (m_poly M) (4 * n + 9) c;
  ms_sumc : rep (m_sumc M) (Sc c n j);
  ms_sumr : rep (m_sumr M) s }.

Lemma mask_low_ok : forall n c poly j k, tab (4 * n + 9) poly (4 * n + 9) c -> j < 2 * n + 1 ->
  returns (mask_low poly j k) (fun p => rep (fst p) (Fpow two k * c (2 * j)%nat)%F /\ rep (snd p) (Fpow two k * c (2 * j + 1)%nat)%F).
Proof.
  intros n c poly j k T H. unfold mask_low. eapply rb_tab; [exact T|lia|]. intros x Rx.
  eapply rb_tab; [exact T|lia|]. intros y Ry. apply returns_ok. split; apply dbl_n_ok; assumption.
Qed.
Lemma mask_high_ok : forall n c poly h k, tab (4 * n + 9) poly (4 * n + 9) c -> 1 <= h <= 4 ->
  returns (mask_high poly (2 * n + 1) h k) (fun p =>
     rep (fst (fst p)) (Fpow two k * c ((2 * n + 1) * 2 + h)%nat)%F /\
     rep (snd (fst p)) (Fpow two k * c ((2 * n + 1) * 2 + h + 1)%nat)%F /\
     rep (snd p) (Fpow two k * c ((2 * n + 1) * 2 + h + 2)%nat)%F).
Proof.
  intros n c poly h k T H. unfold mask_high. eapply rb_tab; [exact T|lia|]. intros x Rx.
  eapply rb_tab; [exact T|lia|]. intros y Ry. eapply rb_tab; [exact T|lia|]. intros t Rt.
  apply returns_ok. cbn [fst snd]. split; [|split]; apply dbl_n_ok; assumption.
Qed.
Lemma mask_sumr_ok : forall n c poly j prev r sumr s, tab (4 * n + 9) poly (4 * n + 9) c -> 0 < j <= 2 * n + 1 ->
  rep prev r -> rep sumr s -> returns (mask_sumr poly j prev sumr) (fun x => rep x (s + lo c (j - 1) r)%F).
Proof.
  intros n c poly j prev r sumr s T H Rp Rs. unfold mask_sumr. apply rb_idx; [lia|]. apply rb_idx; [lia|].
  replace (Z.to_nat (2 * Z.of_nat j - 2)) with (2 * (j - 1)) by lia.
  replace (Z.to_nat (2 * Z.of_nat j - 1)) with (2 * (j - 1) + 1) by lia.
  eapply rb_tab; [exact T|lia|]. intros x Rx. eapply rb_tab; [exact T|lia|]. intros y Ry.
  apply returns_ok. unfold lo. eapply rep_eq.
  - apply rep_add; [apply rep_add; [exact Rs|apply rep_mul; [apply rep_mul; [exact Rx|exact Rp]|exact Rp]]|apply rep_mul; [exact Ry|exact Rp]].
  - ring.
Qed.
Lemma mask_sumr_high_ok : forall n c poly h prev r sumr s, tab (4 * n + 9) poly (4 * n + 9) c -> 1 <= h <= 4 ->
  rep prev r -> rep sumr s -> returns (mask_sumr_high poly (2 * n + 1) h prev sumr) (fun x => rep x (s + hi c (2 * n + 1) h r)%F).
Proof.
  intros n c poly h prev r sumr s T H Rp Rs. unfold mask_sumr_high. eapply rb_tab; [exact T|lia|]. intros x Rx. cbv zeta.
  eapply rb_tab; [exact T|lia|]. intros y Ry. eapply rb_tab; [exact T|lia|]. intros t Rt.
  apply returns_ok. unfold hi. eapply rep_eq.
  - apply rep_add; [apply rep_add; [apply rep_add; [exact Rs|]|]|]; apply mulpow_ok; eassumption.
  - ring.
Qed.

(** One quadratic round: the coefficients added to the round polynomial. *)
Lemma mask_round_ok : forall n c M j s dosumr prev r, mstate n c M j s -> j < 2 * n + 1 -> j <> n - 1 -> j <> 2 * n - 1 ->
  (dosumr = true -> 0 < j) -> (dosumr = false -> s = 0%F) -> rep prev r ->
  let s' := if dosumr then (s + lo c (j - 1) r)%F else s in
  returns (mask_round M (2 * n) j dosumr prev) (fun x => let '(t1, t2, t3, M') := x in
    rep t1 (Fpow two (2 * n - j) * c (2 * j)%nat)%F /\ rep t2 (Fpow two (2 * n - j) * c (2 * j + 1)%nat)%F /\
    rep t3 (Fpow two (2 * n - j) * s')%F /\ mstate n c M' (S j) s' /\ exists sc sr, M' = set_sums M sc sr).
Proof.
  intros n c M j s dosumr prev r [T Rc Rs] Hj N1 N2 HP H0 Rp s'. unfold mask_round.
  eapply returns_bind; [eapply mask_low_ok; [exact T|lia]|]. intros [t1 t2] [R1 R2]. cbn [fst snd] in R1, R2.
  assert (RS : rep (fe_mul (fe_sub (fe_sub (m_sumc M) t1) t2) inv_2) (Sc c n (S j))).
  { eapply rep_eq; [apply rep_mul; [apply rep_sub; [apply rep_sub; [exact Rc|exact R1]|exact R2]|apply rep_inv_2]|].
    rewrite <- Sc_step by exact Hj. unfold qv, lo.
    apply Nat.eqb_neq in N1, N2. rewrite N1, N2. cbn [ind]. ring. }
  cbv zeta. destruct dosumr.
  - eapply returns_bind; [eapply mask_sumr_ok; [exact T|specialize (HP eq_refl); lia|exact Rp|exact Rs]|].
    intros sr Rsr. cbv beta in Rsr. apply returns_ok. split; [exact R1|]. split; [exact R2|].
    split; [apply dbl_n_ok, Rsr|]. split; [constructor; cbn [set_sums m_poly m_sumc m_sumr]; assumption|eauto].
  - apply returns_ok. split; [exact R1|]. split; [exact R2|]. subst s'.
    split; [|split; [constructor; cbn [set_sums m_poly m_sumc m_sumr]; assumption|eauto]].
    rewrite (H0 eq_refl). eapply rep_eq; [apply rep_0|ring].
Qed.
(** One quintic round. *)
Lemma mask_round5_ok : forall n c M j h s dosumr prev r, mstate n c M j s -> 0 < n ->
  (j = n - 1 /\ h = 1 \/ j = 2 * n - 1 /\ h = 4) ->
  (dosumr = true -> 0 < j) -> (dosumr = false -> s = 0%F) -> rep prev r ->
  let s' := if dosumr then (s + lo c (j - 1) r)%F else s in
  returns (mask_round5 M (2 * n) j h dosumr prev) (fun x => let '(t1, t2, t3, (t4, t5, t6), M') := x in
    rep t1 (Fpow two (2 * n - j) * c (2 * j)%nat)%F /\ rep t2 (Fpow two (2 * n - j) * c (2 * j + 1)%nat)%F /\
    rep t3 (Fpow two (2 * n - j) * s')%F /\
    rep t4 (Fpow two (2 * n - j) * c ((2 * n + 1) * 2 + h)%nat)%F /\
    rep t5 (Fpow two (2 * n - j) * c ((2 * n + 1) * 2 + h + 1)%nat)%F /\
    rep t6 (Fpow two (2 * n - j) * c ((2 * n + 1) * 2 + h + 2)%nat)%F /\
    mstate n c M' (S j) s' /\ exists sc sr, M' = set_sums M sc sr).
Proof.
  intros n c M j h s dosumr prev r [T Rc Rs] Hn Hjh HP H0 Rp s'. unfold mask_round5.
  eapply returns_bind; [eapply mask_low_ok; [eassumption|lia]|]. intros [t1 t2] [R1 R2]. cbn [fst snd] in R1, R2.
  eapply returns_bind; [eapply mask_high_ok; [eassumption|lia]|]. intros [[t4 t5] t6] (R4 & R5 & R6). cbn [fst snd] in R4, R5, R6.
  assert (RS : rep (fe_mul (fe_sub (fe_sub (fe_sub (fe_sub (fe_sub (m_sumc M) t1) t2) t4) t5) t6) inv_2) (Sc c n (S j))).
  { eapply rep_eq.
    { apply rep_mul; [|apply rep_inv_2]. repeat (apply rep_sub; [|eassumption]). exact Rc. }
    rewrite <- Sc_step by lia. unfold qv, lo, hi. cbn [Fpow].
    destruct Hjh as [[E1 E2]|[E1 E2]]; subst h.
    - rewrite (proj2 (Nat.eqb_eq j (n - 1)) E1). rewrite (proj2 (Nat.eqb_neq j (2 * n - 1))) by lia. cbn [ind]. ring.
    - rewrite (proj2 (Nat.eqb_eq j (2 * n - 1)) E1). rewrite (proj2 (Nat.eqb_neq j (n - 1))) by lia. cbn [ind]. ring. }
  cbv zeta. destruct dosumr.
  - eapply returns_bind; [eapply mask_sumr_ok; [exact T|specialize (HP eq_refl); lia|exact Rp|exact Rs]|].
    intros sr Rsr. cbv beta in Rsr. apply returns_ok. split; [exact R1|]. split; [exact R2|].
    split; [apply dbl_n_ok, Rsr|]. split; [exact R4|]. split; [exact R5|]. split; [exact R6|].
    split; [constructor; cbn [set_sums m_poly m_sumc m_sumr]; assumption|eauto].
  - apply returns_ok. split; [exact R1|]. split; [exact R2|]. subst s'.
    split; [rewrite (H0 eq_refl); eapply rep_eq; [apply rep_0|ring]|].
    split; [exact R4|]. split; [exact R5|]. split; [exact R6|].
    split; [constructor; cbn [set_sums m_poly m_sumc m_sumr]; assumption|eauto].
Qed.

(** ** Announcing the sum *)
Lemma sumn_rev : forall k f, sumn (S k) (fun j => f (k - j)) = sumn (S k) f.
Proof.
  induction k as [|k IH]; intro f.
  - reflexivity.
  - rewrite sumn_S_first. rewrite (sumn_ext (S k) (fun i => f (S k - S i)) (fun i => f (k - i))) by reflexivity.
    rewrite IH. change (sumn (S (S k)) f) with (sumn (S k) f + f (S k))%F. replace (S k - 0) with (S k) by lia. ring.
Qed.
Lemma Sc_0 : forall c n, 0 < n ->
  (Fpow two (2 * n) * (c ((2 * n + 1) * 2)%nat + sumn ((2 * n + 1) * 2 + 1) c + sumn 6 (fun i => c ((2 * n + 1) * 2 + (1 + i))%nat)) = Sc c n 0)%F.
Proof.
  intros c n Hn. unfold Sc. rewrite Nat.sub_0_r. unfold qv. rewrite !sumn_add.
  rewrite (sumn_ext (2 * n + 1) (fun i => ind (0 + i =? n - 1)%nat * hi c (2 * n + 1) 1 1)%F (fun i => ind (i =? n - 1)%nat * (fun _ => hi c (2 * n + 1) 1 1) i)%F)
    by reflexivity.
  rewrite (sumn_ind (2 * n + 1) (n - 1)) by lia.
  rewrite (sumn_ext (2 * n + 1) (fun i => ind (0 + i =? 2 * n - 1)%nat * hi c (2 * n + 1) 4 1)%F (fun i => ind (i =? 2 * n - 1)%nat * (fun _ => hi c (2 * n + 1) 4 1) i)%F)
    by reflexivity.
  rewrite (sumn_ind (2 * n + 1) (2 * n - 1)) by lia.
  rewrite (Nat.add_1_r ((2 * n + 1) * 2)). cbn [sumn]. rewrite (Nat.mul_comm (2 * n + 1) 2), sumn_double.
  rewrite (sumn_ext (2 * n + 1) (fun i => lo c (0 + i) 1) (fun i => c (2 * i)%nat + c (2 * i + 1)%nat)%F) by (intros; unfold lo; simpl (0 + i); ring).
  set (T := sumn (2 * n + 1) _). unfold hi. cbn [Fpow]. rewrite (Nat.mul_comm (2 * n + 1) 2).
  rewrite (Nat.add_1_r (2 * n)). cbn [Fpow].
  replace (2 * S (2 * n) + 1 + 1) with (2 * S (2 * n) + (1 + 1)) by lia.
  replace (2 * S (2 * n) + 1 + 2) with (2 * S (2 * n) + (1 + 2)) by lia.
  replace (2 * S (2 * n) + 4 + 1) with (2 * S (2 * n) + (1 + 4)) by lia.
  replace (2 * S (2 * n) + 4 + 2) with (2 * S (2 * n) + (1 + 5)) by lia.
  replace (2 * S (2 * n) + 4) with (2 * S (2 * n) + (1 + 3)) by lia.
  replace (2 * S (2 * n) + 1) with (2 * S (2 * n) + (1 + 0)) by lia.
  set (K := 2 * S (2 * n)). set (p := Fpow two (2 * n)).
  transitivity (p * (two * c K + (T + (c (K + (1 + 0))%nat + c (K + (1 + 1))%nat + c (K + (1 + 2))%nat) + (c (K + (1 + 3))%nat + c (K + (1 + 4))%nat + c (K + (1 + 5))%nat))))%F;
    [unfold two; ring|].
  transitivity (p * (two * c K + (two * half) * (T + (c (K + (1 + 0))%nat + c (K + (1 + 1))%nat + c (K + (1 + 2))%nat) + (c (K + (1 + 3))%nat + c (K + (1 + 4))%nat + c (K + (1 + 5))%nat))))%F;
    [rewrite two_half'; ring|unfold two; ring].
Qed.

Lemma after_rho_ok : forall n c0 z rho, 0 < n ->
  tab (4 * n + 9) (m_poly (z_m z)) (4 * n + 9) c0 -> rep (m_rho (z_m z)) rho ->
  returns (generate_maskpoly_after_rho z (n * 2 + 1) 2) (fun z' => exists poly s,
    let M := MPart poly (m_gmp (z_m z)) s (fe_of_int 0) (m_rho (z_m z)) (m_rf (z_m z)) in
    z' = set_m z M /\ mstate n (fun i => c0 i * rho)%F M 0 0).
Proof.
  intros n c0 z rho Hn T Rr. unfold generate_maskpoly_after_rho. cbv zeta.
  set (k := (n * 2 + 1) * 2). assert (Ek : k = (2 * n + 1) * 2) by (subst k; lia).
  eapply returns_bind.
  { apply (returns_for _ (k + 1 + 6) 0 _ (fun j poly => tab (4 * n + 9) poly (4 * n + 9)
      (fun i => if i <? j then (c0 i * rho)%F else c0 i))).
    - eapply tab_ext; [exact T|]. intros i Hi. reflexivity.
    - intros j poly Hj T'. eapply rb_tab; [exact T'|lia|]. intros x Rx.
      apply returns_wr; [destruct T' as [-> _]; lia|].
      destruct T' as (L' & _ & H'). split; [rewrite upd_length; exact L'|]. split; [lia|].
      intros i Hi. cbv beta in Rx. rewrite (proj2 (Nat.ltb_ge j j)) in Rx by lia.
      destruct (Nat.eq_dec i j) as [->|Nij].
      + exists (fe_mul x (m_rho (z_m z))). split; [apply nth_upd_same; lia|].
        rewrite (proj2 (Nat.ltb_lt j (S j))) by lia. apply rep_mul; assumption.
      + rewrite nth_upd_other by lia. destruct (H' i Hi) as (y & Ey & Ry). exists y. split; [exact Ey|].
        destruct (Nat.ltb_spec i j), (Nat.ltb_spec i (S j)); try exact Ry; lia. }
  intros poly T1. cbv beta in T1.
  assert (TC : tab (4 * n + 9) poly (4 * n + 9) (fun i => (c0 i * rho)%F)).
  { eapply tab_ext; [exact T1|]. intros i Hi. cbv beta. rewrite (proj2 (Nat.ltb_lt i (0 + (k + 1 + 6)))) by lia. reflexivity. }
  clear T1. set (c := fun i => (c0 i * rho)%F) in *.
  eapply rb_tab; [exact TC|lia|]. intros s0 R0.
  eapply returns_bind.
  { apply (returns_for _ (k + 1) 0 _ (fun j s => rep s (c k + sumn j (fun t => c (k - t)%nat))%F)).
    - eapply rep_eq; [exact R0|]. cbn [sumn]. ring.
    - intros j s Hj Rs. eapply rb_tab; [exact TC|lia|]. intros x Rx. apply returns_ok.
      cbn [sumn]. eapply rep_eq; [apply rep_add; [exact Rs|exact Rx]|]. ring. }
  intros s1 R1. cbv beta in R1. simpl (0 + (k + 1)) in R1.
  eapply returns_bind.
  { apply (returns_for _ 6 1 _ (fun j s => rep s (c k + sumn (k + 1) (fun t => c (k - t)%nat) + sumn (j - 1) (fun t => c (k + (1 + t))%nat))%F)).
    - eapply rep_eq; [exact R1|]. cbn [Nat.sub sumn]. ring.
    - intros j s Hj Rs. eapply rb_tab; [exact TC|lia|]. intros x Rx. apply returns_ok.
      replace (S j - 1) with (S (j - 1)) by lia. cbn [sumn]. replace (k + (1 + (j - 1))) with (k + j) by lia.
      eapply rep_eq; [apply rep_add; [exact Rs|exact Rx]|]. ring. }
  intros s2 R2. cbv beta in R2. change (1 + 6 - 1) with 6 in R2. apply returns_ok.
  eexists. eexists. cbv zeta. split; [reflexivity|]. constructor; cbn [m_poly m_sumc m_sumr].
  - exact TC.
  - replace (n * 2 + 1 - 1) with (2 * n) by lia. eapply rep_eq; [apply dbl_n_ok, R2|].
    rewrite <- Sc_0 by exact Hn. rewrite <- Ek, (Nat.add_1_r k), sumn_rev. reflexivity.
  - exact rep_i0.
Qed.
