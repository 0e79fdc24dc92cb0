(** * Few challenges and few exponents are degenerate *)
From Coq Require Import ZArith List Bool Arith Lia Ring.
From Verif Require Import Limbs Field FieldProofs Fp Base ArithProofs MleSpec GkrMath Poly PolyProofs Circuit
  FastProver FastVerifier Lazy TablesProofs FastProverProofs PhaseProofs FastVerifierProofs SpecGkr SpecVpd SpecZk SpecTranscript Count SoundProofs
  ZkMaskProofs ZkRoundProofs ZkProver ZkVerifier ZkOpenProofs ZkVerifierProofs ZkComplete ZkFacts ZkIdeal ZkTarget TranscriptProofs ZkHide ZkView ZkGroup ZkViewProofs ZkHideProofs ZkFull.
Import ListNotations.
Open Scope nat_scope.

Lemma few_or : forall n k k' (E E' : list F -> Prop), few n k E -> few n k' E' -> few n (k + k') (fun v => E v \/ E' v).
Proof.
  intros n k k' E E' (l & L & H) (l' & L' & H'). exists (l ++ l'). rewrite app_length. split; [lia|].
  intros v Lv [Hv|Hv]; apply in_or_app; [left|right]; auto.
Qed.
Lemma few_not_and : forall n k k' (A B : list F -> Prop), (forall v, A v \/ ~ A v) -> few n k (fun v => ~ A v) -> few n k' (fun v => ~ B v) ->
  few n (k + k') (fun v => ~ (A v /\ B v)).
Proof.
  intros n k k' A B D HA HB. eapply few_weaken; [exact (few_or _ _ _ _ _ HA HB)|lia|]. intros v _ H.
  destruct (D v) as [a|a]; [right; intro b; apply H; split; assumption|left; exact a].
Qed.
(** A condition on one coordinate, given those before it. *)
Lemma few_coord : forall k n c (B : list F -> F -> Prop), k < n ->
  (forall h, length h = k -> exists l, length l <= c /\ forall t, B h t -> In t l) ->
  few n c (fun v => B (firstn k v) (nth k v 0%F)).
Proof.
  intros k n c B Hk H. replace n with (k + S (n - k - 1)) by lia. change c with (0 + c).
  apply (few_bind k (S (n - k - 1)) 0 c (fun _ => False)); [apply few_none; auto|].
  intros h Lh _. rewrite <- (Nat.add_0_r c). apply (few_cons _ c 0 (B h)); [apply H, Lh|].
  intros t Nt. apply few_none. intros v _ E. apply Nt.
  rewrite <- Lh in E. rewrite app_nth2, Nat.sub_diag in E by lia. cbn [nth] in E.
  rewrite firstn_app, Nat.sub_diag, firstn_O, app_nil_r, firstn_all in E. exact E.
Qed.
Lemma few_zero_at : forall k n, k < n -> few n 1 (fun v => ~ nth k v 0%F <> 0%F).
Proof.
  intros k n Hk. apply (few_coord k n 1 (fun _ t => ~ t <> 0%F) Hk). intros h _. exists [0%F]. split; [cbn [length]; lia|].
  intros t Ht. left. destruct (F_eq_dec t 0) as [->|N]; [reflexivity|]. exfalso. apply Ht, N.
Qed.
Lemma dec_ne : forall a b : F, (a <> b) \/ ~ (a <> b).
Proof. intros a b. destruct (F_eq_dec a b) as [->|N]; [right; intro H; apply H; reflexivity|left; exact N]. Qed.

(** ** Exponents *)
Lemma dec_layers_good : forall C zf i z, layers_good C zf i z \/ ~ layers_good C zf i z.
Proof.
  intros C zf i. induction i as [|i IH]; intro z; cbn [layers_good]; [tauto|]. cbv zeta.
  destruct (dec_ne (zf (z + 3)) 0); destruct (dec_ne (zf (z + (6 + (2 * lbits C i + 1)))) 0); destruct (IH (z + lstep (lbits C i))); tauto.
Qed.
Lemma layers_good_few : forall C n i z, z + layers_expos C i <= n -> few n (2 * i) (fun zs => ~ layers_good C (expo zs) i z).
Proof.
  intros C n i. induction i as [|i IH]; intros z H; cbn [layers_good layers_expos] in *; [apply few_none; auto|]. cbv zeta.
  unfold lstep in H at 1. replace (2 * S i) with (1 + (1 + 2 * i)) by lia.
  apply few_not_and; [intro; apply dec_ne|apply few_zero_at; lia|]. apply few_not_and; [intro; apply dec_ne|apply few_zero_at; lia|].
  apply IH. unfold lstep. lia.
Qed.
Lemma exponents_few : forall C, few (expo_count C) (2 * (total_depth C - 1) + 1) (fun zs => ~ good_exponents C zs).
Proof.
  intro C. rewrite Nat.add_comm. unfold good_exponents. apply few_not_and; [intro; apply dec_ne|apply few_zero_at; unfold expo_count; lia|].
  apply layers_good_few. unfold expo_count. lia.
Qed.

(** ** Challenges *)
(** The challenges the run draws for layers [i], ..., 1. *)
Fixpoint layer_tape (C : layered_circuit) (i : nat) : nat := match i with O => 0 | S j => 2 * lbits C j + 4 + layer_tape C j end.
Definition tape_count (C : layered_circuit) : nat := 2 * lbits C (total_depth C - 1) + layer_tape C (total_depth C - 1).
Fixpoint layer_bad (C : layered_circuit) (i : nat) : nat := match i with O => 0 | S j => 4 * lbits C j + 3 + layer_bad C j end.

Lemma prodn_zero : forall n f, prodn n f = 0%F -> exists k, k < n /\ f k = 0%F.
Proof.
  induction n as [|n IH]; intros f H; cbn [prodn] in H.
  - exfalso. apply F1_neq_F0. exact H.
  - apply F_integral in H. destruct H as [H|H]; [|exists n; split; [lia|exact H]].
    destruct (IH f H) as (k & Hk & E). exists k. split; [lia|exact E].
Qed.
Lemma few_some : forall N c n (E : nat -> list F -> Prop), (forall k, k < n -> few N c (E k)) -> few N (c * n) (fun v => exists k, k < n /\ E k v).
Proof.
  intros N c n E. induction n as [|n IH]; intro H.
  - apply few_none. intros v _ (k & Hk & _). lia.
  - replace (c * S n) with (c * n + c) by lia. eapply few_weaken; [apply few_or; [apply IH; intros; apply H; lia|apply (H n); lia]|apply Nat.le_refl|].
    intros v _ (k & Hk & Ek). destruct (Nat.eq_dec k n) as [->|]; [right; exact Ek|left; exists k; split; [lia|exact Ek]].
Qed.
Lemma few_vanishing : forall q b N, q + b <= N -> few N (2 * b) (fun v => ~ vanishing (at_tape v q b) <> 0%F).
Proof.
  intros q b N H. eapply few_weaken; [apply (few_some N 2 b (fun k v => In (nth (q + k) v 0%F) [0%F; 1%F]))|lia|].
  - intros k Hk. apply (few_coord (q + k) N 2 (fun _ t => In t [0%F; 1%F])); [lia|]. intros h _. exists [0%F; 1%F]. split; [cbn [length]; lia|auto].
  - intros v _ Hv. destruct (F_eq_dec (vanishing (at_tape v q b)) 0) as [E|E]; [|exfalso; apply Hv, E].
    unfold vanishing in E. rewrite at_tape_length in E. apply prodn_zero in E. destruct E as (k & Hk & E). exists k. split; [exact Hk|].
    assert (Ea : nth k (at_tape v q b) 0%F = nth (q + k) v 0%F).
    { unfold at_tape. set (f := fun j => nth (q + j) v 0%F). rewrite (nth_indep _ 0%F (f 0)) by (rewrite map_length, seq_length; exact Hk).
      rewrite map_nth, seq_nth by exact Hk. reflexivity. }
    rewrite Ea in E. set (t := nth (q + k) v 0%F) in *. clearbody t. cbn [In]. apply F_integral in E. destruct E as [E|E]; [left; auto|right; left].
    transitivity (t + (1 - t))%F; [ring|]. rewrite E. ring.
Qed.
Lemma last_at_tape : forall v q b, 1 <= b -> last (at_tape v q b) 0%F = nth (q + (b - 1)) v 0%F.
Proof.
  intros v q b Hb. rewrite (last_nth' _ b (at_tape_length v q b)). unfold at_tape. set (f := fun j => nth (q + j) v 0%F).
  rewrite (nth_indep _ 0%F (f 0)) by (rewrite map_length, seq_length; lia). rewrite map_nth, seq_nth by lia. reflexivity.
Qed.

Lemma dec_good_layers : forall C v i q, good_layers C v q i \/ ~ good_layers C v q i.
Proof.
  intros C v i. induction i as [|i IH]; intro q; cbn [good_layers]; [tauto|]. cbv zeta.
  set (b := lbits C i). set (q' := q + (2 * b + 4)). set (c := ch_c i v q' (lbits C (i - 1))).
  destruct (dec_ne (ch_rho v q) 0); destruct (dec_ne (vanishing (ch_u v q b)) 0); destruct (dec_ne (vanishing (ch_v (S i) v q b)) 0);
    destruct (dec_ne (last (ch_u v q b) 0%F) (last (ch_v (S i) v q b) 0%F)); destruct (dec_ne (1 - (c + c))%F 0);
    destruct (IH q'); destruct (Nat.eq_dec (S i) 1); tauto.
Qed.
Lemma good_layers_few : forall C N i q, (forall j, j < i -> 1 <= lbits C j) -> q + layer_tape C i <= N -> few N (layer_bad C i) (fun v => ~ good_layers C v q i).
Proof.
  intros C N i. induction i as [|i IH]; intros q Hb HN; cbn [good_layers layer_tape layer_bad] in *; [apply few_none; auto|]. cbv zeta.
  set (b := lbits C i) in *. assert (b1 : 1 <= b) by (apply Hb; lia).
  replace (4 * b + 3 + layer_bad C i) with (1 + (2 * b + ((2 * b + 2) + layer_bad C i))) by lia.
  apply few_not_and; [intro; apply dec_ne|apply few_zero_at; lia|].
  apply few_not_and; [intro; apply dec_ne|apply few_vanishing; lia|].
  apply few_not_and.
  - intro v. set (c := ch_c i v (q + (2 * b + 4)) (lbits C (i - 1))).
    destruct (dec_ne (vanishing (ch_v (S i) v q b)) 0); destruct (dec_ne (last (ch_u v q b) 0%F) (last (ch_v (S i) v q b) 0%F)); destruct (dec_ne (1 - (c + c))%F 0);
    destruct (Nat.eq_dec (S i) 1); tauto.
  - destruct (Nat.eq_dec (S i) 1) as [E1|N1]; [apply few_none; intros v _ H; apply H; intro K; contradiction|].
    apply few_weaken with (k := 2 * b + (1 + 1)) (E := fun v => ~ (vanishing (ch_v (S i) v q b) <> 0%F /\ last (ch_u v q b) 0%F <> last (ch_v (S i) v q b) 0%F /\
               (1 - (ch_c i v (q + (2 * b + 4)) (lbits C (i - 1)) + ch_c i v (q + (2 * b + 4)) (lbits C (i - 1))) <> 0)%F)); [|lia|intros v _ H K; apply H; intros _; exact K].
    unfold ch_v, ch_u. destruct (Nat.eqb_spec (S i) 1) as [|_]; [contradiction|].
    apply few_not_and; [intro; apply dec_ne|apply few_vanishing; lia|].
    apply few_not_and; [intro; apply dec_ne| |].
    + set (k := q + 1 + b + (b - 1)).
      eapply few_weaken; [apply (few_coord k N 1 (fun h t => nth (q + 1 + (b - 1)) h 0%F = t))|lia|].
      * unfold k. lia.
      * intros h _. exists [nth (q + 1 + (b - 1)) h 0%F]. split; [cbn [length]; lia|]. intros t <-. left. reflexivity.
      * intros v Lv H. rewrite !last_at_tape in H by exact b1. fold k in H.
        destruct (F_eq_dec (nth (q + 1 + (b - 1)) v 0%F) (nth k v 0%F)) as [E|E]; [|exfalso; apply H, E]. rewrite <- E.
        rewrite <- (firstn_skipn k v) at 2. rewrite app_nth1; [reflexivity|]. rewrite firstn_length. unfold k. lia.
    + unfold ch_c. destruct (Nat.eqb_spec i 1) as [E1|E1].
      * apply few_none. intros v _ H. apply H. intro K. apply F1_neq_F0. change F1 with 1%F. change F0 with 0%F. transitivity (1 - (0 + 0))%F; [ring|exact K].
      * set (k := q + (2 * b + 4) + 1 + lbits C (i - 1) + lbits C (i - 1)).
        apply (few_coord k N 1 (fun _ t => ~ (1 - (t + t))%F <> 0%F)).
        -- unfold k. clear - HN E1 N1. destruct i as [|i]; [lia|]. cbn [layer_tape] in HN. replace (S i - 1) with i by lia. lia.
        -- intros h _. exists [ArithProofs.half]. split; [cbn [length]; lia|]. intros t Ht. left. destruct (F_eq_dec (1 - (t + t))%F 0) as [E|E]; [|exfalso; apply Ht, E].
           transitivity (ArithProofs.half * (t + t + (1 - (t + t))))%F; [ring|]. rewrite E. transitivity ((two * ArithProofs.half) * t)%F; [unfold two; ring|]. rewrite two_half'. ring.
  - apply IH; [intros; apply Hb; lia|]. lia.
Qed.
Lemma challenges_few : forall C, zcomplete_circuit C -> few (tape_count C) (layer_bad C (total_depth C - 1)) (fun v => ~ good_challenges C v).
Proof.
  intros C CC. unfold good_challenges. apply good_layers_few; [|unfold tape_count; lia]. intros j Hj. apply (zc_bits C CC). lia.
Qed.

(** ** The run uses [expo_count] exponents *)
Section Ext.
Variables zf zf' : nat -> F.
Lemma openR_ext : forall q qt mk r0 r1, (forall j, j < 5 -> zf' (q + j) = zf (q + j)) -> (forall j, j < 2 -> zf' (qt + j) = zf (qt + j)) ->
  openR_group zf' q qt mk r0 r1 = openR_group zf q qt mk r0 r1.
Proof.
  intros q qt mk r0 r1 H H2. pose proof (H 0 ltac:(lia)) as H0. pose proof (H2 0 ltac:(lia)) as K0. rewrite Nat.add_0_r in H0, K0.
  unfold openR_group. rewrite H0, K0, (H 1), (H 2), (H 3), (H 4), (H2 1) by lia. reflexivity.
Qed.
Lemma layer_ext : forall b z mk c0 ru rv rc pu pv, (forall k, z <= k < z + lstep b -> zf' k = zf k) ->
  layer_group zf' b z mk c0 ru rv rc pu pv = layer_group zf b z mk c0 ru rv rc pu pv.
Proof.
  intros b z mk c0 ru rv rc pu pv H. unfold lstep in H. unfold layer_group. cbv zeta. set (n := 2 * b + 1) in *.
  pose proof (H z ltac:(lia)) as H0.
  f_equal; [|f_equal; [|f_equal; [|f_equal]]].
  - unfold maskR_group, comR. rewrite H0, !H by lia. reflexivity.
  - assert (KS : forall i, i <= n -> skey zf' (z + 5) i = skey zf (z + 5) i) by (intros i Hi; unfold skey; apply H; lia).
    assert (KE : exps zf' (z + 5 + 1) (n + 1) = exps zf (z + 5 + 1) (n + 1)).
    { unfold exps. apply map_ext_in. intros i Hi. apply in_seq in Hi. rewrite H by lia. reflexivity. }
    unfold maskM_group, comM. rewrite KE, (valM_at n _ _ (skey zf (z + 5))) by (intros; apply KS; lia). rewrite !H by lia. reflexivity.
  - apply openR_ext; intros; apply H; lia.
  - apply openR_ext; intros; apply H; lia.
  - assert (KS : forall i, i <= n -> skey zf' (z + 5) i = skey zf (z + 5) i) by (intros i Hi; unfold skey; apply H; lia).
    unfold openM_group. rewrite (H (z + 5)) by lia. f_equal. apply map_ext_in. intros i Hi. apply in_seq in Hi.
    unfold VpdMaskProofs.witM. rewrite !KS, !H by lia. destruct (Nat.ltb_spec i n) as [Li|Li]; [rewrite H by lia; reflexivity|].
    f_equal; [f_equal|]; apply sumn_ext; intros j Hj; rewrite ?KS, ?H by lia; reflexivity.
Qed.
Lemma layers_ext : forall C v x0 x1 i q z R0 mk zu pu pv w, lbits C 0 + 4 <= z -> (forall k, k < lbits C 0 + 4 -> zf' k = zf k) ->
  (forall k, z <= k < z + layers_expos C i -> zf' k = zf k) ->
  layers_group C v zf' x0 x1 i q z R0 mk zu pu pv w = layers_group C v zf x0 x1 i q z R0 mk zu pu pv w.
Proof.
  intros C v x0 x1 i. induction i as [|i IH]; intros q z R0 mk zu pu pv w Hz HI H; cbn [layers_group layers_expos] in *.
  - set (n := lbits C 0) in *. assert (KS : forall i, i <= n -> skey zf' 0 i = skey zf 0 i) by (intros i Hi; unfold skey; apply HI; lia).
    unfold openI_group. rewrite (HI 0) by lia. f_equal. apply map_ext_in. intros i Hi. apply in_seq in Hi.
    unfold VpdInputProofs.witI. rewrite !KS, (HI (0 + n + 2)), (HI (0 + n + 2 + 1)) by lia. destruct (Nat.ltb_spec i n) as [Li|Li].
    + rewrite H by lia. f_equal. apply sumn_ext. intros j Hj. f_equal. apply mono_ext. intros m Hm. apply KS. lia.
    + f_equal; [f_equal|]; apply sumn_ext; intros j Hj; rewrite ?KS, ?H by lia; reflexivity.
  - cbv zeta. rewrite layer_ext by (intros; apply H; lia). f_equal. apply IH; [lia|exact HI|]. intros k Hk. apply H. lia.
Qed.
Lemma run_ext : forall C v ms, (forall k, k < expo_count C -> zf' k = zf k) -> run_group C v ms zf' = run_group C v ms zf.
Proof.
  intros C v ms H. unfold expo_count in H. unfold run_group. cbv zeta. set (n := lbits C 0) in *.
  f_equal; [|apply layers_ext; [fold n; lia|intros k Hk; apply H; fold n in Hk; lia|intros; apply H; lia]].
  assert (KS : forall i, i <= n -> skey zf' 0 i = skey zf 0 i) by (intros i Hi; unfold skey; apply H; lia).
  assert (KE : exps zf' (0 + 1) (n + 1) = exps zf (0 + 1) (n + 1)).
  { unfold exps. apply map_ext_in. intros i Hi. apply in_seq in Hi. rewrite H by lia. reflexivity. }
  unfold commit_group, comI, comI2. rewrite KE, (polyI_at n _ (skey zf' 0) (skey zf 0)) by (intros; apply KS; lia). rewrite !H by lia. reflexivity.
Qed.
End Ext.

(** The numbers are determined. *)
Lemma vnums_fun : forall C v x0 x1 i q a be R0 R1 mk zu zv pu pv w l l', vnums C v x0 x1 i q a be R0 R1 mk zu zv pu pv w l ->
  vnums C v x0 x1 i q a be R0 R1 mk zu zv pu pv w l' -> l = l'.
Proof.
  intros C v x0 x1. induction i as [|i IH]; intros q a be R0 R1 mk zu zv pu pv w l l' H H'; cbn [vnums] in H, H'; [congruence|].
  cbv zeta in H, H'. destruct H as (q1 & q3 & t & A & B & E & D). destruct H' as (p1 & p3 & t' & A' & B' & E' & D').
  rewrite E, E', (rlog_fun _ _ _ _ _ _ A A'), (rlog_fun _ _ _ _ _ _ B B'), (IH _ _ _ _ _ _ _ _ _ _ _ _ _ D D'). reflexivity.
Qed.
Lemma run_nums_fun : forall C v ms l l', run_nums C v ms l -> run_nums C v ms l' -> l = l'.
Proof.
  intros C v ms l l' (t & E & D) (t' & E' & D'). rewrite E, E', (vnums_fun _ _ _ _ _ _ _ _ _ _ _ _ _ _ _ _ _ _ D D'). reflexivity.
Qed.
