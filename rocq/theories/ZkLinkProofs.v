(** * Phase identities at masked values and the growth of the transcript *)
From Coq Require Import ZArith List Bool Arith Lia Ring.
From Verif Require Import Limbs Field Fp Base ArithProofs MleSpec GkrMath Poly PolyProofs Circuit
  FastProver FastVerifier Lazy TablesProofs FastProverProofs PhaseProofs FastVerifierProofs SpecVpd VpdGroup VpdR VpdMask VpdInput
  VpdGroupProofs PropsVpd Transcript SpecTranscript TranscriptProofs PropsTranscript LoaderProofs ZkEval ZkEvalProofs
  ZkProver ZkVerifier ZkPhaseProofs ZkMaskProofs ZkRoundProofs ZkLayerProofs ZkPredProofs ZkOpenProofs.
Import ListNotations.
Open Scope nat_scope.

(** ** The two phases at a value different from [V(r)] *)
(** [phase1_end] and [phase2_end] of GkrMath.v for any announced values. *)
Lemma phase1_link : forall G gt W V b, (forall g, g < G -> in_range (2 ^ b) (gt g)) -> forall ru vu, length ru = b ->
  (vu * mle ru (scat G (tM1 gt W V)) + mle ru (scat G (tA1 gt W V)) =
   psum b V (scat G (tM2 gt W vu (eqw ru))) (scat G (tA2 gt W vu (eqw ru))))%F.
Proof.
  intros G gt W V b HR ru vu L. unfold psum.
  rewrite sumn_add, (scat_gath _ _ _ _ (tM2_in G gt W b HR vu (eqw ru))), (sum_scat _ _ _ (tA2_in G gt W b HR vu (eqw ru))).
  rewrite !mle_scat by (rewrite L; exact (tM1_in G gt W V b HR) || exact (tA1_in G gt W V b HR)).
  unfold gath. rewrite <- sumn_scal, <- !sumn_add. apply sumn_ext. intros g Hg.
  unfold tM1, tA1, tM2, tA2. rewrite !lsum_map, <- lsum_scal, <- !lsum_add. apply lsum_ext. intros w _.
  cbn [fst snd]. ring.
Qed.
Lemma phase2_link : forall G gt W b, (forall g, g < G -> in_range (2 ^ b) (gt g)) -> forall vu vv U rv, length rv = b ->
  (vv * mle rv (scat G (tM2 gt W vu U)) + mle rv (scat G (tA2 gt W vu U)) =
   sumn G (fun g => fval (fo gt g) vu vv * (W g * lsum (wires (gt g)) (fun w => w_c w * U (w_l w) * eqw rv (w_r w)))))%F.
Proof.
  intros G gt W b HR vu vv U rv L.
  rewrite (mle_scat rv G (tM2 gt W vu U)) by (rewrite L; exact (tM2_in G gt W b HR vu U)).
  rewrite (mle_scat rv G (tA2 gt W vu U)) by (rewrite L; exact (tA2_in G gt W b HR vu U)).
  unfold gath. rewrite <- sumn_scal, <- !sumn_add. apply sumn_ext. intros g Hg.
  unfold tM2, tA2. rewrite !lsum_map, <- !lsum_scal, <- lsum_add. apply lsum_ext. intros w _.
  cbn [fst snd]. unfold fval. ring.
Qed.

(** ** Size of the transcript *)
Section Rng.
Variable enc : F -> list Z.
Variable ec1 : nat.
Hypothesis Henc : forall x, length (enc x) = ec1.
Hypothesis Hec1 : 0 < ec1.
(** Bits of the largest message. *)
Definition msize : nat := Nat.max 256 (8 * ec1).
Definition tsize (t : list msg) : nat := length (flat_map msg_output t).
Definition tr_ok (k : nat) (t : list msg) : Prop := 0 < tsize t /\ tsize t <= k * msize.
Definition short (m : msg) : Prop := length (msg_output m) <= msize.

Lemma tsize_app : forall t u, tsize (t ++ u) = tsize t + tsize u.
Proof. intros. unfold tsize. rewrite flat_map_app, app_length. reflexivity. Qed.
Lemma short_size : forall u, Forall short u -> tsize u <= length u * msize.
Proof.
  induction 1 as [|m u H _ IH]; [apply le_n|]. unfold tsize in *. cbn [flat_map length]. rewrite app_length.
  unfold short in H. cbn [Nat.mul]. lia.
Qed.
Lemma tr_app : forall k j t u, tr_ok k t -> Forall short u -> length u <= j -> tr_ok (k + j) (t ++ u).
Proof.
  intros k j t u [H0 H1] Hs Hl. split; rewrite tsize_app; [lia|]. pose proof (short_size u Hs).
  pose proof (Nat.mul_le_mono_r _ _ msize Hl). lia.
Qed.
Lemma tr_mono : forall k j t, tr_ok k t -> k <= j -> tr_ok j t.
Proof. intros k j t [H0 H1] H. split; [exact H0|]. pose proof (Nat.mul_le_mono_r _ _ msize H). lia. Qed.
Lemma fe_stream_len : forall x, length (fe_bit_stream x) = 256.
Proof. intro x. unfold fe_bit_stream. rewrite app_length, !word_bits_length. reflexivity. Qed.
Lemma short_fld : forall x, short (MFld x).
Proof. intro x. unfold short, msize. cbn [msg_output]. rewrite fe_stream_len. lia. Qed.
Lemma short_rand : forall x, short (MRand x).
Proof. intro x. unfold short, msize. cbn [msg_output]. rewrite fe_stream_len. lia. Qed.
Lemma curve_len : forall x, length (msg_output (MCurve (enc x))) = 8 * ec1.
Proof.
  intro x. cbn [msg_output]. rewrite <- (Henc x). induction (enc x) as [|y l IH]; [reflexivity|].
  cbn [flat_map length]. rewrite app_length, IH. assert (length (byte_bits y) = 8) by reflexivity. lia.
Qed.
Lemma short_curve : forall x, short (MCurve (enc x)).
Proof. intro x. unfold short, msize. rewrite curve_len. lia. Qed.
Lemma short_curves : forall l, Forall short (curve_msgs enc l).
Proof. intro l. apply Forall_forall. intros m H. apply in_map_iff in H. destruct H as (x & <- & _). apply short_curve. Qed.
Lemma curves_len : forall l, length (curve_msgs enc l) = length l.
Proof. intro. apply map_length. Qed.
Lemma short_rands : forall l, Forall short (map MRand l).
Proof. intro l. apply Forall_forall. intros m H. apply in_map_iff in H. destruct H as (x & <- & _). apply short_rand. Qed.
Lemma tr_grows : forall k j t t', tr_ok k t -> grows j t t' -> tr_ok (k + j) t'.
Proof.
  intros k j t t' H (u & -> & Hl & Hu). apply tr_app; [exact H| |exact Hl].
  eapply Forall_impl; [|exact Hu]. intros m (x & ->). apply short_fld.
Qed.
Lemma tr_start : forall a b c d, tr_ok 4 (curve_msgs enc [a; b] ++ curve_msgs enc [c; d]).
Proof.
  intros. cbn [curve_msgs map app]. split.
  - unfold tsize. cbn [flat_map]. rewrite app_length, curve_len. lia.
  - apply (short_size [_; _; _; _]). repeat constructor; apply short_curve.
Qed.

(** A challenge source good for transcripts of at most [K] messages. *)
Definition rng_ok (K : nat) (rng : list msg -> nat -> outcome (list fe * list msg)) : Prop :=
  forall t k, 0 < tsize t -> tsize t <= K * msize ->
    exists r, rng t k = Ok (r, t ++ map MRand r) /\ length r = k /\ Forall reduced r.
Lemma rng_step : forall K rng k t n, rng_ok K rng -> tr_ok k t -> k <= K ->
  returns (rng t n) (fun p => tr_ok (k + n) (snd p) /\ exists R, reps (fst p) R /\ length R = n).
Proof.
  intros K rng k t n H [H0 H1] Hk. destruct (H t n H0) as (r & E & L & Hr).
  { pose proof (Nat.mul_le_mono_r _ _ msize Hk). lia. }
  exists (r, t ++ map MRand r). split; [exact E|]. cbn [fst snd]. split.
  - apply tr_app; [split; assumption|apply short_rands|rewrite map_length; lia].
  - exists (map (fun x => ofZ (val512 x)) r). split; [|rewrite map_length; exact L].
    clear -Hr. induction Hr; constructor; [apply reduced_rep; assumption|assumption].
Qed.
Lemma transcript_rng : forall aes K, is_cipher aes -> (Z.of_nat (K * msize + 512) < 2 ^ 31)%Z -> rng_ok K (transcript_random aes).
Proof.
  intros aes K Hc HK t k H0 H1. destruct (padded_exists t) as (x & Hx). pose proof (padded_eq t x Hx) as Ex.
  destruct (C39_random aes t x k Hc Hx H0) as (r & E & L & Hr & _).
  - rewrite Ex, app_length, repeat_length. fold (tsize t).
    pose proof (Nat.mod_upper_bound (512 - tsize t mod 512) 512 ltac:(lia)). lia.
  - exists r. split; [exact E|]. split; [exact L|exact Hr].
Qed.
Lemma output_to_file_ok : forall t, (Z.of_nat (tsize t) < 2 ^ 31)%Z -> returns (output_to_file t) (fun _ => True).
Proof.
  intros t H. unfold output_to_file. set (vec := output_bit_stream false t).
  assert (Hv : length vec <= tsize t).
  { unfold vec, tsize, output_bit_stream. clear. induction t as [|m t IH]; [simpl; lia|]. cbn [flat_map]. rewrite !app_length.
    destruct (is_rand m && negb false); [cbn [length]|]; lia. }
  destruct (Z.ltb_spec (Z.of_nat (length vec)) (2 ^ 31)); [|lia].
  set (n := length vec) in *. set (bytes := if n mod 8 =? 0 then n / 8 else n / 8 + 1).
  assert (HB : forall i, i < n -> i / 8 < bytes).
  { intros i Hi. apply Nat.div_lt_upper_bound; [lia|]. unfold bytes. pose proof (Nat.div_mod n 8 ltac:(lia)).
    pose proof (Nat.mod_upper_bound n 8 ltac:(lia)). destruct (Nat.eqb_spec (n mod 8) 0); lia. }
  eapply returns_conseq; [apply (returns_for _ n 0 _ (fun _ buf => length buf = bytes))|intros; exact I].
  - apply repeat_length.
  - intros i buf Hi L. simpl in Hi.
    destruct (nth_error vec i) as [bb|] eqn:E; [|apply nth_error_None in E; lia].
    eapply rb_nth; [exact E|].
    destruct (nth_error buf (i / 8)) as [o|] eqn:E2; [|apply nth_error_None in E2; pose proof (HB i ltac:(lia)); lia].
    eapply rb_nth; [exact E2|]. apply returns_wr; [rewrite L; apply HB; lia|]. rewrite upd_length. exact L.
Qed.
End Rng.
