(** * C38 - C41: the transcript and its hash *)
From Coq Require Import ZArith List Bool Arith Lia.
From Verif Require Import Limbs LimbsProofs Field Fp SpecArith ArithProofs Base Transcript SpecTranscript TranscriptProofs.
Import ListNotations.
Open Scope nat_scope.

(** ** C38 *)
Theorem C38_file : forall ec1 t, Forall (ok_msg ec1) t ->
  (8 * Z.of_nat (length (flat_map message_bytes t)) < 2 ^ 31)%Z ->
  exists file, output_to_file t = Ok file /\
    file = flat_map message_bytes t /\
    get_proof_size ec1 t = Ok (Z.of_nat (length file)).
Proof.
  intros ec1 t H B. exists (flat_map message_bytes t). split; [apply (output_to_file_ok ec1); assumption|].
  split; [reflexivity|]. apply get_proof_size_ok; [exact H|lia].
Qed.
Print Assumptions C38_file.
(** The bound is needed: [int bits] cannot hold the size of a file of 256 MB. *)
Theorem C38_file_too_big : forall ec1 t, Forall (ok_msg ec1) t ->
  (2 ^ 31 <= 8 * Z.of_nat (length (flat_map message_bytes t)))%Z -> output_to_file t = UB.
Proof. exact output_to_file_big. Qed.
Print Assumptions C38_file_too_big.
Definition x38 := U512 258 0 (U256 0 0 0).
Example C38_ex : Forall (ok_msg 2) [MFld x38; MRand x38; MCurve [7; 255]%Z] /\
  output_to_file [MFld x38; MRand x38; MCurve [7; 255]%Z] = Ok ([2; 1] ++ repeat 0 30 ++ [7; 255])%Z /\
  get_proof_size 2 [MFld x38; MRand x38; MCurve [7; 255]%Z] = Ok 34%Z.
Proof.
  split; [|split; vm_compute; reflexivity].
  assert (W : wf512 x38) by (vm_compute; repeat split; congruence).
  constructor; [exact W|]. constructor; [exact W|]. constructor; [|constructor].
  split; [reflexivity|]. repeat constructor; lia.
Qed.

(** ** C39 *)
Theorem C39_random : forall aes t x k, is_cipher aes -> padded t x -> 0 < length (flat_map msg_output t) ->
  (Z.of_nat (length x) < 2 ^ 31)%Z ->
  exists r, transcript_random aes t k = Ok (r, t ++ map MRand r) /\ length r = k /\ Forall reduced r /\
    forall i a, nth_error r i = Some a ->
      val512 a = (digest_number (nth_digest aes i (stream_digest aes x)) mod P)%Z.
Proof.
  intros aes t x k C Hp Hn Hb.
  eexists. split; [apply (random_ok aes t x k C Hp Hn Hb)|].
  assert (M : length x mod 512 = 0) by (destruct Hp as (? & ? & ? & ?); assumption).
  assert (Lx : 512 <= length x).
  { pose proof M as M'. apply Nat.mod_divides in M'; [|lia]. destruct M' as (c & M').
    destruct Hp as (j & _ & Ex & _). rewrite Ex, app_length in M'. rewrite Ex, app_length. destruct c; lia. }
  pose proof (fun i => fe_of_digest_ok _ (nth_digest_length aes i _ C (stream_digest_length aes x C Lx M))) as V.
  split; [rewrite map_length, seq_length; reflexivity|]. split.
  - apply Forall_forall. intros a I. apply in_map_iff in I. destruct I as (i & <- & _). apply V.
  - intros i a E. assert (I : i < k).
    { assert (N : nth_error (map (fun i => fe_of_digest (nth_digest aes i (stream_digest aes x))) (seq 0 k)) i <> None) by congruence.
      apply nth_error_Some in N. rewrite map_length, seq_length in N. exact N. }
    rewrite (map_nth_error _ i (seq 0 k) (d := i)) in E.
    + injection E as <-. apply V.
    + rewrite (nth_error_nth' _ 0) by (rewrite seq_length; exact I). rewrite seq_nth by exact I. reflexivity.
Qed.
Print Assumptions C39_random.
(** The challenges are a function of the padded stream alone. *)
Theorem C39_depends : forall aes t t' x k, is_cipher aes -> padded t x -> padded t' x ->
  0 < length (flat_map msg_output t) -> 0 < length (flat_map msg_output t') -> (Z.of_nat (length x) < 2 ^ 31)%Z ->
  exists r, transcript_random aes t k = Ok (r, t ++ map MRand r) /\ transcript_random aes t' k = Ok (r, t' ++ map MRand r).
Proof.
  intros aes t t' x k C Hp Hp' Hn Hn' Hb. eexists.
  split; apply (random_ok aes _ x); assumption.
Qed.
Print Assumptions C39_depends.
(** Asking for more challenges does not change the first ones. *)
Theorem C39_prefix : forall aes t k l r s t1 t2, is_cipher aes -> 0 < length (flat_map msg_output t) ->
  (Z.of_nat (length (flat_map msg_output t)) + 512 < 2 ^ 31)%Z ->
  k <= l -> transcript_random aes t k = Ok (r, t1) -> transcript_random aes t l = Ok (s, t2) -> r = firstn k s.
Proof.
  intros aes t k l r s t1 t2 C Hn Hb L E1 E2. destruct (padded_exists t) as (x & Hp).
  assert (B : (Z.of_nat (length x) < 2 ^ 31)%Z).
  { destruct Hp as (j & Hj & -> & _). rewrite app_length, repeat_length. lia. }
  rewrite (random_ok aes t x k C Hp Hn B) in E1. rewrite (random_ok aes t x l C Hp Hn B) in E2.
  injection E1 as <- _. injection E2 as <- _. rewrite firstn_map. f_equal.
  replace l with (k + (l - k)) by lia. rewrite seq_app. symmetry. apply firstn_app_exact. apply seq_length.
Qed.
Print Assumptions C39_prefix.
Theorem C39_empty_refuted : forall aes k, transcript_random aes [] k = UB.
Proof. intros aes k. reflexivity. Qed.
Print Assumptions C39_empty_refuted.
(** A toy cipher: the key. *)
Definition toy (p k : bits) : bits := firstn 128 (k ++ repeat false 128).
Lemma toy_cipher : is_cipher toy.
Proof. intros p k. unfold toy. rewrite firstn_length, app_length, repeat_length. lia. Qed.
Example C39_ex : is_cipher toy /\ (exists x, padded [MFld x38] x /\ (Z.of_nat (length x) < 2 ^ 31)%Z) /\
  0 < length (flat_map msg_output [MFld x38]).
Proof.
  split; [exact toy_cipher|]. split; [|cbn; lia]. destruct (padded_exists [MFld x38]) as (x & Hp). exists x.
  split; [exact Hp|]. destruct Hp as (k & Hk & -> & _). rewrite app_length, repeat_length. cbn [flat_map msg_output].
  rewrite app_nil_r, fe_bit_stream_length. lia.
Qed.

(** ** C40 (transcript part): zero padding is not injective *)
Theorem C40_padding_refuted : forall aes k x, is_cipher aes ->
  [MFld x] <> [MFld x; MFld fe_zero] /\
  exists r, transcript_random aes [MFld x] k = Ok (r, [MFld x] ++ map MRand r) /\
            transcript_random aes [MFld x; MFld fe_zero] k = Ok (r, [MFld x; MFld fe_zero] ++ map MRand r).
Proof.
  intros aes k x C. split; [discriminate|].
  assert (Z0 : fe_bit_stream fe_zero = repeat false 256) by (vm_compute; reflexivity).
  assert (P1 : padded [MFld x] (fe_bit_stream x ++ repeat false 256)).
  { exists 256. split; [lia|]. split; [cbn [flat_map msg_output]; rewrite app_nil_r; reflexivity|].
    rewrite app_length, fe_bit_stream_length, repeat_length. reflexivity. }
  assert (P2 : padded [MFld x; MFld fe_zero] (fe_bit_stream x ++ repeat false 256)).
  { exists 0. split; [lia|]. split; [cbn [flat_map msg_output]; rewrite Z0, !app_nil_r; reflexivity|].
    rewrite app_length, fe_bit_stream_length, repeat_length. reflexivity. }
  apply (C39_depends aes _ _ (fe_bit_stream x ++ repeat false 256) k C P1 P2).
  - cbn [flat_map msg_output]. rewrite app_length, fe_bit_stream_length. lia.
  - cbn [flat_map msg_output]. rewrite app_length, fe_bit_stream_length. lia.
  - rewrite app_length, fe_bit_stream_length, repeat_length. lia.
Qed.
Print Assumptions C40_padding_refuted.
(** Exactly which transcripts collide, and that transcripts with the same kinds of messages do not. *)
Theorem C40_collisions : forall t t' x, padded t x -> padded t' x ->
  exists k, k < 512 /\ (flat_map msg_output t = flat_map msg_output t' ++ repeat false k \/
                       flat_map msg_output t' = flat_map msg_output t ++ repeat false k).
Proof. exact padded_collision. Qed.
Print Assumptions C40_collisions.
Theorem C40_same_kinds : forall ec1 t t' x, Forall (ok_msg ec1) t -> Forall (ok_msg ec1) t' ->
  Forall small_msg t -> Forall small_msg t' -> map msg_kind t = map msg_kind t' ->
  padded t x -> padded t' x -> t = t'.
Proof. exact same_kinds_inj. Qed.
Print Assumptions C40_same_kinds.
Example C40_ex : small_msg (MFld x38) /\ Forall (ok_msg 2) [MFld x38; MCurve [7; 255]%Z] /\
  exists x, padded [MFld x38; MCurve [7; 255]%Z] x.
Proof.
  assert (W : wf512 x38) by (vm_compute; repeat split; congruence).
  split; [split; [exact W|vm_compute; split; congruence]|]. split; [|apply padded_exists].
  constructor; [exact W|]. constructor; [|constructor]. split; [reflexivity|]. repeat constructor; lia.
Qed.

(** ** C41 *)
(** The two halves of the compression are independent. *)
Theorem C41_halves : forall aes a b, length a = 256 -> length b = 256 ->
  my_hhash aes (a ++ b) = half aes a ++ half aes b.
Proof. exact my_hhash_halves. Qed.
Print Assumptions C41_halves.
Theorem C41_mixing_refuted : forall aes, is_cipher aes ->
  (exists s s', length s = 512 /\ length s' = 512 /\ s <> s' /\ firstn 128 (my_hhash aes s) = firstn 128 (my_hhash aes s')) /\
  (exists s s', length s = 512 /\ length s' = 512 /\ s <> s' /\ skipn 128 (my_hhash aes s) = skipn 128 (my_hhash aes s')).
Proof.
  intros aes C. set (z := repeat false 256). set (o := repeat true 256).
  assert (Lz : length z = 256) by reflexivity. assert (Lo : length o = 256) by reflexivity.
  assert (N : z <> o) by discriminate. split.
  - exists (z ++ z), (z ++ o). split; [reflexivity|]. split; [reflexivity|]. split.
    + intro E. apply app_inv_head in E. exact (N E).
    + rewrite !my_hhash_halves by assumption. rewrite !firstn_app_exact by (apply half_length; assumption). reflexivity.
  - exists (z ++ z), (o ++ z). split; [reflexivity|]. split; [reflexivity|]. split.
    + intro E. apply app_inv_tail in E. exact (N E).
    + rewrite !my_hhash_halves by assumption. rewrite !skipn_app_exact by (apply half_length; assumption). reflexivity.
Qed.
Print Assumptions C41_mixing_refuted.
(** The upper half of the first digest is a function of the last 256 bits alone. *)
Theorem C41_upper_half : forall aes x y, is_cipher aes ->
  512 <= length x -> length x mod 512 = 0 -> 512 <= length y -> length y mod 512 = 0 ->
  skipn (length x - 256) x = skipn (length y - 256) y ->
  skipn 128 (stream_digest aes x) = skipn 128 (stream_digest aes y).
Proof. intros aes x y C Lx Mx Ly My E. rewrite !digest_upper by assumption. rewrite E. reflexivity. Qed.
Print Assumptions C41_upper_half.
(** From the second challenge on the upper half is the same for all transcripts. *)
Theorem C41_later_upper_constant : forall aes i h, is_cipher aes -> length h = 256 ->
  skipn 128 (nth_digest aes (S i) h) = half aes (repeat false 256).
Proof. exact later_upper. Qed.
Print Assumptions C41_later_upper_constant.
(** So two different field messages can be exchanged anywhere in any transcript of
    field elements without changing any challenge, as soon as they collide under
    a 128-bit function; and such messages exist for every cipher. *)
Theorem C41_exchange : forall aes k pre post x y, is_cipher aes ->
  (forall m, In m (pre ++ post) -> msg_kind m <> 0) ->
  (Z.of_nat (256 * (length (pre ++ post) + 2)) < 2 ^ 31)%Z ->
  half aes (fe_bit_stream x) = half aes (fe_bit_stream y) ->
  exists r, transcript_random aes (pre ++ MFld x :: post) k = Ok (r, (pre ++ MFld x :: post) ++ map MRand r) /\
            transcript_random aes (pre ++ MFld y :: post) k = Ok (r, (pre ++ MFld y :: post) ++ map MRand r).
Proof. exact swap_message. Qed.
Print Assumptions C41_exchange.
Theorem C41_exchange_exists : forall aes, is_cipher aes -> exists x y, reduced x /\ reduced y /\ x <> y /\
  half aes (fe_bit_stream x) = half aes (fe_bit_stream y).
Proof. exact half_collision. Qed.
Print Assumptions C41_exchange_exists.
Example C41_ex : is_cipher toy /\ half toy (fe_bit_stream x38) <> half toy (fe_bit_stream fe_zero) /\
  (Z.of_nat (256 * (length ([MRand x38] ++ [MFld x38]) + 2)) < 2 ^ 31)%Z.
Proof. split; [exact toy_cipher|]. split; [vm_compute; discriminate|cbn; lia]. Qed.
