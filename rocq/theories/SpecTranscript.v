(** * Vocabulary of the transcript statements, independent of the model *)
From Coq Require Import ZArith List Bool Arith.
From Verif Require Import Limbs Field Transcript.
Import ListNotations.
Open Scope nat_scope.

(** Little-endian bytes of a number. *)
Fixpoint le_bytes (n : nat) (z : Z) : list Z :=
  match n with O => [] | S n' => (z mod 256)%Z :: le_bytes n' (z / 256)%Z end.
(** The serialisation one expects of a transcript: 32 bytes for a field element,
    the bytes of the object for a group element, nothing for randomness. *)
Definition message_bytes (m : msg) : list Z :=
  match m with
  | MFld x => le_bytes 32 (val512 x)
  | MCurve l => l
  | MRand _ => []
  end.
(** Messages that can occur: field elements hold well-formed limbs, group elements
    are objects of [ec1] bytes. *)
Definition ok_msg (ec1 : nat) (m : msg) : Prop :=
  match m with
  | MFld x | MRand x => wf512 x
  | MCurve l => length l = ec1 /\ Forall (fun b => (0 <= b < 256)%Z) l
  end.
Definition msg_kind (m : msg) : nat := match m with MFld _ => 1 | MRand _ => 2 | MCurve _ => 0 end.
(** The stream the challenge is computed from, and its zero padding. *)
Definition padded (t : list msg) (x : bits) : Prop :=
  exists k, k < 512 /\ x = flat_map msg_output t ++ repeat false k /\ length x mod 512 = 0.
Definition is_cipher (aes : bits -> bits -> bits) : Prop := forall p k, length (aes p k) = 128.
(** One 128-bit half of the compression of 256 bits. *)
Definition half (aes : bits -> bits -> bits) (b : bits) : bits :=
  xor_bits (aes (skipn 128 b) (firstn 128 b)) (skipn 128 b).
(** The number a 256-bit digest denotes. *)
Definition digest_number (h : bits) : Z := (word_of_bits (firstn 128 h) + 2 ^ 128 * word_of_bits (skipn 128 h))%Z.
(** The digest of a list of 256-bit blocks as the code chains them. *)
Fixpoint chain (aes : bits -> bits -> bits) (h : bits) (l : list bits) : bits :=
  match l with [] => h | b :: r => chain aes (half aes h ++ half aes b) r end.
Fixpoint chunks (n : nat) (x : bits) : list bits :=
  match n with O => [] | S n' => firstn 256 x :: chunks n' (skipn 256 x) end.
Definition stream_digest (aes : bits -> bits -> bits) (x : bits) : bits :=
  chain aes (half aes (firstn 256 x) ++ half aes (firstn 256 (skipn 256 x)))
        (chunks (length x / 256 - 2) (skipn 512 x)).
(** Digest number [i] of a list of challenges that starts with digest [h]. *)
Fixpoint nth_digest (aes : bits -> bits -> bits) (i : nat) (h : bits) : bits :=
  match i with O => h | S i' => nth_digest aes i' (half aes h ++ half aes (repeat false 256)) end.
