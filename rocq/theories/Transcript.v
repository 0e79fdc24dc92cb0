(** * Model of include/infrastructure/my_hhash.h and include/linear_gkr/transcript.h

    Memory blocks are lists of bits in memory order (byte by byte, lowest bit
    first), so the [int data[16]] buffer filled with [data[i / 32] |= bit << (i & 31)]
    is the list of the 512 bits.  The block cipher [aes128_enc(plain, secret)]
    built from the AES instructions is a parameter [aes]. *)
From Coq Require Import ZArith List Bool Arith.
From Verif Require Import Limbs Field Base.
Import ListNotations.
Open Scope nat_scope.

Definition bits := list bool.
Fixpoint word_of_bits (l : bits) : Z :=
  match l with [] => 0 | b :: r => (if b then 1 else 0) + 2 * word_of_bits r end%Z.
Definition xor_bits (a b : bits) : bits := map (fun p => xorb (fst p) (snd p)) (combine a b).
(** [_mm_loadu_si128((__m128i* )src + k)] *)
Definition load128 (src : bits) (k : nat) : bits := firstn 128 (skipn (128 * k) src).

(** my_hhash.h:96-113 *)
Definition my_hhash (aes : bits -> bits -> bits) (src : bits) : bits :=
  let key0 := load128 src 0 in let text0 := load128 src 1 in
  let key1 := load128 src 2 in let text1 := load128 src 3 in
  xor_bits (aes text0 key0) text0 ++ xor_bits (aes text1 key1) text1.

(** transcript.h:7-48, [container]; a curve element is given by the bytes of the object. *)
Inductive msg := MFld (x : fe) | MCurve (bytes : list Z) | MRand (x : fe).
Definition is_rand (m : msg) : bool := match m with MRand _ => true | _ => false end.
Definition byte_bits (b : Z) : bits := map (fun j => Z.testbit b (Z.of_nat j)) (seq 0 8).
(** transcript.h:27-47 *)
Definition msg_output (m : msg) : bits :=
  match m with MFld x | MRand x => fe_bit_stream x | MCurve l => flat_map byte_bits l end.
(** transcript.h:53-64 *)
Definition output_bit_stream (need_rand : bool) (t : list msg) : bits :=
  flat_map (fun m => if is_rand m && negb need_rand then [] else msg_output m) t.

(** transcript.h:65-86; the bytes written.  [int bits = vec.size()] must fit. *)
Definition output_to_file (t : list msg) : outcome (list Z) :=
  let vec := output_bit_stream false t in
  if (Z.of_nat (length vec) <? 2 ^ 31)%Z then
    let n := length vec in
    let bytes := if n mod 8 =? 0 then n / 8 else n / 8 + 1 in
    for_ n 0 (fun i buf =>
      b <- rd vec i ;; o <- rd buf (i / 8) ;;
      wr buf (i / 8) (Z.lor o (Z.shiftl (Z.b2z b) (Z.of_nat (i mod 8))))) (repeat 0%Z bytes)
  else UB.

(** transcript.h:91-94, [while(x.size() % 512 != 0) x.push_back(0)] *)
Fixpoint pad_while (fuel : nat) (x : bits) : outcome bits :=
  if length x mod 512 =? 0 then Ok x
  else match fuel with O => NoFuel | S f => pad_while f (x ++ [false]) end.
(** transcript.h:95-98 *)
Definition first_block (x : bits) : outcome bits :=
  for_ 512 0 (fun i data => b <- rd x i ;; Ok (data ++ [b])) [].
(** transcript.h:101-113 *)
Fixpoint absorb (aes : bits -> bits -> bits) (fuel : nat) (x : bits) (cur : nat) (h : bits) : outcome bits :=
  if cur <? length x then
    match fuel with
    | O => NoFuel
    | S f =>
      data <- for_ 256 cur (fun i data => b <- rd x i ;; Ok (data ++ [b])) h ;;
      absorb aes f x (cur + 256) (my_hhash aes data)
    end
  else Ok h.
(** transcript.h:116-122 *)
Definition fe_of_digest (h : bits) : fe :=
  u512_mod (U512 (word_of_bits (load128 h 0)) (word_of_bits (load128 h 1)) (U256 0 0 0)).
(** transcript.h:88-133, [random(size)]: the elements and the new transcript.
    The counter [int cur] reaches the size of [x], which must therefore be an [int]. *)
Definition transcript_random (aes : bits -> bits -> bits) (t : list msg) (size : nat) : outcome (list fe * list msg) :=
  let x := output_bit_stream true t in
  x <- pad_while 512 x ;;
  (if (Z.of_nat (length x) <? 2 ^ 31)%Z then Ok tt else UB) ;;;
  data <- first_block x ;;
  h <- absorb aes (length x) x 512 (my_hhash aes data) ;;
  ' (r, _) <- for_ size 0 (fun i st =>
    let '(r, h) := st in
    Ok (r ++ [fe_of_digest h], my_hhash aes (h ++ repeat false 256))) ([], h) ;;
  Ok (r, t ++ map MRand r).

(** transcript.h:142-156; [sizeof(field_element)] is 64, [ec1] is [sizeof(bn::Ec1)]. *)
Definition get_proof_size (ec1 : nat) (t : list msg) : outcome Z :=
  for_ (length t) 0 (fun i ret =>
    m <- rd t i ;;
    let ret' := match m with MRand _ => ret | MFld _ => (ret + 64 / 2)%Z | MCurve _ => (ret + Z.of_nat ec1)%Z end in
    if (ret' <? 2 ^ 31)%Z then Ok ret' else UB) 0%Z.
