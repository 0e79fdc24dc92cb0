(** * Model of [prime_field::init] and [prime_field::field_element]

    Source: src/linear_gkr/prime_field.cpp lines 209-247, 484-644. *)
From Coq Require Import ZArith List Bool String Ascii.
From Verif Require Import Limbs.
Import ListNotations.
Open Scope Z_scope.

(** Character codes of a C string. *)
Fixpoint codes (s : string) : list Z :=
  match s with
  | EmptyString => []
  | String c r => Z.of_nat (nat_of_ascii c) :: codes r
  end.

(** The modulus every main program passes to [init]
    (src/linear_gkr/main_zk.cpp, main_fast_track.cpp). *)
Definition p_str : list Z :=
  codes "16798108731015832284940804142231733909759579603404752749028378864165570215949".
(** prime_field.cpp:494 *)
Definition interm_str : list Z :=
  codes "15003436851221201713926160155297504394712507045212047545287310822919708344242".
(** prime_field.cpp:500 *)
Definition factor_str : list Z :=
  codes "49885853761272603568320884710755151782187486770207743353506441985236025007921".

(** prime_field.cpp:213-228, first loop of [preprocess_mod]: the table
    [interesting_tmps], [n] further entries after [cur]. *)
Definition not_mod_of (md : u256) : u256 :=
  u256_add (U256 (not64 (lo6 md)) (not64 (mid6 md)) (not128 (hi6 md))) (u256_of_ull 1).
Fixpoint tmps_loop (md nmd : u256) (n : nat) (cur : u256) : list u256 :=
  match n with
  | O => []
  | S n' =>
      let nx := u256_add cur cur in
      let nx := if u256_le md nx then u256_add nx nmd else nx in
      nx :: tmps_loop md nmd n' nx
  end.
Definition interesting_tmps (md interm : u256) : list u256 :=
  interm :: tmps_loop md (not_mod_of md) 255 interm.

(** prime_field.cpp:230-246, one entry [interesting_combination[i][j]]:
    [tmps8] are the eight table entries [i*8 .. i*8+7]. *)
Fixpoint comb_loop (md nmd : u256) (tmps8 : list u256) (j : Z) (sum : u256) : u256 :=
  match tmps8 with
  | [] => sum
  | t :: r =>
      let sum := if Z.odd j then
                   let s := u256_add sum t in
                   if u256_le md s then u256_add s nmd else s
                 else sum in
      comb_loop md nmd r (Z.shiftr j 1) sum
  end.
Definition interesting_combination (md interm : u256) (i : nat) (j : Z) : u256 :=
  comb_loop md (not_mod_of md) (firstn 8 (skipn (8 * i) (interesting_tmps md interm))) j
    (u256_of_ull 0).

(** Globals set by [init], prime_field.cpp:484-504. *)
Record globals := Globals {
  g_mod : u256; g_one : u256; g_factor : u256; g_interm : u256;
  g_minus_mod_512 : u512; g_mod_512 : u512 }.

Definition init_globals (s : list Z) : globals :=
  let md := u256_parse s 10 in
  let one := u256_of_ull 1 in
  Globals md one (u256_parse factor_str 10) (u256_parse interm_str 10)
    (u512_sub_g one (u512_of_u256 (u256_of_ull 0)) (u512_of_u256 md))
    (u512_of_u256 md).

(** The globals after [init(p_str)], computed once. *)
Definition mod_u : u256 := Eval vm_compute in g_mod (init_globals p_str).
Definition factor_u : u256 := Eval vm_compute in g_factor (init_globals p_str).
Definition interm_u : u256 := Eval vm_compute in g_interm (init_globals p_str).
Definition mod_512 : u512 := Eval vm_compute in g_mod_512 (init_globals p_str).
Definition minus_mod_512 : u512 := Eval vm_compute in g_minus_mod_512 (init_globals p_str).

(** [x % mod] after [init(p_str)]. *)
Definition u512_mod (a : u512) : u512 := u512_mod_g one_g mod_u factor_u a.

(** prime_field.h:90-110: a [field_element] holds one [u512b]. *)
Definition fe := u512.

(** prime_field.cpp:508-511 *)
Definition fe_zero : fe := u512_of_u256 (u256_of_ull 0).
(** prime_field.cpp:512-515, from [int]: the conversion
    [(unsigned long long)x] wraps modulo 2^64. *)
Definition fe_of_int (x : Z) : fe := u512_of_u256 (u256_of_ull (ull x)).
(** prime_field.cpp:516-519, from [unsigned long long]. *)
Definition fe_of_ull (x : Z) : fe := u512_of_u256 (u256_of_ull (ull x)).
Definition fe_one : fe := fe_of_int 1.

(** prime_field.cpp:520-527 *)
Definition fe_add (a b : fe) : fe :=
  let r := u512_add b a in
  if u512_ge r mod_512 then u512_add r minus_mod_512 else r.
(** prime_field.cpp:528-533 *)
Definition fe_mul_non_mod (a b : fe) : fe := u512_mul b a.
(** prime_field.cpp:534-539 *)
Definition fe_mul (a b : fe) : fe := u512_mod (u512_mul b a).
(** prime_field.cpp:546-554 *)
Definition fe_sub (a b : fe) : fe :=
  if u512_ge a b then u512_sub a b else u512_sub (u512_add a mod_512) b.
(** prime_field.cpp:573-576, 626-629 *)
Definition fe_ne (a b : fe) : bool := u512_ne a b.
Definition fe_eq (a b : fe) : bool := negb (fe_ne a b).

(** prime_field.cpp:566-572, [random()] given the three [rand()] outputs. *)
Definition fe_random (r0 r1 r2 : Z) : fe := u512_mod (u512_random r0 r1 r2).

(** prime_field.cpp:577-603, [field_element::bitLen]. *)
Definition fe_bitLen (a : fe) : option Z :=
  if u256_ne (hi5 a) (u256_of_ull 0) then
    match u256_bitLen (hi5 a) with Some n => Some (n + 256) | None => None end
  else if negb (mid5 a =? 0) then
    let h := ull (Z.shiftr (mid5 a) 64) in
    let l := ull (Z.land (mid5 a) max_ull) in
    if negb (h =? 0) then sub_opt 256 (clzll h) else sub_opt (256 - 64) (clzll l)
  else
    let h := ull (Z.shiftr (lo5 a) 64) in
    let l := ull (Z.land (lo5 a) max_ull) in
    if negb (h =? 0) then sub_opt 128 (clzll h) else sub_opt 64 (clzll l).

(** Bits [0 .. n-1] of a word, least significant first:
    [(w >> i) & 1] for [i] from 0. *)
Definition word_bits (n : nat) (w : Z) : list bool :=
  map (fun i => Z.land (Z.shiftr w (Z.of_nat i)) 1 =? 1) (seq 0 n).

(** prime_field.cpp:630-643, [bit_stream]. *)
Definition fe_bit_stream (a : fe) : list bool :=
  word_bits 128 (lo5 a) ++ word_bits 128 (mid5 a).

(** prime_field.cpp:555-565, [to_string]: 512 characters '0'/'1', least
    significant first, no terminating zero byte. *)
Definition fe_to_string (a : fe) : list Z :=
  map (fun b : bool => if b then 49 else 48)
    (word_bits 128 (lo5 a) ++ word_bits 128 (mid5 a) ++
     map (fun i => match u256_bit_at (hi5 a) (Z.of_nat i) with Some b => b =? 1 | None => false end)
       (seq 0 256)).

(** GMP: value of a bit string, most significant first
    ([mpz_class(str, 2)]). *)
Fixpoint gmp_of_bits (acc : Z) (bits : list bool) : Z :=
  match bits with
  | [] => acc
  | b :: r => gmp_of_bits (2 * acc + b2z b) r
  end.

(** prime_field.cpp:604-625, [to_gmp_class]; [None] is the failing assert.
    The swap loop reverses the 256 characters. *)
Definition fe_to_gmp (a : fe) : option Z :=
  if u256_ne (hi5 a) (u256_of_ull 0) then None
  else Some (gmp_of_bits 0 (rev (fe_bit_stream a))).

(** zk_prover.cpp:6-16, [from_string]; [fe_of_int digit] goes through
    [(unsigned long long)]. *)
Definition from_string_step (r : fe) (c : Z) : fe :=
  fe_add (fe_mul r (fe_of_int 10)) (fe_of_int (c - 48)).
Definition fe_from_string (s : list Z) : fe := fold_left from_string_step s fe_zero.

(** zk_prover.cpp:17-24 *)
Definition inv_2_str : list Z :=
  codes "8399054365507916142470402071115866954879789801702376374514189432082785107975".
Definition inv_2 : fe := fe_from_string inv_2_str.

(** ** Meaning *)
(** The modulus as a number. *)
Definition P : Z := 16798108731015832284940804142231733909759579603404752749028378864165570215949.

(** [reduced a]: a well formed value in [0, P). *)
Definition reduced (a : fe) : Prop := wf512 a /\ 0 <= val512 a < P.
