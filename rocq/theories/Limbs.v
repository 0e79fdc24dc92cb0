(** * Limb level model of [u256b] and [u512b]

    Source: include/linear_gkr/prime_field.h lines 18-83 (class layouts),
    src/linear_gkr/prime_field.cpp lines 8-487.

    Machine words are integers in [Z]; every operation that can wrap in C++
    wraps here explicitly ([mod W64] for [unsigned long long], [mod W128] for
    [__uint128_t]).  Global variables ([one], [mod], [my_factor]) are
    parameters of the functions that read them. *)
From Coq Require Import ZArith List Bool.
Import ListNotations.
Open Scope Z_scope.

Definition W64 : Z := 2 ^ 64.
Definition W128 : Z := 2 ^ 128.
Definition W256 : Z := 2 ^ 256.
Definition W512 : Z := 2 ^ 512.

(** prime_field.cpp:8-10, [__max_ull], [__max_128]. *)
Definition max_ull : Z := W64 - 1.

(** prime_field.h:18-22: [unsigned long long lo, mid; __uint128_t hi]. *)
Record u256 := U256 { lo6 : Z; mid6 : Z; hi6 : Z }.

(** prime_field.h:57-61: [__uint128_t lo, mid; u256b hi]. *)
Record u512 := U512 { lo5 : Z; mid5 : Z; hi5 : u256 }.

(** C++ integer conversions and operators on fixed width words. *)
Definition ull (x : Z) : Z := x mod W64.
Definition u128 (x : Z) : Z := x mod W128.
Definition not64 (x : Z) : Z := Z.lnot x mod W64.
Definition not128 (x : Z) : Z := Z.lnot x mod W128.
Definition b2z (b : bool) : Z := if b then 1 else 0.

(** prime_field.cpp:15, default constructor. *)
Definition u256_zero : u256 := U256 0 0 0.
(** prime_field.cpp:16-21, from [unsigned long long]. *)
Definition u256_of_ull (x : Z) : u256 := U256 x 0 0.
(** prime_field.cpp:22-27, from [__uint128_t]. *)
Definition u256_of_u128 (x : Z) : u256 :=
  U256 (ull (Z.land x max_ull)) (ull (Z.shiftr x 64)) 0.

(** prime_field.cpp:41-54, [u256b::operator+]. *)
Definition u256_add (a x : u256) : u256 :=
  let rlo := ull (lo6 a + lo6 x) in
  let carry := b2z (rlo <? lo6 a) in
  let midd := u128 (mid6 a + mid6 x) in
  let midd := if midd =? max_ull then u128 (midd + carry) else midd in
  let rmid := ull (ull (mid6 a + mid6 x) + carry) in
  let rhi := u128 (u128 (hi6 a + hi6 x) + Z.shiftr midd 64) in
  U256 rlo rmid rhi.

(** prime_field.cpp:56-63, [u256b::operator-] (there is no [+1]). *)
Definition u256_sub (a x : u256) : u256 :=
  u256_add a (U256 (not64 (lo6 x)) (not64 (mid6 x)) (not128 (hi6 x))).

(** prime_field.cpp:65-84, [u256b::operator*]. *)
Definition u256_mul (a x : u256) : u256 :=
  let lolo := u128 (lo6 a * lo6 x) in
  let lomid1 := u128 (mid6 a * lo6 x) in
  let lomid2 := u128 (lo6 a * mid6 x) in
  let rlo := ull lolo in
  let carry := Z.shiftr lolo 64 in
  let rmid := ull (ull (ull lomid1 + ull lomid2) + ull carry) in
  let carry2 := u128 (u128 (Z.shiftr lomid1 64 + Z.shiftr lomid2 64)
      + Z.shiftr (u128 (u128 (Z.land lomid1 max_ull + Z.land lomid2 max_ull) + carry)) 64) in
  let rhi := u128 (u128 (u128 (u128 (u128 (lo6 a * hi6 x) + u128 (hi6 a * lo6 x))
      + u128 (mid6 a * mid6 x))
      + u128 (Z.shiftl (u128 (u128 (mid6 a * hi6 x) + u128 (hi6 a * mid6 x))) 64)) + carry2) in
  U256 rlo rmid rhi.

(** prime_field.cpp:85-92, [u256b::left_128]. *)
Definition u256_left128 (a : u256) : u256 :=
  U256 0 0 (Z.lor (lo6 a) (u128 (Z.shiftl (mid6 a) 64))).

(** prime_field.cpp:94-101, [u256b::operator&]. *)
Definition u256_and (a x : u256) : u256 :=
  U256 (Z.land (lo6 a) (lo6 x)) (Z.land (mid6 a) (mid6 x)) (Z.land (hi6 a) (hi6 x)).

(** A C++ shift [w >> i] of a [width]-bit word is undefined when the count
    is negative or not below the width: [None]. *)
Definition shr_w (width : Z) (w i : Z) : option Z :=
  if (0 <=? i) && (i <? width) then Some (Z.shiftr w i) else None.

Definition and1 (o : option Z) : option Z :=
  match o with Some w => Some (Z.land w 1) | None => None end.

(** prime_field.cpp:102-110, [u256b::bit_at]. *)
Definition u256_bit_at (a : u256) (pos : Z) : option Z :=
  if pos <? 64 then and1 (shr_w 64 (lo6 a) pos)
  else if pos <? 128 then and1 (shr_w 64 (mid6 a) (pos - 64))
  else and1 (shr_w 128 (hi6 a) (pos - 128)).

(** prime_field.cpp:111-124, [operator<=]. *)
Definition u256_le (a x : u256) : bool :=
  if hi6 a <? hi6 x then true else
  if hi6 x <? hi6 a then false else
  if mid6 a <? mid6 x then true else
  if mid6 x <? mid6 a then false else
  if lo6 a <=? lo6 x then true else false.

(** prime_field.cpp:125-128, [operator!=]. *)
Definition u256_ne (a x : u256) : bool :=
  negb (hi6 a =? hi6 x) || negb (lo6 a =? lo6 x) || negb (mid6 a =? mid6 x).

(** prime_field.cpp:130-141, [operator>]. *)
Definition u256_gt (a x : u256) : bool :=
  if hi6 x <? hi6 a then true else
  if hi6 a <? hi6 x then false else
  if mid6 x <? mid6 a then true else
  if mid6 a <? mid6 x then false else
  lo6 x <? lo6 a.

(** prime_field.cpp:142-153, [operator<]. *)
Definition u256_lt (a x : u256) : bool :=
  if hi6 a <? hi6 x then true else
  if hi6 x <? hi6 a then false else
  if mid6 a <? mid6 x then true else
  if mid6 x <? mid6 a then false else
  lo6 a <? lo6 x.

(** prime_field.cpp:155-168, [midhi_mul]. *)
Definition midhi_mul (a b : u256) : u256 :=
  let lolo := u128 (lo6 a * lo6 b) in
  let lomid1 := u128 (mid6 a * lo6 b) in
  let lomid2 := u128 (lo6 a * mid6 b) in
  let carry := Z.shiftr lolo 64 in
  U256 (ull lolo) (ull (ull (ull lomid1 + ull lomid2) + ull carry)) 0.

(** [__builtin_clzll]: number of leading zeros of a 64-bit word, undefined
    at zero. *)
Definition clzll (x : Z) : option Z :=
  if x =? 0 then None else Some (63 - Z.log2 x).

Definition sub_opt (n : Z) (o : option Z) : option Z :=
  match o with Some c => Some (n - c) | None => None end.

(** prime_field.cpp:170-191, [u256b::bitLen]. *)
Definition u256_bitLen (a : u256) : option Z :=
  if negb (hi6 a =? 0) then
    let hihi := ull (Z.shiftr (hi6 a) 64) in
    let hilo := ull (Z.land (hi6 a) max_ull) in
    if negb (hihi =? 0) then sub_opt 256 (clzll hihi)
    else sub_opt (256 - 64) (clzll hilo)
  else if negb (mid6 a =? 0) then sub_opt 128 (clzll (mid6 a))
  else sub_opt 64 (clzll (lo6 a)).

(** prime_field.cpp:193-207, [u256b::testBit]: the comparisons are [<=]. *)
Definition u256_testBit (a : u256) (i : Z) : option Z :=
  if i <=? 64 then and1 (shr_w 64 (lo6 a) i)
  else if i <=? 128 then and1 (shr_w 64 (mid6 a) (i - 64))
  else and1 (shr_w 128 (hi6 a) (i - 128)).

(** prime_field.cpp:29-39, constructor from a digit string; the characters
    are given by their codes, [x[i] - '0'] is converted to
    [unsigned long long].  The loop runs from the last character. *)
Fixpoint u256_parse_loop (rev_digits : list Z) (base : Z) (ret tmp : u256) : u256 :=
  match rev_digits with
  | [] => ret
  | c :: rest =>
      u256_parse_loop rest base
        (u256_add ret (u256_mul tmp (u256_of_ull (ull (c - 48)))))
        (u256_mul tmp (u256_of_ull (ull base)))
  end.
Definition u256_parse (s : list Z) (base : Z) : u256 :=
  u256_parse_loop (rev s) base (u256_of_ull 0) (u256_of_ull 1).

(** prime_field.cpp:249-256, [u512b(const u256b &)]. *)
Definition u512_of_u256 (x : u256) : u512 :=
  U512 (Z.lor (u128 (Z.shiftl (mid6 x) 64)) (lo6 x)) (hi6 x) (U256 0 0 0).
(** prime_field.cpp:257-264, [u512b(const __uint128_t &)]. *)
Definition u512_of_u128 (x : Z) : u512 := U512 x 0 (U256 0 0 0).
(** prime_field.cpp:277. *)
Definition u512_zero : u512 := U512 0 0 (U256 0 0 0).

(** prime_field.cpp:278-291, [u512b::operator+]. *)
Definition u512_add (a x : u512) : u512 :=
  let rlo := u128 (lo5 a + lo5 x) in
  let carry := b2z (rlo <? lo5 a) in
  let rmid := u128 (u128 (mid5 a + mid5 x) + carry) in
  let carry2 := if carry =? 0 then b2z (rmid <? mid5 a) else b2z (rmid <=? mid5 a) in
  U512 rlo rmid (u256_add (u256_add (hi5 a) (hi5 x)) (u256_of_u128 carry2)).

(** prime_field.cpp:293-303, [u512b::operator-]; [one] is the global of line
    212, zero before [init] and one afterwards (line 497). *)
Definition u512_not (x : u512) : u512 :=
  U512 (not128 (lo5 x)) (not128 (mid5 x))
    (U256 (not64 (lo6 (hi5 x))) (not64 (mid6 (hi5 x))) (not128 (hi6 (hi5 x)))).
Definition u512_sub_g (one : u256) (a x : u512) : u512 :=
  u512_add a (u512_add (u512_not x) (u512_of_u256 one)).

(** The value of [one] after [init] (line 497). *)
Definition one_g : u256 := u256_of_ull 1.
Definition u512_sub (a x : u512) : u512 := u512_sub_g one_g a x.

(** prime_field.cpp:305-321, [mul_no_hi]. *)
Definition mul_no_hi (a b : u256) : u256 :=
  let lolo := u128 (lo6 a * lo6 b) in
  let lomid1 := u128 (mid6 a * lo6 b) in
  let lomid2 := u128 (lo6 a * mid6 b) in
  let carry := Z.shiftr lolo 64 in
  let carry2 := u128 (u128 (Z.shiftr lomid1 64 + Z.shiftr lomid2 64)
      + Z.shiftr (u128 (u128 (Z.land lomid1 max_ull + Z.land lomid2 max_ull) + carry)) 64) in
  U256 (ull lolo) (ull (ull (ull lomid1 + ull lomid2) + ull carry))
    (u128 (u128 (mid6 a * mid6 b) + carry2)).

(** The low 128 bits of a [u256b] as in lines 340, 345, 350. *)
Definition u256_low128 (x : u256) : Z := Z.lor (lo6 x) (u128 (Z.shiftl (mid6 x) 64)).

(** prime_field.cpp:322-358, [u512b::operator*]. *)
Definition u512_mul (a x : u512) : u512 :=
  if (mid5 x =? 0) && (lo5 x =? 0) then x else
  if (mid5 a =? 0) && (lo5 a =? 0) then a else
  let alo := u256_of_u128 (lo5 a) in
  let xlo := u256_of_u128 (lo5 x) in
  let amid := u256_of_u128 (mid5 a) in
  let xmid := u256_of_u128 (mid5 x) in
  let lolo := mul_no_hi alo xlo in
  let lomid1 := mul_no_hi amid xlo in
  let lomid2 := mul_no_hi alo xmid in
  let midmid := mul_no_hi amid xmid in
  let rlo := u256_low128 lolo in
  let carry := hi6 lolo in
  let tmp := u256_add (u256_add lomid1 lomid2) (u256_of_u128 carry) in
  let rmid := u256_low128 tmp in
  let carry2 := u256_add (u256_add (u256_of_u128 (hi6 lomid1)) (u256_of_u128 (hi6 lomid2)))
     (u256_of_u128 (hi6 (u256_add (u256_add (u256_of_u128 (u256_low128 lomid1))
                                            (u256_of_u128 (u256_low128 lomid2)))
                                  (u256_of_u128 carry)))) in
  U512 rlo rmid (u256_add midmid carry2).

(** prime_field.cpp:433-474, comparison operators of [u512b]. *)
Definition u512_ne (a x : u512) : bool :=
  negb (lo5 a =? lo5 x) || negb (mid5 a =? mid5 x) || u256_ne (hi5 a) (hi5 x).
Definition u512_gt (a x : u512) : bool :=
  if u256_gt (hi5 a) (hi5 x) then true else
  if u256_lt (hi5 a) (hi5 x) then false else
  if mid5 x <? mid5 a then true else
  if mid5 a <? mid5 x then false else
  lo5 x <? lo5 a.
Definition u512_ge (a x : u512) : bool :=
  if u256_gt (hi5 a) (hi5 x) then true else
  if u256_lt (hi5 a) (hi5 x) then false else
  if mid5 x <? mid5 a then true else
  if mid5 a <? mid5 x then false else
  lo5 x <=? lo5 a.
Definition u512_lt (a x : u512) : bool :=
  if u256_lt (hi5 a) (hi5 x) then true else
  if u256_gt (hi5 a) (hi5 x) then false else
  if mid5 a <? mid5 x then true else
  if mid5 x <? mid5 a then false else
  lo5 a <? lo5 x.

(** prime_field.cpp:362-383, [u512b::operator%]: the argument is ignored, the
    globals [mod] and [my_factor] are used. *)
Definition u512_mod_g (one md factor : u256) (a : u512) : u512 :=
  if (lo5 a =? 0) && (mid5 a =? 0) && (lo6 (hi5 a) =? 0) && (mid6 (hi5 a) =? 0)
     && (hi6 (hi5 a) =? 0) then a else
  let hi_factor := u512_mul (u512_of_u256 (hi5 a)) (u512_of_u256 factor) in
  let lo256bit := U512 (lo5 a) (mid5 a) (u256_of_ull 0) in
  let lo_factor := u512_mul lo256bit (u512_of_u256 factor) in
  let res := u512_add hi_factor (u512_of_u256 (hi5 lo_factor)) in
  let rh := hi5 res in
  let t := U256
     (ull (Z.lor (ull (Z.shiftl (lo6 rh) 4)) (Z.shiftr (mid5 res) 124)))
     (Z.lor (ull (Z.shiftl (mid6 rh) 4)) (Z.shiftr (lo6 rh) 60))
     (Z.lor (u128 (Z.shiftl (hi6 rh) 4)) (Z.shiftr (mid6 rh) 60)) in
  let t512 := u512_sub_g one a (u512_mul (u512_of_u256 t) (u512_of_u256 md)) in
  if u512_ge t512 (u512_of_u256 md) then u512_sub_g one t512 (u512_of_u256 md) else t512.

(** prime_field.cpp:265-275, constructor of [u512b] from a digit string; the
    [base] argument is ignored. *)
Fixpoint u512_parse_loop (rev_digits : list Z) (ret tmp : u512) : u512 :=
  match rev_digits with
  | [] => ret
  | c :: rest =>
      u512_parse_loop rest
        (u512_add ret (u512_mul tmp (u512_of_u256 (u256_of_ull (ull (c - 48))))))
        (u512_mul tmp (u512_of_u256 (u256_of_ull 10)))
  end.
Definition u512_parse (s : list Z) : u512 :=
  u512_parse_loop (rev s) (u512_of_u256 (u256_of_ull 0)) (u512_of_u256 (u256_of_ull 1)).

(** prime_field.cpp:475-480, [u512b::random] given the three outputs of
    [rand()]. *)
Definition u512_random (r0 r1 r2 : Z) : u512 := U512 r0 r1 (u256_of_ull (ull r2)).

(** ** Meaning of limb structures *)
Definition wf256 (x : u256) : Prop :=
  0 <= lo6 x < W64 /\ 0 <= mid6 x < W64 /\ 0 <= hi6 x < W128.
Definition wf512 (x : u512) : Prop :=
  0 <= lo5 x < W128 /\ 0 <= mid5 x < W128 /\ wf256 (hi5 x).
Definition val256 (x : u256) : Z := lo6 x + W64 * mid6 x + W128 * hi6 x.
Definition val512 (x : u512) : Z := lo5 x + W128 * mid5 x + W256 * val256 (hi5 x).
