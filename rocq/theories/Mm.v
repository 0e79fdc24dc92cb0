(** * The stand-alone matrix-multiplication program

    tests/mm.cpp.  [mpz_class] is an integer; its [%] truncates ([Z.rem]).  The modulus
    [p] of line 648 is [P].  Random numbers are arguments.  [pow] of a power of two is
    exact.  Timing, the counters [com_ct], [rd_ct], [gatenum] and the text of the
    messages are left out; what is printed is modelled by whether a check fails. *)
From Coq Require Import ZArith List Bool Arith.
From Verif Require Import Base Field.
Import ListNotations.
Open Scope Z_scope.

(** [mpz_invert(., x, p)]: the inverse in [0, p), by the extended Euclidean algorithm. *)
Fixpoint euclid (fuel : nat) (r0 s0 r1 s1 : Z) : Z :=
  match fuel with
  | O => s0
  | S f => if r1 =? 0 then s0 else euclid f r1 s1 (r0 - r0 / r1 * r1) (s0 - r0 / r1 * s1)
  end.
Definition mpz_inv (x : Z) : Z := (euclid 600 P 0 (x mod P) 1) mod P.

(** Lines 40-61 *)
Definition lagrange (n i : nat) (r : Z) : Z :=
  fold_left (fun m j => if (i =? j)%nat then m
    else m * (r - Z.of_nat j) * mpz_inv (Z.rem (Z.of_nat i - Z.of_nat j) P)) (seq 0 n) 1.
Definition extrap (vec : list Z) (n : nat) (r : Z) : outcome Z :=
  s <- for_ n 0 (fun i s => v <- rd vec i ;; Ok (s + lagrange n i r * v)) 0 ;; Ok (Z.rem s P).

(** Lines 118-134, 442-457: the table [Z], doubled for each [r[k]] from the last to the
    first.  The loop works in place; cells above [two_to_k] are not read before they are written. *)
Definition double (t : list Z) (rk : Z) : list Z :=
  map (fun o => Z.rem (o * (1 - rk)) P) t ++ map (fun o => Z.rem (o * rk) P) t.
Definition weights (r : list Z) : list Z := fold_left double (rev r) [1].
(** Lines 117-147 *)
Definition random_V_L (V r : list Z) : outcome Z :=
  let t := weights r in
  for_ (length V) 0 (fun i ri => z <- rd t i ;; v <- rd V i ;; Ok (Z.rem (ri + z * v) P)) 0.

(** [x != y && x + p != y && x - p != y] *)
Definition differ (x y : Z) : bool := negb (x =? y) && negb (x + P =? y) && negb (x - P =? y).

(** Lines 435-479: [logS] of the layer, the gates of the layer below, [*z], [ri], the new
    random number.  Gives whether "fail" is printed, the new [*z] and the result. *)
Definition sum_check_addtree (logS : nat) (gates z : list Z) (ri rnew : Z) : outcome (bool * list Z * Z) :=
  (if (length z <? logS)%nat then UB else Ok tt) ;;;
  let r := firstn logS z in
  let t := weights r in
  ' (v0, v1) <- for_ (length t) 0 (fun i (s : Z * Z) => let (v0, v1) := s in
     w <- rd t i ;; a <- rd gates (2 * i) ;; b <- rd gates (2 * i + 1) ;; Ok (v0 + w * a, v1 + w * b)) (0, 0) ;;
  let fail := differ (Z.rem (v0 + v1) P) ri in
  r3 <- extrap [v0; v1] 2 rnew ;;
  Ok (fail, r ++ [rnew], r3).

(** Lines 504-511, 514-523 *)
Definition mm_in1 (d p : nat) : nat :=
  (let i := Nat.land (Nat.shiftr p (2 * d)) (2 ^ d - 1) in
   let k := Nat.land p (2 ^ d - 1) in Nat.shiftl i d + k)%nat.
Definition mm_in2 (d p : nat) : nat := (Nat.land p (2 ^ (2 * d) - 1) + (2 ^ (2 * d) - 1 + 1))%nat.
(** Lines 593-616 for one layer: [mul] tells the type 1 from the type 0. *)
Definition eval_level (S : nat) (in1 in2 : nat -> nat) (mul : bool) (below : list Z) : outcome (list Z) :=
  for_ S 0 (fun j l => a <- rd below (in1 j) ;; b <- rd below (in2 j) ;;
    Ok (l ++ [Z.rem (if mul then a * b else a + b) P])) [].
(** Lines 496-502, 559-570: [k] layers of additions on top of the layers [ls]. *)
Fixpoint add_levels (k : nat) (top : list Z) (ls : list (list Z)) : outcome (list (list Z)) :=
  match k with
  | O => Ok (top :: ls)
  | S k' => l <- eval_level (length top / 2) (fun j => 2 * j)%nat (fun j => 2 * j + 1)%nat false top ;; add_levels k' l (top :: ls)
  end.
(** Lines 526-574, 577-619: all layers, the output first.  [n * n * n] overflows an [int] from [d] = 11. *)
Definition evaluate (d : nat) (input : list Z) : outcome (list (list Z)) :=
  if (30 <? 3 * d)%nat then UB else
  m <- eval_level (2 ^ (3 * d)) (mm_in1 d) (mm_in2 d) true input ;; add_levels d m [input].

(** Lines 63-76: a zero is left alone by the three [if]s, which changes nothing. *)
Definition updateV (V : list Z) (num_new : nat) (ri : Z) : outcome (list Z) :=
  for_ num_new 0 (fun i l => a <- rd V i ;; b <- rd V (i + num_new) ;; Ok (l ++ [Z.rem (a * (1 - ri) + b * ri) P])) [].
(** Lines 100-114.  Without an inverse GMP leaves the result of [mpz_invert] open; [mpz_inv] is then
    just some number, and no theorem depends on it. *)
Definition update_betavals (B : list Z) (num_new : nat) (zval rval : Z) : outcome (list Z) :=
  let update := zval * rval + (1 - zval) * (1 - rval) in
  let temp := mpz_inv (Z.rem (1 - zval) P) in
  for_ num_new 0 (fun i l => b <- rd B i ;; Ok (l ++ [Z.rem (Z.rem (b * temp) P * update) P])) [].

(** Lines 220-239 and 267-286: the loop over [j]; [hi] tells the branch. *)
Definition mults (d nj i k : nat) (hi : nat -> bool) (B V1 : list Z) (inv1 inv2 bu : Z) : outcome (Z * Z * Z) :=
  for_ nj 0 (fun j '(m0, m1, m2) =>
    b <- rd B (Nat.shiftl i (2 * d) + (Nat.shiftl j d + k)) ;;
    v <- rd V1 (Nat.shiftl j d + k) ;;
    Ok (if hi j then (m0, m1 + b * v, m2 + 2 * (b * inv1 * bu) * v)
        else (m0 + b * v, m1, m2 + - (b * inv2 * bu) * v))) (0, 0, 0).
(** Lines 206-248 (a round of the first loop) and 257-295 (of the second, where [i] is 0). *)
Definition message3 (d ni nj : nat) (hi : nat -> nat -> bool) (B V0 V1 : list Z) (z : Z) : outcome (list Z) :=
  let bu := z * 2 - (1 - z) in
  let inv1 := mpz_inv z in
  let inv2 := mpz_inv (Z.rem (1 - z) P) in
  ' (p0, p1, p2) <- for_ ni 0 (fun i => for_ (2 ^ d) 0 (fun k '(p0, p1, p2) =>
    ' (m0, m1, m2) <- mults d nj i k (hi i) B V1 inv1 inv2 bu ;;
    v <- rd V0 (Nat.shiftl i d + k) ;;
    Ok (p0 + v * m0, p1 + v * m1, p2 + v * m2))) (0, 0, 0) ;;
  Ok [Z.rem p0 P; Z.rem p1 P; Z.rem p2 P; 0].
Definition bit_set (x num : nat) : bool := negb (Nat.land x (Nat.shiftr num 1) =? 0)%nat.
Definition at_ (l : list Z) (i : Z) : outcome Z := i <- idx i ;; rd l i.
(** Lines 204-253 *)
Definition rounds_i (d : nat) (z r V1 : list Z) : nat * list Z * list Z -> outcome (nat * list Z * list Z * list (list Z)) :=
  fun '(num, B, V0) => for_ d 0 (fun round '(num, B, V0, poly) =>
    zr <- at_ z (3 * Z.of_nat d - 1 - Z.of_nat round) ;;
    rr <- at_ r (Z.of_nat d * 3 - 1 - Z.of_nat round) ;;
    q <- message3 d num (2 ^ d) (fun i _ => bit_set i num) B V0 V1 zr ;;
    let num := Nat.shiftr num 1 in
    B <- update_betavals B (num * 2 ^ d * 2 ^ d) zr rr ;;
    V0 <- updateV V0 (num * 2 ^ d) rr ;;
    Ok (num, B, V0, poly ++ [q])) (num, B, V0, []).
(** Lines 255-299 *)
Definition rounds_j (d : nat) (z r V0 : list Z) : nat * list Z * list Z * list (list Z) -> outcome (nat * list Z * list Z * list (list Z)) :=
  for_ d d (fun round '(num, B, V1, poly) =>
    zr <- at_ z (3 * Z.of_nat d - 1 - Z.of_nat round) ;;
    rr <- at_ r (3 * Z.of_nat d - 1 - Z.of_nat round) ;;
    q <- message3 d 1 num (fun _ j => bit_set j num) B V0 V1 zr ;;
    let num := Nat.shiftr num 1 in
    B <- update_betavals B (num * 2 ^ d) zr rr ;;
    V1 <- updateV V1 (num * 2 ^ d) rr ;;
    Ok (num, B, V1, poly ++ [q])).
(** Lines 307-341; the fourth number is not reduced. *)
Definition message4 (num : nat) (B V0 V1 : list Z) (z : Z) : outcome (list Z) :=
  let bu2 := (z - 1) + 2 * z in
  let bu3 := Z.rem (2 * (z - 1) + 3 * z) P in
  let inv1 := mpz_inv z in
  let inv2 := mpz_inv (Z.rem (1 - z) P) in
  let half := Z.of_nat (Nat.shiftr num 1) in
  ' (p0, p1, p2, p3) <- for_ num 0 (fun k '(p0, p1, p2, p3) =>
    b <- rd B k ;; v0 <- rd V0 k ;; v1 <- rd V1 k ;;
    if bit_set k num then
      w <- at_ V1 (Z.of_nat k - half) ;;
      Ok (p0, p1 + b * v0 * v1, p2 + b * inv1 * bu2 * 2 * v0 * (2 * v1 - w), p3 + b * inv1 * bu3 * 3 * v0 * (3 * v1 - 2 * w))
    else
      w <- at_ V1 (Z.of_nat k + half) ;;
      Ok (p0 + b * v0 * v1, p1, p2 + b * inv2 * bu2 * - v0 * (2 * w - v1), p3 + b * inv2 * bu3 * (-2 * v0) * (-2 * v1 + 3 * w))) (0, 0, 0, 0) ;;
  Ok [Z.rem p0 P; Z.rem p1 P; Z.rem p2 P; p3].
(** Lines 305-346 *)
Definition rounds_k (d : nat) (z r : list Z) : nat * list Z * list Z * list Z * list (list Z) -> outcome (nat * list Z * list Z * list Z * list (list Z)) :=
  for_ d (2 * d) (fun round '(num, B, V0, V1, poly) =>
    zr <- at_ z (Z.of_nat d * 3 - 1 - Z.of_nat round) ;;
    rr <- at_ r (3 * Z.of_nat d - 1 - Z.of_nat round) ;;
    q <- message4 num B V0 V1 zr ;;
    let num := Nat.shiftr num 1 in
    B <- update_betavals B num zr rr ;;
    V0 <- updateV V0 num rr ;;
    V1 <- updateV V1 num rr ;;
    Ok (num, B, V0, V1, poly ++ [q])).
(** Lines 159-346: the messages [poly], from the gates of the input layer, [*z] and the challenges [r].
    The table of lines 79-97 is that of [weights] on the first 3 d entries of [z]. *)
Definition mm_messages (d : nat) (gates z r : list Z) : outcome (list (list Z)) :=
  (if (length z <? 3 * d)%nat then UB else Ok tt) ;;;
  let B := weights (firstn (3 * d) z) in
  (if (length gates <? 2 * 2 ^ d * 2 ^ d)%nat then UB else Ok tt) ;;;
  let V0 := firstn (2 ^ d * 2 ^ d) gates in
  let V1 := firstn (2 ^ d * 2 ^ d) (skipn (2 ^ d * 2 ^ d) gates) in
  ' (_, B, V0, poly) <- rounds_i d z r V1 (2 ^ d, B, V0)%nat ;;
  ' (_, B, V1, poly) <- rounds_j d z r V0 (2 ^ d, B, V1, poly)%nat ;;
  ' (_, _, _, _, poly) <- rounds_k d z r (2 ^ d, B, V0, V1, poly)%nat ;;
  Ok poly.

(** Lines 348-375: the checks.  Gives whether a check fails. *)
Definition get2 (poly : list (list Z)) (i : Z) : outcome Z :=
  i <- idx i ;; q <- rd poly i ;; a <- rd q 0 ;; b <- rd q 1 ;; Ok (Z.rem (a + b) P).
Definition mm_check (d : Z) (poly : list (list Z)) (r : list Z) (n : nat) (j : Z) (f : bool) : outcome bool :=
  q <- (i <- idx (j - 1) ;; rd poly i) ;;
  c <- (i <- idx (3 * d - 1 - j - 1) ;; rd r i) ;;
  check <- extrap q n c ;;
  s <- get2 poly j ;;
  Ok (f || differ s check).
Definition mm_checks (d : nat) (poly : list (list Z)) (r : list Z) (ri : Z) : outcome bool :=
  let d := Z.of_nat d in
  s <- get2 poly 0 ;;
  f <- forz 1 (d * 2) (mm_check d poly r 3) (differ s ri) ;;
  forz (2 * d) (3 * d) (mm_check d poly r 4) f.

(** Lines 682-690, the layers above the multiplications: layer [i] has [logS] = 2 d + i. *)
Fixpoint trees (ls : list (list Z)) (logS : nat) (z : list Z) (ri : Z) (rs : list Z) (fails : bool) : outcome (bool * list Z * Z) :=
  match rs, ls with
  | rnew :: rs', _ :: ((below :: _) as ls') =>
      ' (f, z, ri) <- sum_check_addtree logS below z ri rnew ;; trees ls' (S logS) z ri rs' (fails || f)
  | [], _ => Ok (fails, z, ri)
  | _ :: _, _ => UB
  end.
(** Lines 149-375 *)
Definition sum_check_mm (d : nat) (gates z r : list Z) (ri : Z) : outcome bool :=
  poly <- mm_messages d gates z r ;; mm_checks d poly r ri.
(** Lines 637-690 up to the checks of sum_check_mm.  [z] are the first 2 d random numbers, [rs] those of
    the [d] addition layers, [r] the 3 d + 1 of sum_check_mm.  (Nothing is modelled after these checks.) *)
Definition mm_main (d : nat) (input z rs r : list Z) : outcome (bool * bool) :=
  ls <- evaluate d input ;;
  V <- rd ls 0 ;;
  ri <- random_V_L V z ;;
  ' (f, z, ri) <- trees ls (2 * d) z ri rs false ;;
  gates <- rd ls (S d) ;;
  g <- sum_check_mm d gates z r ri ;;
  Ok (f, g).
