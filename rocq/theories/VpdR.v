(** * Model of src/VPD/vpdR.cpp

    The globals of namespace [vpdR] set by [KeyGen] form the key record.
    Values drawn with [mpz_urandomm] are arguments. *)
From Coq Require Import ZArith List Bool Arith.
From Verif Require Import Base Limbs Field Fp VpdGroup.
Import ListNotations.
Open Scope nat_scope.

(** vpdR.cpp:21-31 *)
Record keyR := KeyR {
  kr_a : Z; kr_g1_pre : list F; kr_g2_pre : list F; kr_g2a : F;
  kr_pub_g1 : list F; kr_pub_g2 : list F }.

(** vpdR.cpp:58-91, [KeyGen(2)] *)
Definition R_keygen (a s0 s1 s2 : Z) : outcome keyR :=
  let g1_pre := precompute gen1 in
  let g2_pre := precompute gen2 in
  temp <- vuint a ;;
  let g2a := gmul gen2 temp in
  let square0 := Z.rem (s0 * s0) P in
  let square1 := Z.rem (s1 * s1) P in
  p1 <- pre_exp g1_pre s0 ;;
  p2 <- pre_exp g1_pre square0 ;;
  p3 <- pre_exp g1_pre s1 ;;
  p4 <- pre_exp g1_pre square1 ;;
  p5 <- pre_exp g1_pre (Z.rem (s0 * s1) P) ;;
  p6 <- pre_exp g1_pre s2 ;;
  q0 <- pre_exp g2_pre s0 ;;
  q1 <- pre_exp g2_pre s1 ;;
  q2 <- pre_exp g2_pre s2 ;;
  Ok (KeyR a g1_pre g2_pre g2a [gen1; p1; p2; p3; p4; p5; p6] [q0; q1; q2]).

(** vpdR.cpp:93-122; returns (digest, digesta); [r_f] is drawn by the code. *)
Definition R_commit (K : keyR) (input : list Z) (r_f : Z) : outcome (F * F) :=
  let coeffs := map fix_neg_z (input ++ [r_f]) in
  digest <- for_ (length coeffs) 0 (fun i digest =>
    c <- rd coeffs i ;; temp <- vuint c ;;
    g <- rd (kr_pub_g1 K) i ;;
    Ok (Fadd digest (gmul g temp))) (gmul gen1 0) ;;
  temp1 <- vuint (kr_a K) ;;
  Ok (digest, gmul digest temp1).

(** vpdR.cpp:124-132 *)
Definition R_check_commit (K : keyR) (digest digesta : F) : bool :=
  gt_eqb (pairing gen2 digesta) (pairing (kr_g2a K) digest).

(** vpdR.cpp:135-177; [t] is drawn by the code. Result: (ans, witness, witnessa). *)
Definition R_prove (K : keyR) (r : list Z) (input : list Z) (r_f : Z) (t0 t1 : Z)
  : outcome (Z * list F * list F) :=
  let coeffs := map fix_neg_z input ++ [r_f] in
  c0 <- rd coeffs 0 ;; c1 <- rd coeffs 1 ;; c2 <- rd coeffs 2 ;; c3 <- rd coeffs 3 ;;
  c4 <- rd coeffs 4 ;; c5 <- rd coeffs 5 ;; c6 <- rd coeffs 6 ;;
  r0 <- rd r 0 ;; r1 <- rd r 1 ;;
  g1 <- rd (kr_pub_g1 K) 1 ;; g3 <- rd (kr_pub_g1 K) 3 ;; g6 <- rd (kr_pub_g1 K) 6 ;;
  tempa2 <- vuint c2 ;;
  tempa5 <- vuint c5 ;;
  e0 <- pre_exp (kr_g1_pre K) (Z.rem (c2 * r0 + c1) P) ;;
  let w0 := Fadd (Fadd e0 (gmul g1 tempa2)) (gmul g3 tempa5) in
  tempt0 <- vuint t0 ;;
  let w0 := Fadd w0 (gmul g6 tempt0) in
  tempa4 <- vuint c4 ;;
  e1 <- pre_exp (kr_g1_pre K) (Z.rem (c5 * r0 + c4 * r1 + c3) P) ;;
  let w1 := Fadd e1 (gmul g3 tempa4) in
  tempt1 <- vuint t1 ;;
  let w1 := Fadd w1 (gmul g6 tempt1) in
  let temp := Z.rem (c6 + Z.rem (r0 * t0) P + Z.rem (r1 * t1) P) P in
  e2 <- pre_exp (kr_g1_pre K) temp ;;
  let w2 := Fsub (Fsub e2 (gmul g1 tempt0)) (gmul g3 tempt1) in
  tempa <- vuint (kr_a K) ;;
  let square0 := Z.rem (r0 * r0) P in
  let square1 := Z.rem (r1 * r1) P in
  let cross := Z.rem (r0 * r1) P in
  let ans := Z.rem (c0 + Z.rem (c1 * r0) P + Z.rem (c2 * square0) P + Z.rem (c3 * r1) P
                    + Z.rem (c4 * square1) P + Z.rem (c5 * cross) P) P in
  Ok (fix_neg_z ans, [w0; w1; w2], map (fun w => gmul w tempa) [w0; w1; w2]).

(** vpdR.cpp:179-225. The loop at lines 186-193 covers [i < r.size()] only. *)
Definition R_verify (K : keyR) (r : list Z) (digest : F) (ans : Z) (witness witnessa : list F) : outcome bool :=
  let n := length r in
  flag <- for_ n 0 (fun i flag =>
    wa <- rd witnessa i ;; w <- rd witness i ;;
    Ok (flag && gt_eqb (pairing gen2 wa) (pairing (kr_g2a K) w))) true ;;
  temp2 <- pre_exp (kr_g1_pre K) ans ;;
  let ea3 := pairing gen2 (Fsub digest temp2) in
  ea4 <- for_ (n + 1) 0 (fun i ea4 =>
    q <- rd (kr_pub_g2 K) i ;; w <- rd witness i ;;
    if i <? n then
      ri <- rd r i ;; e <- pre_exp (kr_g2_pre K) ri ;;
      Ok (Fadd ea4 (pairing (Fsub q e) w))
    else Ok (Fadd ea4 (pairing q w))) F0 ;;
  Ok (flag && gt_eqb ea3 ea4).
