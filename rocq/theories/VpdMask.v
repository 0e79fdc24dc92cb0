(** * Model of src/VPD/vpd_test.cpp, the commitment to the sum-check mask *)
From Coq Require Import ZArith List Bool Arith.
From Verif Require Import Base Limbs Field Fp VpdGroup.
Import ListNotations.
Open Scope nat_scope.

(** vpd_test.cpp:22-33 *)
Record keyM := KeyM {
  km_n : nat; km_a : Z; km_g1_pre : list F; km_g2_pre : list F; km_g2a : F;
  km_pub_g1 : list F; km_pub_g2 : list F }.

(** vpd_test.cpp:59-104; [a] and [s] are drawn by the code.  The tables are
    filled with [at], whose range check throws; here out of range is [UB].
    [d / 2 - 1] and [d - 2] are computed on [int]. *)
Definition M_keygen (d : nat) (a : Z) (s : list Z) : outcome keyM :=
  let g1_pre := precompute gen1 in
  let g2_pre := precompute gen2 in
  temp <- vuint a ;;
  let g2a := gmul gen2 temp in
  let N := d * 2 + 1 + 6 + 1 in
  ' (pg1, pg2) <- for_ d 0 (fun i st =>
    let '(pg1, pg2) := st in
    si <- rd s i ;;
    x1 <- pre_exp g1_pre si ;;
    pg1 <- wr pg1 (2 * i + 1) x1 ;;
    y1 <- pre_exp g2_pre si ;;
    pg2 <- wr pg2 (2 * i + 1) y1 ;;
    let square := Z.rem (si * si) P in
    x0 <- pre_exp g1_pre square ;;
    pg1 <- wr pg1 (2 * i) x0 ;;
    let cubic := Z.rem (square * si) P in
    let quadruple := Z.rem (cubic * si) P in
    let quintuple := Z.rem (quadruple * si) P in
    pg1 <- (if (Z.of_nat i =? Z.of_nat (d / 2) - 1)%Z then
      x5 <- pre_exp g1_pre quintuple ;; pg1 <- wr pg1 (2 * d + 1) x5 ;;
      x4 <- pre_exp g1_pre quadruple ;; pg1 <- wr pg1 (2 * d + 2) x4 ;;
      x3 <- pre_exp g1_pre cubic ;; wr pg1 (2 * d + 3) x3 else Ok pg1) ;;
    pg1 <- (if (Z.of_nat i =? Z.of_nat d - 2)%Z then
      x5 <- pre_exp g1_pre quintuple ;; pg1 <- wr pg1 (2 * d + 4) x5 ;;
      x4 <- pre_exp g1_pre quadruple ;; pg1 <- wr pg1 (2 * d + 5) x4 ;;
      x3 <- pre_exp g1_pre cubic ;; wr pg1 (2 * d + 6) x3 else Ok pg1) ;;
    Ok (pg1, pg2)) (repeat F0 N, repeat F0 N) ;;
  pg1 <- wr pg1 (2 * d) gen1 ;;
  pg2 <- wr pg2 (2 * d) gen2 ;;
  sd <- rd s d ;;
  x <- pre_exp g1_pre sd ;;
  pg1 <- wr pg1 (2 * d + 7) x ;;
  y <- pre_exp g2_pre sd ;;
  pg2 <- wr pg2 (2 * d + 1) y ;;
  Ok (KeyM d a g1_pre g2_pre g2a pg1 pg2).

(** vpd_test.cpp:106-134 *)
Definition M_commit (K : keyM) (input : list Z) (r_f : Z) : outcome (F * F) :=
  let coeffs := map fix_neg_z (input ++ [r_f]) in
  digest <- for_ (2 * km_n K + 1 + 6 + 1) 0 (fun i digest =>
    c <- rd coeffs i ;; temp <- vuint c ;;
    g <- rd (km_pub_g1 K) i ;;
    Ok (Fadd digest (gmul g temp))) (gmul gen1 0) ;;
  temp1 <- vuint (km_a K) ;;
  Ok (digest, gmul digest temp1).

(** vpd_test.cpp:136-144 *)
Definition M_check_commit (K : keyM) (digest digesta : F) : bool :=
  gt_eqb (pairing gen2 digesta) (pairing (km_g2a K) digest).

(** vpd_test.cpp:157-170 and 171-184: the witness of a variable with degree-5
    terms, whose coefficients of degree 5, 4, 3 start at [h] in [coeffs]. *)
Definition M_witness5 (K : keyM) (coeffs : list Z) (h i : nat) (ri : Z) : outcome F :=
  c5 <- rd coeffs h ;; c4 <- rd coeffs (h + 1) ;; c3 <- rd coeffs (h + 2) ;;
  c2 <- rd coeffs (2 * i) ;; c1 <- rd coeffs (2 * i + 1) ;;
  let tmp1 := c5 in
  temp1 <- vuint tmp1 ;;
  let tmp2 := Z.rem (tmp1 * ri + c4) P in
  temp2 <- vuint tmp2 ;;
  let tmp3 := Z.rem (tmp2 * ri + c3) P in
  temp3 <- vuint tmp3 ;;
  let tmp4 := Z.rem (tmp3 * ri + c2) P in
  temp4 <- vuint tmp4 ;;
  let tmp5 := Z.rem (tmp4 * ri + c1) P in
  x4 <- rd (km_pub_g1 K) (h + 1) ;; x3 <- rd (km_pub_g1 K) (h + 2) ;;
  x2 <- rd (km_pub_g1 K) (2 * i) ;; x1 <- rd (km_pub_g1 K) (2 * i + 1) ;;
  e <- pre_exp (km_g1_pre K) tmp5 ;;
  Ok (Fadd (Fadd (Fadd (Fadd (gmul x4 temp1) (gmul x3 temp2)) (gmul x2 temp3)) (gmul x1 temp4)) e).
(** vpd_test.cpp:185-191: the witness of an ordinary variable. *)
Definition M_witness2 (K : keyM) (coeffs : list Z) (i : nat) (ri : Z) : outcome F :=
  c2 <- rd coeffs (2 * i) ;; c1 <- rd coeffs (2 * i + 1) ;;
  temp1 <- vuint c2 ;;
  let tmp := fix_neg_z (Z.rem (c2 * ri) P) in
  x1 <- rd (km_pub_g1 K) (2 * i + 1) ;;
  e1 <- pre_exp (km_g1_pre K) tmp ;;
  e2 <- pre_exp (km_g1_pre K) c1 ;;
  Ok (Fadd (Fadd (gmul x1 temp1) e1) e2).
(** vpd_test.cpp:213-221 and 222-230 *)
Definition M_ans5 (coeffs : list Z) (h i : nat) (ri ans : Z) : outcome Z :=
  c5 <- rd coeffs h ;; c4 <- rd coeffs (h + 1) ;; c3 <- rd coeffs (h + 2) ;;
  c2 <- rd coeffs (2 * i) ;; c1 <- rd coeffs (2 * i + 1) ;;
  let tmp := c5 in
  let tmp := Z.rem (tmp * ri + c4) P in
  let tmp := Z.rem (tmp * ri + c3) P in
  let tmp := Z.rem (tmp * ri + c2) P in
  let tmp := Z.rem (tmp * ri + c1) P in
  let tmp := Z.rem (tmp * ri) P in
  Ok (Z.rem (ans + tmp) P).

(** vpd_test.cpp:146-238; [t] is drawn by the code. Result: (ans, witness, witnessa). *)
Definition M_prove (K : keyM) (r : list Z) (input : list Z) (r_f : Z) (t : list Z)
  : outcome (Z * list F * list F) :=
  let n := km_n K in
  let coeffs := input ++ [r_f] in
  let first i := (Z.of_nat i =? Z.of_nat (n / 2) - 1)%Z in
  let second i := (Z.of_nat i =? Z.of_nat n - 2)%Z in
  gb <- rd (km_pub_g1 K) (2 * n + 7) ;;
  tempa <- vuint (km_a K) ;;
  witness <- for_ n 0 (fun i witness =>
    ri <- rd r i ;;
    w <- (if first i then M_witness5 K coeffs (2 * n + 1) i ri else Ok F0) ;;
    w <- (if second i then M_witness5 K coeffs (2 * n + 4) i ri else Ok w) ;;
    w <- (if negb (first i) && negb (second i) then M_witness2 K coeffs i ri else Ok w) ;;
    ti <- rd t i ;; tempti <- vuint ti ;;
    wr witness i (Fadd w (gmul gb tempti))) (repeat F0 (n + 1)) ;;
  c <- rd coeffs (2 * n + 7) ;;
  tmp <- for_ n 0 (fun i tmp => ti <- rd t i ;; ri <- rd r i ;; Ok (tmp + Z.rem (ti * ri) P)%Z) c ;;
  w <- pre_exp (km_g1_pre K) tmp ;;
  w <- for_ n 0 (fun i w =>
    ti <- rd t i ;; tempti <- vuint ti ;; g <- rd (km_pub_g1 K) (2 * i + 1) ;;
    Ok (Fsub w (gmul g tempti))) w ;;
  witness <- wr witness n w ;;
  let witnessa := map (fun w => gmul w tempa) witness in
  let coeffs := map fix_neg_z coeffs in
  ans <- for_ n 0 (fun i ans =>
    ri <- rd r i ;;
    ans <- (if first i then M_ans5 coeffs (2 * n + 1) i ri ans else Ok ans) ;;
    ans <- (if second i then M_ans5 coeffs (2 * n + 4) i ri ans else Ok ans) ;;
    if negb (first i) && negb (second i) then
      c2 <- rd coeffs (2 * i) ;; c1 <- rd coeffs (2 * i + 1) ;;
      let ans := Z.rem (ans + c2 * ri * ri) P in
      Ok (Z.rem (ans + c1 * ri) P)
    else Ok ans) 0%Z ;;
  c0 <- rd coeffs (2 * n) ;;
  Ok (Z.rem (ans + c0) P, witness, witnessa).

(** vpd_test.cpp:240-287; here the consistency loop covers all elements. *)
Definition M_verify (K : keyM) (r : list Z) (digest : F) (ans : Z) (witness witnessa : list F) : outcome bool :=
  let n := length r in
  flag <- for_ (n + 1) 0 (fun i flag =>
    wa <- rd witnessa i ;; w <- rd witness i ;;
    Ok (flag && gt_eqb (pairing gen2 wa) (pairing (km_g2a K) w))) true ;;
  let ans := Z.rem ans P in
  temp2 <- pre_exp (km_g1_pre K) ans ;;
  let ea3 := pairing gen2 (Fsub digest temp2) in
  ea4 <- for_ (n + 1) 0 (fun i ea4 =>
    q <- rd (km_pub_g2 K) (2 * i + 1) ;; w <- rd witness i ;;
    if i <? n then
      ri <- rd r i ;; e <- pre_exp (km_g2_pre K) ri ;;
      Ok (Fadd ea4 (pairing (Fsub q e) w))
    else Ok (Fadd ea4 (pairing q w))) F0 ;;
  Ok (flag && gt_eqb ea3 ea4).
