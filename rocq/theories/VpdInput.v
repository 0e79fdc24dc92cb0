(** * Model of src/VPD/inputvpd.cpp, the commitment to the circuit input *)
From Coq Require Import ZArith List Bool Arith.
From Verif Require Import Base Limbs Field Fp VpdGroup.
Import ListNotations.
Open Scope nat_scope.

(** inputvpd.cpp:9 *)
Definition multi_scalar_w := 8.

(** [1 << k] on [int]: undefined for a negative count and when it does not fit. *)
Definition shl_int (k : Z) : outcome nat :=
  if ((0 <=? k) && (k <? 31))%Z then Ok (2 ^ Z.to_nat k) else UB.

(** inputvpd.cpp:11-32 *)
Record keyI := KeyI {
  ki_n : nat; ki_a : Z; ki_g1_pre : list F; ki_g2_pre : list F; ki_g2a : F;
  ki_pub_g1 : list F; ki_pub_g2 : list F; ki_multi : list (list F) }.

(** inputvpd.cpp:34-53 *)
Definition pre_input (n : nat) (input : list Z) : outcome (list Z) :=
  half <- shl_int (Z.of_nat n - 1) ;;
  full <- shl_int (Z.of_nat n) ;;
  input <- for_ half 0 (fun i input =>
    x <- rd input i ;; y <- rd input (full - 1 - i) ;;
    input <- wr input i y ;; wr input (full - 1 - i) x) input ;;
  for_ n 0 (fun i input =>
    let group_size := 2 ^ (i + 1) in
    let half_group_size := 2 ^ i in
    for_ (full / group_size) 0 (fun j input =>
      let base := j * group_size in
      for_ (group_size / 2) 0 (fun k input =>
        tmp <- rd input (base + k) ;;
        y <- rd input (base + half_group_size + k) ;;
        input <- wr input (base + k) y ;;
        y <- rd input (base + half_group_size + k) ;;
        wr input (base + k + half_group_size) (Z.rem (tmp - y + P) P)) input) input) input.

(** inputvpd.cpp:78-90: [g_baby_step]; row [i] lists [0, g_pow, 2 g_pow, ...]. *)
Fixpoint multiples (g_pow : F) (n : nat) (x : F) : list F :=
  match n with O => [] | S n' => x :: multiples g_pow n' (Fadd x g_pow) end.
Definition baby_row (g g_pow : F) : list F := multiples g_pow (2 ^ 15) (gmul g 0).
Fixpoint baby_rows (g : F) (n : nat) (g_pow : F) : list (list F) :=
  match n with O => [] | S n' => baby_row g g_pow :: baby_rows g n' (gmul g_pow (2 ^ 15)) end.
Definition baby_steps (g : F) : list (list F) := baby_rows g (256 / 15 + 1) g.

(** inputvpd.cpp:92-103 *)
Definition g1_exp (table : list (list F)) (a : Z) : outcome F :=
  for_ (sizeinbase2 a / 15 + 1) 0 (fun i ret =>
    let mask := Z.land (Z.shiftr a (Z.of_nat i * 15)) (2 ^ 15 - 1) in
    row <- rd table i ;;
    m <- idx mask ;;
    x <- rd row m ;;
    Ok (Fadd ret x)) (gmul gen1 0).

(** inputvpd.cpp:124-129 *)
Definition I_monomials (table : list (list F)) (d : nat) (s : list Z) : outcome (list Z * list F) :=
  for_ d 0 (fun i st =>
    for_ (2 ^ (i + 1) - 2 ^ i) (2 ^ i) (fun j st =>
      let '(ex, pg1) := st in
      si <- rd s i ;; e <- rd ex (j - 2 ^ i) ;;
      ex <- wr ex j (Z.rem (si * e) P) ;;
      e <- rd ex j ;;
      x <- g1_exp table e ;;
      pg1 <- wr pg1 j x ;;
      Ok (ex, pg1)) st)
    (upd (repeat 0%Z (2 ^ d)) 0 1%Z, upd (repeat F0 (2 ^ d + 1)) 0 gen1).

(** inputvpd.cpp:150-158: [value], the sums of the subsets [3 .. 2^w - 1] of [scalars]. *)
Definition I_subset_sums (scalars : list F) : outcome (list F) :=
  for_ (2 ^ multi_scalar_w - 3) 3 (fun j value =>
    v <- for_ multi_scalar_w 0 (fun k v =>
      if Nat.eqb (Nat.land (Nat.shiftr j k) 1) 1 then x <- rd scalars k ;; Ok (Fadd v x) else Ok v)
      (gmul gen1 0) ;;
    Ok (value ++ [v])) [].
(** inputvpd.cpp:133-159 *)
Definition I_multi_table (full : nat) (pub_g1 : list F) : outcome (list (list F)) :=
  for_ (full / multi_scalar_w + 1) 0 (fun i table =>
    scalars <- for_ multi_scalar_w 0 (fun j scalars =>
      let id := i * multi_scalar_w + j in
      if full <=? id then Ok (scalars ++ [gmul gen1 0])
      else x <- rd pub_g1 id ;; Ok (scalars ++ [x])) [] ;;
    value <- I_subset_sums scalars ;;
    Ok (table ++ [value])) [].

(** inputvpd.cpp:105-167; [a] and [s] are drawn by the code. *)
Definition I_keygen (d : nat) (a : Z) (s : list Z) : outcome keyI :=
  let g1_pre := precompute gen1 in
  let g2_pre := precompute gen2 in
  let table := baby_steps gen1 in
  g2a <- pre_exp g2_pre a ;;
  full <- shl_int (Z.of_nat d) ;;
  ' (_, pub_g1) <- I_monomials table d s ;;
  sd <- rd s d ;;
  x <- pre_exp g1_pre sd ;;
  pub_g1 <- wr pub_g1 full x ;;
  multi <- I_multi_table full pub_g1 ;;
  pub_g2 <- for_ (d + 1) 0 (fun i pub_g2 =>
    si <- rd s i ;; y <- pre_exp g2_pre si ;; wr pub_g2 i y) (upd (repeat F0 (d + 1)) 0 gen2) ;;
  Ok (KeyI d a g1_pre g2_pre g2a pub_g1 pub_g2 multi).

(** inputvpd.cpp:169-198 *)
Definition multi_scalar_calc (K : keyI) (index pub_g1_length : nat) (scalar_pow : list Z) : outcome F :=
  max_len <- for_ multi_scalar_w 0 (fun j m =>
    x <- rd scalar_pow j ;; Ok (Nat.max m (sizeinbase2 x))) 0 ;;
  for_ max_len 0 (fun jj ret =>
    let j := max_len - 1 - jj in
    current_scalar <- for_ multi_scalar_w 0 (fun k c =>
      x <- rd scalar_pow k ;;
      Ok (Nat.lor c (Nat.shiftl (Nat.b2n (Z.testbit x (Z.of_nat j))) k))) 0 ;;
    let ret := gmul ret 2 in
    match current_scalar with
    | 0 => Ok ret
    | 1 => if index * multi_scalar_w <? pub_g1_length then
             x <- rd (ki_pub_g1 K) (index * multi_scalar_w) ;; Ok (Fadd ret x) else Ok ret
    | 2 => if index * multi_scalar_w + 1 <? pub_g1_length then
             x <- rd (ki_pub_g1 K) (index * multi_scalar_w + 1) ;; Ok (Fadd ret x) else Ok ret
    | _ => value <- rd (ki_multi K) index ;;
           x <- rd value (current_scalar - 3) ;;
           Ok (Fadd ret x)
    end) (gmul gen1 0).

(** inputvpd.cpp:222-233 and 340-351: the block of scalars number [i], from
    [coeffs] shifted by [temp], zero from [bound] on. *)
Definition I_block (coeffs : list Z) (temp bound i : nat) : outcome (list Z) :=
  for_ multi_scalar_w 0 (fun j scalar_pow =>
    let id := i * multi_scalar_w + j in
    if bound <=? id then Ok (scalar_pow ++ [0%Z])
    else x <- rd coeffs (id + temp) ;; Ok (scalar_pow ++ [x])) [].

(** inputvpd.cpp:200-262; [r_f], [r_f2] are drawn by the code. Result: the
    transformed input (the argument [input] is changed in place) and (digest,
    digesta, digest2, digest2a). *)
Definition I_commit (K : keyI) (input input2 : list Z) (r_f r_f2 : Z)
  : outcome (list Z * (F * F * F * F)) :=
  let n := ki_n K in
  coeffs <- pre_input n input ;;
  assert_ (1 <=? length coeffs) ;;;
  coeffs <- wr coeffs (length coeffs - 1) r_f ;;
  let coeffs := map fix_neg_z coeffs in
  full <- shl_int (Z.of_nat n) ;;
  half <- shl_int (Z.of_nat n - 1) ;;
  digest <- for_ (full / multi_scalar_w + 1) 0 (fun i digest =>
    scalar_pow <- I_block coeffs 0 full i ;;
    x <- multi_scalar_calc K i full scalar_pow ;;
    Ok (Fadd digest x)) (gmul gen1 0) ;;
  c <- rd coeffs full ;; temp <- vuint c ;;
  gb <- rd (ki_pub_g1 K) full ;;
  let digest := Fadd digest (gmul gb temp) in
  let coeffs2 := input2 ++ [r_f2] in
  c20 <- rd coeffs2 0 ;; temp0 <- vuint c20 ;;
  c21 <- rd coeffs2 1 ;; temp1 <- vuint c21 ;;
  c22 <- rd coeffs2 2 ;; temprf2 <- vuint c22 ;;
  x0 <- rd (ki_pub_g1 K) 0 ;; x1 <- rd (ki_pub_g1 K) half ;;
  let digest2 := Fadd (Fadd (gmul x0 temp0) (gmul x1 temp1)) (gmul gb temprf2) in
  tempa <- vuint (ki_a K) ;;
  Ok (coeffs, (digest, gmul digest tempa, digest2, gmul digest2 tempa)).

(** inputvpd.cpp:264-276 *)
Definition I_check_commit (K : keyI) (digest digesta digest2 digest2a : F) : bool :=
  gt_eqb (pairing gen2 digesta) (pairing (ki_g2a K) digest)
  && gt_eqb (pairing gen2 digest2a) (pairing (ki_g2a K) digest2).

(** inputvpd.cpp:297-306 *)
Definition I_evaluate (n : nat) (r coeffs : list Z) : outcome Z :=
  c0 <- rd coeffs 0 ;;
  ' (_, ans) <- for_ n 0 (fun i st =>
    for_ (2 ^ (i + 1) - 2 ^ i) (2 ^ i) (fun j st =>
      let '(ans_pre, ans) := st in
      ri <- rd r i ;; e <- rd ans_pre (j - 2 ^ i) ;;
      ans_pre <- wr ans_pre j (Z.rem (ri * e) P) ;;
      e <- rd ans_pre j ;; c <- rd coeffs j ;;
      Ok (ans_pre, Z.rem (ans + Z.rem (e * c) P) P)) st)
    (upd (repeat 0%Z (2 ^ n)) 0 1%Z, c0) ;;
  Ok ans.
(** inputvpd.cpp:312-322: the quotients, highest variable first. *)
Definition I_quotients (n : nat) (r coeffs : list Z) : outcome (list Z) :=
  ' (_, wc, _) <- for_ n 0 (fun i st =>
    let '(tc, wc, start_index) := st in
    let h := 2 ^ (length r - i - 1) in
    ' (tc, wc) <- for_ h 0 (fun j st =>
      let '(tc, wc) := st in
      hi <- rd tc (h + j) ;;
      wc <- wr wc (start_index + j) (Z.rem hi P) ;;
      lo <- rd tc j ;;
      ri <- rd r (n - 1 - i) ;;
      tc <- wr tc j (Z.rem (lo + Z.rem (hi * ri) P) P) ;;
      Ok (tc, wc)) (tc, wc) ;;
    Ok (tc, wc, start_index + h)) (coeffs, repeat 0%Z (2 ^ n), 0) ;;
  Ok wc.
(** inputvpd.cpp:331-355: the inner loop runs over [k = n-1 .. 0] and stops at
    the first [k] with no block number [i] (the flag of the state). *)
Definition I_witness_sums (K : keyI) (wc : list Z) : outcome (list F) :=
  let n := ki_n K in
  half <- shl_int (Z.of_nat n - 1) ;;
  for_ (half / multi_scalar_w + 1) 0 (fun i witness =>
    ' (witness, _, _) <- for_ n 0 (fun kk st =>
      let '(witness, temp, stopped) := st in
      let k := n - 1 - kk in
      if (stopped : bool) || (2 ^ k / multi_scalar_w + 1 <=? i) then Ok (witness, temp, true)
      else
        scalar_pow <- I_block wc temp (2 ^ k) i ;;
        x <- multi_scalar_calc K i (2 ^ k) scalar_pow ;;
        w <- rd witness k ;;
        witness <- wr witness k (Fadd w x) ;;
        Ok (witness, temp + 2 ^ k, false)) (witness, 0, false) ;;
    Ok witness) (repeat F0 (n + 1)).

(** inputvpd.cpp:278-377; [t] is drawn by the code. Result: (ans, witness, witnessa). *)
Definition I_prove (K : keyI) (r input input2 : list Z) (r_f r_f2 Zv : Z) (t : list Z)
  : outcome (Z * list F * list F) :=
  let n := ki_n K in
  full <- shl_int (Z.of_nat n) ;;
  half <- shl_int (Z.of_nat n - 1) ;;
  i20 <- rd input2 0 ;; i21 <- rd input2 1 ;;
  c0 <- rd input 0 ;;
  coeffs <- wr input 0 (Z.rem (c0 + Z.rem (Zv * i20) P) P) ;;
  ch <- rd coeffs half ;;
  coeffs <- wr coeffs half (Z.rem (ch + Z.rem (Zv * i21) P) P) ;;
  assert_ (1 <=? length coeffs) ;;;
  coeffs <- wr coeffs (length coeffs - 1) (Z.rem (r_f + Zv * r_f2) P) ;;
  let coeffs := map fix_neg_z coeffs in
  ans <- I_evaluate n r coeffs ;;
  wc <- I_quotients n r coeffs ;;
  let wc := map fix_neg_z wc in
  tempa <- vuint (ki_a K) ;;
  witness <- I_witness_sums K wc ;;
  gb <- rd (ki_pub_g1 K) full ;;
  witness <- for_ n 0 (fun k witness =>
    tk <- rd t k ;; temptk <- vuint tk ;; w <- rd witness k ;;
    wr witness k (Fadd w (gmul gb temptk))) witness ;;
  c <- rd coeffs full ;;
  tmp <- for_ n 0 (fun i tmp => ti <- rd t i ;; ri <- rd r i ;; Ok (tmp + Z.rem (ti * ri) P)%Z) c ;;
  w <- pre_exp (ki_g1_pre K) tmp ;;
  w <- for_ n 0 (fun i w =>
    ti <- rd t i ;; tempti <- vuint ti ;; g <- rd (ki_pub_g1 K) (2 ^ i) ;;
    Ok (Fsub w (gmul g tempti))) w ;;
  witness <- wr witness n w ;;
  Ok (ans, witness, map (fun w => gmul w tempa) witness).

(** inputvpd.cpp:379-428. The loop at lines 386-393 covers [i < r.size()] only. *)
Definition I_verify (K : keyI) (r : list Z) (digest digest2 : F) (Zv ans : Z) (witness witnessa : list F)
  : outcome bool :=
  let n := length r in
  flag <- for_ n 0 (fun i flag =>
    wa <- rd witnessa i ;; w <- rd witness i ;;
    Ok (flag && gt_eqb (pairing gen2 wa) (pairing (ki_g2a K) w))) true ;;
  tempz <- vuint Zv ;;
  temp2 <- pre_exp (ki_g1_pre K) ans ;;
  let ea3 := pairing gen2 (Fsub (Fadd digest (gmul digest2 tempz)) temp2) in
  ea4 <- for_ (n + 1) 0 (fun i ea4 =>
    q <- rd (ki_pub_g2 K) i ;; w <- rd witness i ;;
    if i <? n then
      ri <- rd r i ;; e <- pre_exp (ki_g2_pre K) ri ;;
      Ok (Fadd ea4 (pairing (Fsub q e) w))
    else Ok (Fadd ea4 (pairing q w))) F0 ;;
  Ok (flag && gt_eqb ea3 ea4).
