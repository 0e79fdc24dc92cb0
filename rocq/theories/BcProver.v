(** * Model of src/traditional_gkr/prover_bc_clogc.cpp

    The prover of the block program (bc_clogc.cpp): several circuits with the same
    gates, told apart by a block index that gets its own rounds ("phase 0").  Same
    conventions as TradProver.v, whose definitions are used where the statements
    are the same: the member [C.blocks[0]] takes the place of [C].  Timing code,
    memory release and the unused arrays [beta_u*] are left out. *)
From Coq Require Import ZArith List Bool Arith.
From Verif Require Import Base Limbs Field Poly Circuit FastProver TradProver.
Import ListNotations.
Open Scope nat_scope.

(** include/traditional_gkr/circuit_bc_clogc.h: [blocked_circuit] *)
Record blocked_circuit := Blocked {
  blocks : list layered_circuit; total_blocks : nat; total_blocks_binary_length : nat }.

(** include/traditional_gkr/prover_bc_clogc.h:13-35.  [b_t] holds the members that
    prover_clogc.h has too; its [t_C] is [C.blocks[0]] and its [t_values] is not used
    ([circuit_value] is [b_values], indexed by block, layer and gate). *)
Record bprover := BProver {
  b_t : tprover; b_C : blocked_circuit;
  b_values : list (list (list fe));
  b_bits : nat;                      (* block_binary_length *)
  b_r_b : list fe; b_o_b : list fe;  (* r_b_0, one_minus_r_b_0 *)
  b_beta : list fe;                  (* block_beta_value *)
  b_V : list fe;                     (* block_v_value *)
  b_copy : list fe;                  (* V_mult_add_copy *)
  b_blk : fe }.                      (* beta_blk_val *)
Definition b_set_t (p : bprover) (t : tprover) : bprover :=
  BProver t (b_C p) (b_values p) (b_bits p) (b_r_b p) (b_o_b p) (b_beta p) (b_V p) (b_copy p) (b_blk p).
Definition b_set_values (p : bprover) (cv : list (list (list fe))) : bprover :=
  BProver (b_t p) (b_C p) cv (b_bits p) (b_r_b p) (b_o_b p) (b_beta p) (b_V p) (b_copy p) (b_blk p).
Definition b_set_blocks (p : bprover) (bv vv : list fe) : bprover :=
  BProver (b_t p) (b_C p) (b_values p) (b_bits p) (b_r_b p) (b_o_b p) bv vv (b_copy p) (b_blk p).
Definition b_set_copy (p : bprover) (copy : list fe) (blk : fe) : bprover :=
  BProver (b_t p) (b_C p) (b_values p) (b_bits p) (b_r_b p) (b_o_b p) (b_beta p) (b_V p) copy blk.
Definition t_set_gates (t : tprover) (gsum g0f g0s g1f g1s : list fe) : tprover :=
  t_set_tables t (t_total_uv t) (t_V t) gsum g0f g0s g1f g1s.
Definition t_set_V (t : tprover) (n : nat) (V : list fe) : tprover :=
  t_set_tables t n V (t_gsum t) (t_g0f t) (t_g0s t) (t_g1f t) (t_g1s t).

(** prover_bc_clogc.cpp:138-157 ([init_array]) and 5-8 ([get_circuit]). *)
Definition init_bprover (C : blocked_circuit) (C0 : layered_circuit) (max_bit_length : nat) : bprover :=
  let k := total_blocks_binary_length C in
  BProver (init_tprover C0 max_bit_length) C [] 0 [] []
    (repeat fe_zero (2 ^ k)) (repeat fe_zero (2 ^ (k + max_bit_length))) (repeat fe_zero (2 ^ max_bit_length)) fe_zero.

(** prover_bc_clogc.cpp:10-45: [V_res] folds by [r_0] and then by [r_b]. *)
Definition bc_V_res (o_0 r_0 o_b r_b output_raw : list fe) (r_0_size r_b_size output_size : nat) : outcome fe :=
  let op x0 o x1 r := u512_mod (u512_add (u512_mul x0 o) (u512_mul x1 r)) in
  output <- copy_n output_raw output_size ;;
  output <- fold_table op o_0 r_0 r_0_size output_size output ;;
  output <- fold_table op o_b r_b r_b_size (Nat.shiftr output_size r_0_size) output ;;
  res <- rd output 0 ;;
  Ok (fix_neg res).

(** prover_bc_clogc.cpp:55-97: the values of one block.  [circuit_value[blk]] has
    [d0 = C.blocks[0].total_depth] entries. *)
Definition block_rows (C : layered_circuit) (d0 : nat) : outcome (list (list fe)) :=
  L0 <- rd (circuit C) 0 ;;
  if d0 =? 0 then UB else
  row0 <- input_values L0 ;;
  for_ (total_depth C - 1) 1 (fun i cv =>
     L <- rd (circuit C) i ;;
     if d0 <=? i then UB else
     prev <- rd cv (i - 1) ;;
     row <- trad_layer_values L prev ;;
     Ok (cv ++ [row])) [row0].
(** prover_bc_clogc.cpp:47-114 *)
Definition bc_evaluate (p : bprover) : outcome (list fe * bprover) :=
  let C := b_C p in
  C0 <- rd (blocks C) 0 ;;
  let d0 := total_depth C0 in
  cv <- for_ (total_blocks C) 0 (fun blk cv =>
     Cb <- rd (blocks C) blk ;;
     rows <- block_rows Cb d0 ;;
     Ok (cv ++ [rows])) [] ;;
  Lout <- rd (circuit C0) (d0 - 1) ;;
  let bs := 2 ^ bit_length Lout in
  result <- for_ (total_blocks C) 0 (fun i result =>
     for_ bs 0 (fun j result =>
       rows <- rd cv i ;; row <- rd rows (d0 - 1) ;; x <- rd row j ;;
       wr result (i * bs + j) x) result) (repeat fe_zero (total_blocks C * bs)) ;;
  Ok (result, b_set_values p cv).

(** prover_bc_clogc.cpp:116-136 *)
Definition bc_sumcheck_init (p : bprover) (layer_id block_bn lg lu lv : nat) (a b : fe)
    (R_B_0 R_0 R_1 o_r_b_0 o_r_0 o_r_1 : list fe) : bprover :=
  BProver (trad_sumcheck_init (b_t p) layer_id lg lu lv a b R_0 R_1 o_r_0 o_r_1) (b_C p) (b_values p) block_bn
    R_B_0 o_r_b_0 (b_beta p) (b_V p) (b_copy p) (b_blk p).

(** Lines 199-200. *)
Definition split_fe (t r o : list fe) (i j : nat) : outcome (list fe) :=
  x <- rd t j ;; a <- rd r i ;;
  t <- wr t (Nat.lor j (2 ^ i)) (fe_mul x a) ;;
  y <- rd t j ;; b <- rd o i ;;
  wr t j (fe_mul y b).
(** prover_bc_clogc.cpp:189-253 *)
Definition bc_phase0_init (p : bprover) : outcome bprover :=
  let t := b_t p in
  bv <- wr (b_beta p) 0 (fe_of_int 1) ;;
  bv <- for_ (total_blocks_binary_length (b_C p)) 0 (fun i bv =>
     for_ (2 ^ i) 0 (fun j bv => split_fe bv (b_r_b p) (b_o_b p) i j) bv) bv ;;
  g0f <- wr (t_g0f t) 0 (t_alpha t) ;;
  g1f <- wr (t_g1f t) 0 (t_beta t) ;;
  g0s <- wr (t_g0s t) 0 (fe_of_int 1) ;;
  g1s <- wr (t_g1s t) 0 (fe_of_int 1) ;;
  let first_half := Nat.shiftr (t_length_g t) 1 in
  let second_half := t_length_g t - first_half in
  ' (g0f, g1f) <- half_tables2 (t_r_0 t) (t_o_0 t) (t_r_1 t) (t_o_1 t) 0 first_half g0f g1f ;;
  ' (g0s, g1s) <- half_tables2 (t_r_0 t) (t_o_0 t) (t_r_1 t) (t_o_1 t) first_half second_half g0s g1s ;;
  gsum <- for_ (2 ^ t_length_g t) 0 (fun i gsum =>
     x <- g_weight g0f g0s g1f g1s first_half i ;; wr gsum i x) (t_gsum t) ;;
  vv <- for_ (2 ^ b_bits p) 0 (fun i vv =>
     for_ (2 ^ t_length_u t) 0 (fun j vv =>
       rows <- rd (b_values p) i ;; row <- rd rows (t_layer t - 1) ;; x <- rd row j ;;
       wr vv (Nat.lor (Nat.shiftl i (t_length_u t)) j) x) vv) (b_V p) ;;
  Ok (b_set_blocks (b_set_t p (t_set_gates t gsum g0f g0s g1f g1s)) bv vv).

(** Lines 266-268, 272-274, 355-358 and 361: [(one - zero) * r + zero]. *)
Definition interp (zero one r : fe) : fe := fe_add (fe_mul (fe_sub one zero) r) zero.
(** prover_bc_clogc.cpp:264-276: bind the last challenge in the tables over the blocks. *)
Definition fold_blocks (r : fe) (n lu : nat) (bv vv : list fe) : outcome (list fe * list fe) :=
  for_ n 0 (fun blk st =>
    let '(bv, vv) := st in
    z <- rd bv (Nat.shiftl blk 1) ;;
    o <- rd bv (Nat.lor (Nat.shiftl blk 1) 1) ;;
    bv <- wr bv blk (interp z o r) ;;
    vv <- for_ (2 ^ lu) 0 (fun u vv =>
      z <- rd vv (Nat.lor (Nat.shiftl (Nat.shiftl blk 1) lu) u) ;;
      o <- rd vv (Nat.lor (Nat.shiftl (Nat.lor (Nat.shiftl blk 1) 1) lu) u) ;;
      wr vv (Nat.lor (Nat.shiftl blk lu) u) (interp z o r)) vv ;;
    Ok (bv, vv)) (bv, vv).
(** Lines 297-305: the value of a wire as a linear polynomial in the block bit. *)
Definition wire_poly (vv : list fe) (blk lu : nat) (w : Z) : outcome linear_poly :=
  u <- idx w ;;
  one <- rd vv (Nat.lor (Nat.shiftl (Nat.lor (Nat.shiftl blk 1) 1) lu) u) ;;
  zero <- rd vv (Nat.lor (Nat.shiftl (Nat.shiftl blk 1) lu) u) ;;
  Ok (LinearPoly (fe_sub one zero) zero).
(** Lines 307-332. *)
Definition block_gate (gt : gate) (w : fe) (pu pv : linear_poly) (v_part : quadratic_poly) : quadratic_poly :=
  match g_ty gt with
  | 0%Z => let tmp := linear_add pu pv in
      quadratic_add v_part (QuadraticPoly (fe_of_int 0) (fe_mul (l_a tmp) w) (fe_mul (l_b tmp) w))
  | 1%Z => let tmp := linear_mul pu pv in
      quadratic_add v_part (QuadraticPoly (fe_mul (q_a tmp) w) (fe_mul (q_b tmp) w) (fe_mul (q_c tmp) w))
  | _ => v_part
  end.
Definition zero_cubic : cubic_poly := CubicPoly (fe_of_int 0) (fe_of_int 0) (fe_of_int 0) (fe_of_int 0).
(** prover_bc_clogc.cpp:281-335: the part of one block pair. *)
Definition block_part (C : layered_circuit) (layer_id lg lu blk : nat) (gsum bv vv : list fe) : outcome cubic_poly :=
  z <- rd bv (Nat.shiftl blk 1) ;;
  o <- rd bv (Nat.lor (Nat.shiftl blk 1) 1) ;;
  L <- rd (circuit C) layer_id ;;
  v_part <- for_ (2 ^ lg) 0 (fun g v_part =>
    gt <- rd (gates L) g ;;
    pu <- wire_poly vv blk lu (g_u gt) ;;
    pv <- wire_poly vv blk lu (g_v gt) ;;
    w <- rd gsum g ;;
    Ok (block_gate gt w pu pv v_part)) zero_quad ;;
  Ok (quadratic_mul v_part (LinearPoly (fe_sub o z) z)).
(** prover_bc_clogc.cpp:255-342.  A [current_bit] of [block_binary_length] or more
    makes the code shift by a negative amount. *)
Definition bc_phase0_update (p : bprover) (previous_random : fe) (current_bit : nat)
  : outcome (cubic_poly * bprover) :=
  let t := b_t p in
  if b_bits p <=? current_bit then UB else
  ' (bv, vv) <- (match current_bit with
     | O => Ok (b_beta p, b_V p)
     | S _ => fold_blocks previous_random (2 ^ (b_bits p - current_bit)) (t_length_u t) (b_beta p) (b_V p)
     end) ;;
  ret <- for_ (2 ^ (b_bits p - current_bit - 1)) 0 (fun blk ret =>
     Cb <- rd (blocks (b_C p)) blk ;;
     c <- block_part Cb (t_layer t) (t_length_g t) (t_length_u t) blk (t_gsum t) bv vv ;;
     Ok (cubic_add ret c)) zero_cubic ;;
  Ok (ret, b_set_blocks p bv vv).

(** prover_bc_clogc.cpp:344-367 *)
Definition bc_phase1_init (p : bprover) (previous_random : fe) : outcome bprover :=
  let t := b_t p in
  let total_uv := 2 ^ t_length_u t in
  ' (V, copy) <- for_ total_uv 0 (fun i st =>
     let '(V, copy) := st in
     o <- rd (b_V p) (Nat.lor (2 ^ t_length_u t) i) ;;
     z <- rd (b_V p) i ;;
     V <- wr V i (interp z o previous_random) ;;
     x <- rd V i ;;
     copy <- wr copy i x ;;
     Ok (V, copy)) (t_V t, b_copy p) ;;
  o <- rd (b_beta p) 1 ;;
  z <- rd (b_beta p) 0 ;;
  Ok (b_set_copy (b_set_t p (t_set_V t total_uv V)) copy (interp z o previous_random)).

(** Lines 480-482 and 618-620. *)
Definition scale_quad (c : fe) (q : quadratic_poly) : quadratic_poly :=
  QuadraticPoly (fe_mul (q_a q) c) (fe_mul (q_b q) c) (fe_mul (q_c q) c).
(** prover_bc_clogc.cpp:381-489 *)
Definition bc_phase1_update (p : bprover) (previous_random : fe) (current_bit : nat)
  : outcome (quadratic_poly * bprover) :=
  ' (q, t) <- cmt_update g_u (fun gt => iv <- idx (g_v gt) ;; rd (b_copy p) iv) (b_t p) previous_random current_bit ;;
  Ok (scale_quad (b_blk p) q, b_set_t p t).
(** prover_bc_clogc.cpp:491-518 *)
Definition bc_phase2_init (p : bprover) (previous_random : fe) : outcome bprover :=
  let t := b_t p in
  v_u <- last_value (t_V t) previous_random ;;
  V <- load_V (b_copy p) (t_total_uv t) (t_V t) ;;
  Lm <- rd (circuit (t_C t)) (t_layer t - 1) ;;
  L <- rd (circuit (t_C t)) (t_layer t) ;;
  gsum <- (match bit_length Lm with
    | O => UB
    | S previous_bit => scale_gates g_u (gates L) previous_random previous_bit (2 ^ t_length_g t) (t_gsum t)
    end) ;;
  Ok (b_set_t p (t_set_round t v_u (t_add t) (t_mult t) V gsum)).
(** prover_bc_clogc.cpp:520-626 *)
Definition bc_phase2_update (p : bprover) (previous_random : fe) (current_bit : nat)
  : outcome (quadratic_poly * bprover) :=
  ' (q, t) <- cmt_update g_v (fun _ => Ok (t_v_u (b_t p))) (b_t p) previous_random current_bit ;;
  Ok (scale_quad (b_blk p) q, b_set_t p t).
(** prover_bc_clogc.cpp:627-631 *)
Definition bc_finalize (p : bprover) (previous_random : fe) : outcome ((fe * fe) * bprover) :=
  ' (vs, t) <- trad_finalize (b_t p) previous_random ;;
  Ok (vs, b_set_t p t).
