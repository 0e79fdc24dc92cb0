(** * Model of src/traditional_gkr/prover_clogc.cpp

    The prover of the "traditional GKR" programs: every round of the sumcheck
    walks over all gates of the layer.  Same conventions as FastProver.v; timing
    code and memory release are left out, and so are the arrays [beta_u],
    [beta_u_fhalf] and [beta_u_shalf], which are allocated but never used. *)
From Coq Require Import ZArith List Bool Arith String Ascii.
From Verif Require Import Base Limbs Field Poly Circuit FastProver.
Import ListNotations.
Open Scope nat_scope.

(** include/traditional_gkr/prover_clogc.h:13-29 *)
Record tprover := TProver {
  t_v_u : fe; t_v_v : fe; t_total_uv : nat;
  t_C : layered_circuit;
  t_values : list (list fe);
  t_layer : nat; t_length_g : nat; t_length_u : nat; t_length_v : nat;
  t_alpha : fe; t_beta : fe;
  t_r_0 : list fe; t_r_1 : list fe; t_o_0 : list fe; t_o_1 : list fe;
  t_add : list quadratic_poly; t_mult : list quadratic_poly;
  t_V : list fe; t_gsum : list fe;
  t_g0f : list fe; t_g0s : list fe; t_g1f : list fe; t_g1s : list fe }.

Definition t_set_values (p : tprover) (cv : list (list fe)) : tprover :=
  TProver (t_v_u p) (t_v_v p) (t_total_uv p) (t_C p) cv (t_layer p) (t_length_g p) (t_length_u p) (t_length_v p)
    (t_alpha p) (t_beta p) (t_r_0 p) (t_r_1 p) (t_o_0 p) (t_o_1 p) (t_add p) (t_mult p) (t_V p) (t_gsum p)
    (t_g0f p) (t_g0s p) (t_g1f p) (t_g1s p).
Definition t_set_tables (p : tprover) (n : nat) (V gsum g0f g0s g1f g1s : list fe) : tprover :=
  TProver (t_v_u p) (t_v_v p) n (t_C p) (t_values p) (t_layer p) (t_length_g p) (t_length_u p) (t_length_v p)
    (t_alpha p) (t_beta p) (t_r_0 p) (t_r_1 p) (t_o_0 p) (t_o_1 p) (t_add p) (t_mult p) V gsum g0f g0s g1f g1s.
Definition t_set_round (p : tprover) (v_u : fe) (A M : list quadratic_poly) (V gsum : list fe) : tprover :=
  TProver v_u (t_v_v p) (t_total_uv p) (t_C p) (t_values p) (t_layer p) (t_length_g p) (t_length_u p) (t_length_v p)
    (t_alpha p) (t_beta p) (t_r_0 p) (t_r_1 p) (t_o_0 p) (t_o_1 p) A M V gsum
    (t_g0f p) (t_g0s p) (t_g1f p) (t_g1s p).
Definition t_set_v_v (p : tprover) (v_v : fe) : tprover :=
  TProver (t_v_u p) v_v (t_total_uv p) (t_C p) (t_values p) (t_layer p) (t_length_g p) (t_length_u p) (t_length_v p)
    (t_alpha p) (t_beta p) (t_r_0 p) (t_r_1 p) (t_o_0 p) (t_o_1 p) (t_add p) (t_mult p) (t_V p) (t_gsum p)
    (t_g0f p) (t_g0s p) (t_g1f p) (t_g1s p).

Definition zero_quad : quadratic_poly := QuadraticPoly (fe_of_int 0) (fe_of_int 0) (fe_of_int 0).

(** prover_clogc.cpp:110-127 ([init_array]) and 3-6 ([get_circuit]). *)
Definition init_tprover (C : layered_circuit) (max_bit_length : nat) : tprover :=
  let n := 2 ^ max_bit_length in
  let h := 2 ^ (Nat.shiftr max_bit_length 1 + 1) in
  let za := repeat fe_zero n in
  let zh := repeat fe_zero h in
  let zq := repeat (QuadraticPoly fe_zero fe_zero fe_zero) n in
  TProver fe_zero fe_zero 0 C [] 0 0 0 0 fe_zero fe_zero [] [] [] [] zq zq za za zh zh zh zh.

(** prover_clogc.cpp:8-33: [V_res], the same statements as in
    prover_fast_track.cpp:8-33, is [FastProver.V_res]. *)

(** prover_clogc.cpp:60-79: one gate.  The branches for types 0-3 are those of
    [FastProver.gate_value]; every other type fails an assertion. *)
Definition trad_gate_value (prev : list fe) (ty u v : Z) : outcome fe :=
  match ty with
  | 0%Z | 1%Z | 2%Z | 3%Z => gate_value prev ty u v
  | _ => AssertFail
  end.
(** prover_clogc.cpp:54-81 *)
Definition trad_layer_values (L : layer) (prev : list fe) : outcome (list fe) :=
  for_ (2 ^ bit_length L) 0 (fun g row =>
    gt <- rd (gates L) g ;;
    x <- trad_gate_value prev (g_ty gt) (g_u gt) (g_v gt) ;;
    wr row g x) (repeat fe_zero (2 ^ bit_length L)).
(** prover_clogc.cpp:35-91.  [input_values] are lines 38-48.  The member
    [circuit_value] has 1000 entries (prover_clogc.h:17), so layer 1000 is
    written outside it. *)
Definition trad_evaluate (p : tprover) : outcome (list fe * tprover) :=
  let C := t_C p in
  L0 <- rd (circuit C) 0 ;;
  row0 <- input_values L0 ;;
  assert_ (Z.of_nat (total_depth C) <? 1000000)%Z ;;;
  cv <- for_ (total_depth C - 1) 1 (fun i cv =>
     if (1000 <=? Z.of_nat i)%Z then UB else
     L <- rd (circuit C) i ;;
     prev <- rd cv (i - 1) ;;
     row <- trad_layer_values L prev ;;
     Ok (cv ++ [row])) [row0] ;;
  ret <- rd cv (total_depth C - 1) ;;
  Ok (ret, t_set_values p cv).

(** prover_clogc.cpp:93-108 *)
Definition trad_sumcheck_init (p : tprover) (layer_id lg lu lv : nat) (a b : fe)
    (R_0 R_1 o_r_0 o_r_1 : list fe) : tprover :=
  TProver (t_v_u p) (t_v_v p) (t_total_uv p) (t_C p) (t_values p) layer_id lg lu lv a b R_0 R_1 o_r_0 o_r_1
    (t_add p) (t_mult p) (t_V p) (t_gsum p) (t_g0f p) (t_g0s p) (t_g1f p) (t_g1s p).

(** Lines 158-161 and 328-331: [V_mult_add[i] = circuit_value[..][i]]. *)
Definition load_V (prev : list fe) (n : nat) (V : list fe) : outcome (list fe) :=
  for_ n 0 (fun i V => x <- rd prev i ;; wr V i x) V.

(** prover_clogc.cpp:150-203; the two half-table loops (170-190) and the weight
    (196-197) are those of prover_fast_track.cpp. *)
Definition trad_phase1_init (p : tprover) : outcome tprover :=
  Lm <- rd (circuit (t_C p)) (t_layer p - 1) ;;
  prev <- rd (t_values p) (t_layer p - 1) ;;
  let total_uv := 2 ^ bit_length Lm in
  V <- load_V prev total_uv (t_V p) ;;
  g0f <- wr (t_g0f p) 0 (t_alpha p) ;;
  g1f <- wr (t_g1f p) 0 (t_beta p) ;;
  g0s <- wr (t_g0s p) 0 (fe_of_int 1) ;;
  g1s <- wr (t_g1s p) 0 (fe_of_int 1) ;;
  let first_half := Nat.shiftr (t_length_g p) 1 in
  let second_half := t_length_g p - first_half in
  ' (g0f, g1f) <- half_tables2 (t_r_0 p) (t_o_0 p) (t_r_1 p) (t_o_1 p) 0 first_half g0f g1f ;;
  ' (g0s, g1s) <- half_tables2 (t_r_0 p) (t_o_0 p) (t_r_1 p) (t_o_1 p) first_half second_half g0s g1s ;;
  gsum <- for_ (2 ^ t_length_g p) 0 (fun i gsum =>
     x <- g_weight g0f g0s g1f g1s first_half i ;; wr gsum i x) (t_gsum p) ;;
  Ok (t_set_tables p total_uv V gsum g0f g0s g1f g1s).

(** prover_clogc.cpp:205-215: decimal digits to a field element. *)
Fixpoint from_string_loop (s : string) (ret : fe) : fe :=
  match s with
  | EmptyString => ret
  | String c s' => from_string_loop s'
      (fe_add (fe_mul ret (fe_of_int 10)) (fe_of_int (Z.of_N (N_of_ascii c) - 48)))
  end.
Definition from_string (s : string) : fe := from_string_loop s (fe_of_int 0).
(** prover_clogc.cpp:303 and 437 *)
Definition inv_2 : fe :=
  from_string "8399054365507916142470402071115866954879789801702376374514189432082785107975".

(** Lines 229-233 and 364-368: bind the last challenge in [V_mult_add]. *)
Definition fold_V (r : fe) (n : nat) (V : list fe) : outcome (list fe) :=
  for_ n 0 (fun i V =>
    x <- rd V (Nat.shiftl i 1) ;;
    y <- rd V (Nat.lor (Nat.shiftl i 1) 1) ;;
    wr V i (fe_add (fe_mul x (fe_sub (fe_of_int 1) r)) (fe_mul y r))) V.
(** Lines 234-245, 334-345 and 369-380: multiply the weight of every gate by the
    challenge or its complement, as bit [bit] of the wire [sel gate] says.  The
    wire is an [int]; a right shift of a negative [int] is arithmetic. *)
Definition scale_gates (sel : gate -> Z) (gs : list gate) (r : fe) (bit n : nat) (gsum : list fe)
  : outcome (list fe) :=
  for_ n 0 (fun i gsum =>
    gt <- rd gs i ;; w <- rd gsum i ;;
    wr gsum i (fe_mul w (if Z.testbit (sel gt) (Z.of_nat bit) then r else fe_sub (fe_of_int 1) r))) gsum.

(** Lines 255-299 (phase 1, [sel = u], [other = circuit_value[..][v]]) and
    390-433 (phase 2, [sel = v], [other = v_u]): what one gate adds to the values
    at 0, 1 and 2 of the round polynomial, kept in the members [c], [b], [a]. *)
Definition cmt_gate (sel : gate -> Z) (other : gate -> outcome fe) (V gsum : list fe) (bit i : nat) (gt : gate)
    (st : list quadratic_poly * list quadratic_poly) : outcome (list quadratic_poly * list quadratic_poly) :=
  let '(A, M) := st in
  match g_ty gt with
  | 0%Z =>
      k <- idx (sel gt) ;;
      let target := Nat.shiftr k (bit + 1) in
      w <- rd gsum i ;;
      x <- rd V (Nat.shiftr k bit) ;;
      y <- rd V (Nat.lxor (Nat.shiftr k bit) 1) ;;
      o <- other gt ;;
      q <- rd A target ;;
      A <- wr A target (if negb (Nat.testbit k bit)
        then QuadraticPoly
          (fe_add (q_a q) (fe_mul (fe_sub (fe_of_int 0) w) (fe_add (fe_sub o x) (fe_mul (fe_of_int 2) y))))
          (q_b q)
          (fe_add (q_c q) (fe_mul w (fe_add x o)))
        else QuadraticPoly
          (fe_add (q_a q) (fe_mul (fe_add w w) (fe_sub (fe_add (fe_add o x) x) y)))
          (fe_add (q_b q) (fe_mul w (fe_add x o)))
          (q_c q)) ;;
      Ok (A, M)
  | 1%Z =>
      k <- idx (sel gt) ;;
      let target := Nat.shiftr k (bit + 1) in
      w <- rd gsum i ;;
      x <- rd V (Nat.shiftr k bit) ;;
      y <- rd V (Nat.lxor (Nat.shiftr k bit) 1) ;;
      o <- other gt ;;
      q <- rd M target ;;
      M <- wr M target (if negb (Nat.testbit k bit)
        then QuadraticPoly
          (fe_add (q_a q) (fe_mul (fe_mul (fe_sub (fe_of_int 0) w) o) (fe_sub (fe_add y y) x)))
          (q_b q)
          (fe_add (q_c q) (fe_mul w (fe_mul x o)))
        else QuadraticPoly
          (fe_add (q_a q) (fe_mul (fe_mul (fe_add w w) o) (fe_sub (fe_add x x) y)))
          (fe_add (q_b q) (fe_mul (fe_mul w x) o))
          (q_c q)) ;;
      Ok (A, M)
  | 2%Z => Ok (A, M)
  | _ => AssertFail
  end.

(** Lines 302-314 and 436-448: from the values at 0, 1, 2 to coefficients. *)
Definition interpolate (q : quadratic_poly) : quadratic_poly :=
  let ta := q_a q in let tb := q_b q in let tc := q_c q in
  QuadraticPoly
    (fe_sub (fe_mul (fe_sub ta tc) inv_2) (fe_sub tb tc))
    (fe_sub (fe_mul (fe_of_int 2) (fe_sub tb tc)) (fe_mul (fe_sub ta tc) inv_2))
    tc.

(** prover_clogc.cpp:217-321 and 352-454: one round. *)
Definition cmt_update (sel : gate -> Z) (other : gate -> outcome fe) (p : tprover) (previous_random : fe)
    (current_bit : nat) : outcome (quadratic_poly * tprover) :=
  L <- rd (circuit (t_C p)) (t_layer p) ;;
  let total_g := 2 ^ t_length_g p in
  ' (V, gsum) <- (match current_bit with
     | O => Ok (t_V p, t_gsum p)
     | S previous_bit =>
         V <- fold_V previous_random (Nat.shiftr (t_total_uv p) current_bit) (t_V p) ;;
         gsum <- scale_gates sel (gates L) previous_random previous_bit total_g (t_gsum p) ;;
         Ok (V, gsum)
     end) ;;
  let n := Nat.shiftr (t_total_uv p) (current_bit + 1) in
  ' (A, M) <- for_ n 0 (fun i st =>
     let '(A, M) := st in
     A <- wr A i zero_quad ;; M <- wr M i zero_quad ;; Ok (A, M)) (t_add p, t_mult p) ;;
  ' (A, M) <- for_ total_g 0 (fun i st =>
     gt <- rd (gates L) i ;; cmt_gate sel other V gsum current_bit i gt st) (A, M) ;;
  ' (A, M, ret) <- for_ n 0 (fun i st =>
     let '(A, M, ret) := st in
     qa <- rd A i ;; A <- wr A i (interpolate qa) ;;
     qm <- rd M i ;; M <- wr M i (interpolate qm) ;;
     xa <- rd A i ;; xm <- rd M i ;;
     Ok (A, M, quadratic_add (quadratic_add ret xa) xm)) (A, M, zero_quad) ;;
  Ok (ret, t_set_round p (t_v_u p) A M V gsum).

(** prover_clogc.cpp:217-321 *)
Definition trad_phase1_update (p : tprover) (previous_random : fe) (current_bit : nat)
  : outcome (quadratic_poly * tprover) :=
  prev <- rd (t_values p) (t_layer p - 1) ;;
  cmt_update g_u (fun gt => iv <- idx (g_v gt) ;; rd prev iv) p previous_random current_bit.
(** prover_clogc.cpp:352-454 *)
Definition trad_phase2_update (p : tprover) (previous_random : fe) (current_bit : nat)
  : outcome (quadratic_poly * tprover) :=
  cmt_update g_v (fun _ => Ok (t_v_u p)) p previous_random current_bit.

(** Lines 327 and 457: the value of a table bound down to two entries. *)
Definition last_value (V : list fe) (r : fe) : outcome fe :=
  x <- rd V 0 ;; y <- rd V 1 ;;
  Ok (fe_add (fe_mul x (fe_sub (fe_of_int 1) r)) (fe_mul y r)).

(** prover_clogc.cpp:323-350.  A previous layer with [bit_length] 0 makes the code
    shift by -1. *)
Definition trad_phase2_init (p : tprover) (previous_random : fe) (r_u one_minus_r_u : list fe) : outcome tprover :=
  v_u <- last_value (t_V p) previous_random ;;
  prev <- rd (t_values p) (t_layer p - 1) ;;
  V <- load_V prev (t_total_uv p) (t_V p) ;;
  Lm <- rd (circuit (t_C p)) (t_layer p - 1) ;;
  L <- rd (circuit (t_C p)) (t_layer p) ;;
  gsum <- (match bit_length Lm with
    | O => UB
    | S previous_bit => scale_gates g_u (gates L) previous_random previous_bit (2 ^ t_length_g p) (t_gsum p)
    end) ;;
  Ok (t_set_round p v_u (t_add p) (t_mult p) V gsum).

(** prover_clogc.cpp:455-459 *)
Definition trad_finalize (p : tprover) (previous_random : fe) : outcome ((fe * fe) * tprover) :=
  v_v <- last_value (t_V p) previous_random ;;
  Ok ((t_v_u p, v_v), t_set_v_v p v_v).
