(** * Model of src/traditional_gkr/verifier_traditional.cpp (the verifier proper)

    The statements of [add] (83-100), [mult] (101-116), [beta_init] (118-155),
    [generate_randomness] (157-169) and [V_in] (171-191) are those of
    verifier_fast_track.cpp, so their models in FastVerifier.v are used.  The
    prover is any value of [prover_if]; its member [if_v_u] is not used here. *)
From Coq Require Import ZArith List Bool Arith.
From Verif Require Import Base Limbs Field Poly Circuit FastProver FastVerifier TradProver.
Import ListNotations.
Open Scope nat_scope.

(** The prover of prover_clogc.cpp as an instance. *)
Definition trad_honest : prover_if tprover := {|
  if_evaluate := trad_evaluate;
  if_V_res := fun p o r out n m => x <- V_res o r out n m ;; Ok (x, p);
  if_sumcheck_init := fun p i lg lu lv a b r0 r1 o0 o1 => Ok (trad_sumcheck_init p i lg lu lv a b r0 r1 o0 o1);
  if_phase1_init := trad_phase1_init;
  if_phase1_update := trad_phase1_update;
  if_phase2_init := trad_phase2_init;
  if_phase2_update := trad_phase2_update;
  if_finalize := trad_finalize;
  if_v_u := t_v_u |}.

(** verifier_traditional.cpp:240, 253-271 (with [update] the member
    [sumcheck_phase1_update]) and 280-295 ([sumcheck_phase2_update]). *)
Definition trad_rounds {S} (update : S -> fe -> nat -> outcome (quadratic_poly * S)) (n : nat) (r_u : list fe)
    (sum : fe) (s : S) : outcome (fe * fe * S) :=
  for_ n 0 (fun j st =>
    let '(prev, sum, s) := st in
    ' (poly, s) <- update s prev j ;;
    r <- rd r_u j ;;
    reject_if (fe_ne (fe_add (quadratic_eval poly (fe_of_int 0)) (quadratic_eval poly (fe_of_int 1))) sum) ;;;
    Ok (r, quadratic_eval poly r, s)) (fe_of_int 0, sum, s).

(** verifier_traditional.cpp:315: the value the verifier computes itself. *)
Definition trad_combine (add_v mult_v v_u v_v : fe) : fe :=
  fe_add (fe_mul add_v (fe_add v_u v_v)) (fe_mul (fe_mul mult_v v_u) v_v).

(** verifier_traditional.cpp:234-340: one iteration of the layer loop. *)
Definition trad_layer {S} (I : prover_if S) (C : layered_circuit) (rnd : nat -> fe) (i : nat)
    (st : vstate S) : outcome (vstate S) :=
  L <- rd (circuit C) i ;;
  Lm <- rd (circuit C) (i - 1) ;;
  let bl := bit_length L in let blm := bit_length Lm in
  s <- if_sumcheck_init I (s_p st) i bl blm blm (s_alpha st) (s_beta st)
         (s_r0 st) (s_r1 st) (s_o0 st) (s_o1 st) ;;
  s <- if_phase1_init I s ;;
  let '(r_u, pos) := generate_randomness rnd (s_pos st) blm in
  let '(r_v, pos) := generate_randomness rnd pos blm in
  o_u <- one_minus r_u blm ;;
  o_v <- one_minus r_v blm ;;
  ' (prev, sum, s) <- trad_rounds (if_phase1_update I) blm r_u (s_sum st) s ;;
  s <- if_phase2_init I s prev r_u o_u ;;
  ' (prev, sum, s) <- trad_rounds (if_phase2_update I) blm r_v sum s ;;
  ' ((v_u, v_v), s) <- if_finalize I s prev ;;
  B <- beta_init bl blm (s_alpha st) (s_beta st) (s_r0 st) (s_r1 st) r_u r_v
         (s_o0 st) (s_o1 st) o_u o_v (s_B st) ;;
  mult_v <- mult_pred L B ;;
  add_v <- add_pred L B ;;
  reject_if (fe_ne sum (trad_combine add_v mult_v v_u v_v)) ;;;
  let alpha := u512_mod (rnd pos) in
  let beta := u512_mod (rnd (pos + 1)) in
  Ok (VState alpha beta (fe_add (fe_mul alpha v_u) (fe_mul beta v_v)) r_u r_v o_u o_v B (pos + 2) s).

(** verifier_traditional.cpp:193-381; [input_vector] are lines 343-359.
    [RetFalse] is [return false]. *)
Definition trad_verify_body {S} (I : prover_if S) (C : layered_circuit) (rnd : nat -> fe) (B0 : betas) (s0 : S)
  : outcome bool :=
  let d := total_depth C in
  ' (result, s) <- if_evaluate I s0 ;;
  let alpha := fe_of_int 1 in
  let beta := fe_of_int 0 in
  Lout <- rd (circuit C) (d - 1) ;;
  let blo := bit_length Lout in
  let '(r_0, pos) := generate_randomness rnd 0 blo in
  let '(r_1, pos) := generate_randomness rnd pos blo in
  o_0 <- one_minus r_0 blo ;;
  o_1 <- one_minus r_1 blo ;;
  ' (a_0, s) <- if_V_res I s o_0 r_0 result blo (2 ^ blo) ;;
  let a_0 := fe_mul alpha a_0 in
  (* for(int i = d - 1; i >= 1; --i) *)
  st <- for_ (d - 1) 0 (fun k st => trad_layer I C rnd (d - 1 - k) st)
     (VState alpha beta a_0 r_0 r_1 o_0 o_1 B0 pos s) ;;
  L0 <- rd (circuit C) 0 ;;
  input <- input_vector L0 ;;
  input_0 <- V_in (s_r0 st) (s_o0 st) input (bit_length L0) (2 ^ bit_length L0) ;;
  input_1 <- V_in (s_r1 st) (s_o1 st) input (bit_length L0) (2 ^ bit_length L0) ;;
  reject_if (fe_ne (s_sum st) (fe_add (fe_mul input_0 (s_alpha st)) (fe_mul input_1 (s_beta st)))) ;;;
  Ok true.
Definition trad_verify {S} (I : prover_if S) (C : layered_circuit) (rnd : nat -> fe) (B0 : betas) (s0 : S)
  : outcome bool :=
  match trad_verify_body I C rnd B0 s0 with RetFalse => Ok false | o => o end.

(** The verifier run against the prover above on a loaded circuit
    (src/traditional_gkr/ClogC.cpp; tables: verifier_traditional.cpp:77-80). *)
Definition run_trad (C : layered_circuit) (rnd : nat -> fe) : outcome bool :=
  trad_verify trad_honest C rnd (init_betas (max_bit_length C)) (init_tprover C (max_bit_length C)).
