(** * Model of src/traditional_gkr/verifier_bc_clogc.cpp (the verifier proper)

    The statements of [add], [mult], [beta_init] and [generate_randomness]
    (verifier_bc_clogc.cpp:103-188, on [C.blocks[0]]) are those of
    verifier_fast_track.cpp, so their models in FastVerifier.v are used.  The
    prover is any value of [bprover_if]. *)
From Coq Require Import ZArith List Bool Arith.
From Verif Require Import Base Limbs Field Poly Circuit FastProver FastVerifier TradProver TradVerifier BcProver.
Import ListNotations.
Open Scope nat_scope.

(** What the verifier calls and reads of the prover. *)
Record bprover_if (S : Type) := BProverIf {
  bi_evaluate : S -> outcome (list fe * S);
  bi_V_res : S -> list fe -> list fe -> list fe -> list fe -> list fe -> nat -> nat -> nat -> outcome (fe * S);
  bi_sumcheck_init : S -> nat -> nat -> nat -> nat -> nat -> fe -> fe ->
    list fe -> list fe -> list fe -> list fe -> list fe -> list fe -> outcome S;
  bi_phase0_init : S -> outcome S;
  bi_phase0_update : S -> fe -> nat -> outcome (cubic_poly * S);
  bi_phase1_init : S -> fe -> outcome S;
  bi_phase1_update : S -> fe -> nat -> outcome (quadratic_poly * S);
  bi_phase2_init : S -> fe -> outcome S;
  bi_phase2_update : S -> fe -> nat -> outcome (quadratic_poly * S);
  bi_finalize : S -> fe -> outcome ((fe * fe) * S);
  bi_beta_blk_val : S -> fe }.
Arguments bi_evaluate {S}. Arguments bi_V_res {S}. Arguments bi_sumcheck_init {S}.
Arguments bi_phase0_init {S}. Arguments bi_phase0_update {S}. Arguments bi_phase1_init {S}.
Arguments bi_phase1_update {S}. Arguments bi_phase2_init {S}. Arguments bi_phase2_update {S}.
Arguments bi_finalize {S}. Arguments bi_beta_blk_val {S}.

(** The prover of prover_bc_clogc.cpp as an instance. *)
Definition bc_honest : bprover_if bprover := {|
  bi_evaluate := bc_evaluate;
  bi_V_res := fun p o r ob rb out n nb m => x <- bc_V_res o r ob rb out n nb m ;; Ok (x, p);
  bi_sumcheck_init := fun p i k lg lu lv a b rb r0 r1 ob o0 o1 =>
    Ok (bc_sumcheck_init p i k lg lu lv a b rb r0 r1 ob o0 o1);
  bi_phase0_init := bc_phase0_init;
  bi_phase0_update := bc_phase0_update;
  bi_phase1_init := bc_phase1_init;
  bi_phase1_update := bc_phase1_update;
  bi_phase2_init := bc_phase2_init;
  bi_phase2_update := bc_phase2_update;
  bi_finalize := bc_finalize;
  bi_beta_blk_val := b_blk |}.

(** verifier_bc_clogc.cpp:190-221: [V_in] folds by [r_g] and then by [r_b]. *)
Definition bc_V_in (r_b o_b r_g o_g output_raw : list fe) (r_b_size r_g_size output_size : nat) : outcome fe :=
  let op x0 o x1 r := fe_add (fe_mul x0 o) (fe_mul x1 r) in
  output <- copy_n output_raw output_size ;;
  output <- fold_table op o_g r_g r_g_size output_size output ;;
  output <- fold_table op o_b r_b r_b_size (Nat.shiftr output_size r_g_size) output ;;
  ret <- rd output 0 ;;
  Ok (fix_neg (u512_mod ret)).

(** Local variables of [verify] that live across layers, and the prover state. *)
Record bstate (S : Type) := BState { bs_v : vstate S; bs_rb : list fe; bs_ob : list fe }.
Arguments BState {S}. Arguments bs_v {S}. Arguments bs_rb {S}. Arguments bs_ob {S}.

(** verifier_bc_clogc.cpp:287-302: the rounds over the block index. *)
Definition bc_rounds0 {S} (update : S -> fe -> nat -> outcome (cubic_poly * S)) (n : nat) (r_b : list fe)
    (sum : fe) (s : S) : outcome (fe * fe * S) :=
  for_ n 0 (fun j st =>
    let '(prev, sum, s) := st in
    ' (poly, s) <- update s prev j ;;
    r <- rd r_b j ;;
    reject_if (fe_ne (fe_add (cubic_eval poly (fe_of_int 0)) (cubic_eval poly (fe_of_int 1))) sum) ;;;
    Ok (r, cubic_eval poly r, s)) (fe_of_int 0, sum, s).
(** verifier_bc_clogc.cpp:315-333 and 343-357. *)
Definition bc_rounds {S} (update : S -> fe -> nat -> outcome (quadratic_poly * S)) (n : nat) (r_u : list fe)
    (prev sum : fe) (s : S) : outcome (fe * fe * S) :=
  for_ n 0 (fun j st =>
    let '(prev, sum, s) := st in
    ' (poly, s) <- update s prev j ;;
    r <- rd r_u j ;;
    reject_if (fe_ne (fe_add (quadratic_eval poly (fe_of_int 0)) (quadratic_eval poly (fe_of_int 1))) sum) ;;;
    Ok (r, quadratic_eval poly r, s)) (prev, sum, s).

(** verifier_bc_clogc.cpp:273-405: one iteration of the layer loop.  [k] is
    [C.total_blocks_binary_length] and [C0] is [C.blocks[0]].  [factor] is the factor
    of line 377 as a function of the prover's state and the block points before and
    after the layer; [bc_layer] below is the code. *)
Definition bc_layer_with {S} (I : bprover_if S) (factor : S -> list fe -> list fe -> fe) (C0 : layered_circuit) (k : nat) (rnd : nat -> fe) (i : nat)
    (bst : bstate S) : outcome (bstate S) :=
  let st := bs_v bst in
  L <- rd (circuit C0) i ;;
  Lm <- rd (circuit C0) (i - 1) ;;
  let bl := bit_length L in let blm := bit_length Lm in
  s <- bi_sumcheck_init I (s_p st) i k bl blm blm (s_alpha st) (s_beta st)
         (bs_rb bst) (s_r0 st) (s_r1 st) (bs_ob bst) (s_o0 st) (s_o1 st) ;;
  let '(r_u, pos) := generate_randomness rnd (s_pos st) blm in
  let '(r_b, pos) := generate_randomness rnd pos k in
  let '(r_v, pos) := generate_randomness rnd pos blm in
  o_b <- one_minus r_b k ;;
  s <- bi_phase0_init I s ;;
  ' (prev, sum, s) <- bc_rounds0 (bi_phase0_update I) k r_b (s_sum st) s ;;
  s <- bi_phase1_init I s prev ;;
  o_u <- one_minus r_u blm ;;
  o_v <- one_minus r_v blm ;;
  ' (prev, sum, s) <- bc_rounds (bi_phase1_update I) blm r_u prev sum s ;;
  s <- bi_phase2_init I s prev ;;
  ' (prev, sum, s) <- bc_rounds (bi_phase2_update I) blm r_v (fe_of_int 0) sum s ;;
  ' ((v_u, v_v), s) <- bi_finalize I s prev ;;
  B <- beta_init bl blm (s_alpha st) (s_beta st) (s_r0 st) (s_r1 st) r_u r_v
         (s_o0 st) (s_o1 st) o_u o_v (s_B st) ;;
  mult_v <- mult_pred L B ;;
  add_v <- add_pred L B ;;
  reject_if (fe_ne sum (fe_mul (factor s (bs_rb bst) r_b) (trad_combine add_v mult_v v_u v_v))) ;;;
  let alpha := u512_mod (rnd pos) in
  let beta := u512_mod (rnd (pos + 1)) in
  Ok (BState (VState alpha beta (fe_add (fe_mul alpha v_u) (fe_mul beta v_v)) r_u r_v o_u o_v B (pos + 2) s) r_b o_b).
(** Line 377 multiplies by [p -> beta_blk_val], a member of the prover. *)
Definition asked {S} (I : bprover_if S) (s : S) (_ _ : list fe) : fe := bi_beta_blk_val I s.
Definition bc_layer {S} (I : bprover_if S) := bc_layer_with I (asked I).

(** verifier_bc_clogc.cpp:408-424: the input vector, all blocks in a row. *)
Definition bc_input_vector (C : blocked_circuit) (C0 : layered_circuit) : outcome (list fe) :=
  L00 <- rd (circuit C0) 0 ;;
  for_ (total_blocks C) 0 (fun blk input =>
    Cb <- rd (blocks C) blk ;;
    L0 <- rd (circuit Cb) 0 ;;
    for_ (2 ^ bit_length L0) 0 (fun i input =>
      gt <- rd (gates L0) i ;;
      if ((g_ty gt =? 3)%Z || (g_ty gt =? 2)%Z)%bool
      then wr input (blk * 2 ^ bit_length L0 + i) (fe_of_int (g_u gt))
      else AssertFail) input) (repeat fe_zero (2 ^ bit_length L00 * total_blocks C)).

(** verifier_bc_clogc.cpp:223-446.  [RetFalse] is [return false]. *)
Definition bc_verify_body {S} (I : bprover_if S) (factor : S -> list fe -> list fe -> fe) (C : blocked_circuit) (rnd : nat -> fe) (B0 : betas) (s0 : S)
  : outcome bool :=
  let k := total_blocks_binary_length C in
  ' (result, s) <- bi_evaluate I s0 ;;
  C0 <- rd (blocks C) 0 ;;
  let d := total_depth C0 in
  let alpha := fe_of_int 1 in
  let beta := fe_of_int 0 in
  Lout <- rd (circuit C0) (d - 1) ;;
  let blo := bit_length Lout in
  let '(r_0, pos) := generate_randomness rnd 0 blo in
  let '(r_b, pos) := generate_randomness rnd pos k in
  let '(r_1, pos) := generate_randomness rnd pos blo in
  o_0 <- one_minus r_0 blo ;;
  o_1 <- one_minus r_1 blo ;;
  o_b <- one_minus r_b k ;;
  ' (a_0, s) <- bi_V_res I s o_0 r_0 o_b r_b result blo k (2 ^ (blo + k)) ;;
  let a_0 := fe_mul alpha a_0 in
  (* for(int i = d - 1; i >= 1; --i) *)
  bst <- for_ (d - 1) 0 (fun n bst => bc_layer_with I factor C0 k rnd (d - 1 - n) bst)
     (BState (VState alpha beta a_0 r_0 r_1 o_0 o_1 B0 pos s) r_b o_b) ;;
  let st := bs_v bst in
  input <- bc_input_vector C C0 ;;
  L0 <- rd (circuit C0) 0 ;;
  let bl0 := bit_length L0 in
  input_0 <- bc_V_in (bs_rb bst) (bs_ob bst) (s_r0 st) (s_o0 st) input k bl0 (2 ^ (bl0 + k)) ;;
  input_1 <- bc_V_in (bs_rb bst) (bs_ob bst) (s_r1 st) (s_o1 st) input k bl0 (2 ^ (bl0 + k)) ;;
  reject_if (fe_ne (s_sum st) (fe_add (fe_mul input_0 (s_alpha st)) (fe_mul input_1 (s_beta st)))) ;;;
  Ok true.
Definition bc_verify_with {S} (I : bprover_if S) (factor : S -> list fe -> list fe -> fe) (C : blocked_circuit)
    (rnd : nat -> fe) (B0 : betas) (s0 : S) : outcome bool :=
  match bc_verify_body I factor C rnd B0 s0 with RetFalse => Ok false | o => o end.
Definition bc_verify {S} (I : bprover_if S) := bc_verify_with I (asked I).

(** verifier_bc_clogc.cpp:11-101 without the parsing: [set_blocks] and [read_circuit]
    store the same gates in every block; the tables get the largest [bit_length]
    (lines 88-99). *)
Definition copies (C : layered_circuit) (n bits : nat) : blocked_circuit := Blocked (repeat C n) n bits.
(** The verifier run against the prover above (src/traditional_gkr/bc_clogc.cpp). *)
Definition run_bc (C : blocked_circuit) (rnd : nat -> fe) : outcome bool :=
  C0 <- rd (blocks C) 0 ;;
  bc_verify bc_honest C rnd (init_betas (max_bit_length C0)) (init_bprover C C0 (max_bit_length C0)).
