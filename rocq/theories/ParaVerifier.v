(** * Model of src/linear_gkr/verifier_fast_para_track.cpp

    The verifier of the multi-threaded track.  The statements of [add] (89-106), [mult] (107-122),
    [beta_init] (124-161), [generate_randomness] (163-175) and [V_in] (177-198), and those of the layer loop
    (240-344), are those of verifier_traditional.cpp, so their models are used.  Timing and printing are left out. *)
From Coq Require Import ZArith List Bool Arith.
From Verif Require Import Limbs Field Base Poly Circuit FastProver FastVerifier Loader FastLoader TradProver TradVerifier.
Import ListNotations.
Open Scope Z_scope.

(** ** The loader *)
(** The [push_back]s into the vectors of [u_gates] or [v_gates] of a layer, in their order: key and [(ty, (g, other))]. *)
Definition pushes := list (Z * (Z * nat * Z)).
(** [m\[k\]] of the [unordered_map]. *)
Definition lookup (m : pushes) (k : Z) : list (Z * nat * Z) := map snd (filter (fun e => fst e =? k) m).
(** verifier_fast_para_track.cpp:35-44, one gate.  The state is the remaining tokens, [gates], [u_gates],
    [v_gates] and [previous_g]. *)
Definition pload_gate (st : list Z * list (option gate) * (pushes * pushes) * Z)
  : outcome (list Z * list (option gate) * (pushes * pushes) * Z) :=
  let '(t, a, (us, vs), _) := st in
  ' (ty, t) <- scan_int t ;; ' (g, t) <- scan_int t ;; ' (u, t) <- scan_int t ;; ' (v, t) <- scan_int t ;;
  k <- idx g ;; a <- wr a k (Some (Gate ty u v)) ;;
  Ok (t, a, (us ++ [(u, (ty, k, v))], vs ++ [(v, (ty, k, u))]), g).
(** verifier_fast_para_track.cpp:26-79, one layer. *)
Definition pload_layer (st : list Z * (list raw_layer * list (pushes * pushes)) * Z)
  : outcome (list Z * (list raw_layer * list (pushes * pushes)) * Z) :=
  let '(t, (ls, ms), max_bits) := st in
  ' (n, t) <- scan_int t ;;
  a <- new_gates n ;;
  ' (t, a, (us, vs), previous_g) <- for_ (Z.to_nat n) 0 (fun _ => pload_gate) (t, a, ([], []), -1) ;;
  cnt <- count_shifts 64 previous_g 0 ;;
  max_gate <- shl_times (Z.to_nat cnt) 1 ;;
  cnt <- count_shifts 64 max_gate 0 ;;
  ' (a, us, vs, b) <- (if n =? 1 then k <- idx max_gate ;; a <- wr a k (Some (Gate 2 0 0)) ;;
                         Ok (a, us ++ [(0, (2, k, 0))], vs ++ [(0, (2, k, 0))], cnt)
                       else Ok (a, us, vs, cnt - 1)) ;;
  Ok (t, (ls ++ [Raw a (Z.to_nat b)], ms ++ [(us, vs)]), Z.max max_bits b).
(** verifier_fast_para_track.cpp:12-87: the circuit, the two maps of every layer and [max_bit_length].
    [new layer\[d + 10\]] throws for a negative number. *)
Definition pread_circuit (t : list Z) : outcome (layered_circuit * list (pushes * pushes) * Z) :=
  ' (d, t) <- scan_int t ;;
  (if d + 10 <? 0 then AssertFail else if d + 10 <? 2 ^ 31 then Ok tt else UB) ;;;
  ' (_, (ls, ms), max_bits) <- for_ (Z.to_nat d) 0 (fun _ => pload_layer) (t, ([], []), -1) ;;
  shl1_int max_bits ;;;
  ls <- plain_layers ls ;;
  Ok (Circuit ls (Z.to_nat d), ms, max_bits).

(** ** The verifier *)
(** verifier_fast_para_track.cpp:347-360: unlike the other tracks there is no case for gates of type 2. *)
Definition para_input_vector (L0 : layer) : outcome (list fe) :=
  for_ (2 ^ bit_length L0)%nat 0 (fun g input =>
    gt <- rd (gates L0) g ;;
    if (g_ty gt =? 3)%Z then wr input g (fe_of_int (g_u gt)) else AssertFail) (repeat fe_zero (2 ^ bit_length L0)%nat).
(** verifier_fast_para_track.cpp:200-382, for any prover; [init_array] (line 239) is called after [V_res].
    [RetFalse] is [return false]. *)
Definition para_verify_body {S} (I : prover_if S) (init_array : S -> outcome S) (C : layered_circuit) (rnd : nat -> fe) (B0 : betas) (s0 : S)
  : outcome bool :=
  let d := total_depth C in
  ' (result, s) <- if_evaluate I s0 ;;
  let alpha := fe_of_int 1 in
  let beta := fe_of_int 0 in
  Lout <- rd (circuit C) (d - 1)%nat ;;
  let blo := bit_length Lout in
  let '(r_0, pos) := generate_randomness rnd 0 blo in
  let '(r_1, pos) := generate_randomness rnd pos blo in
  o_0 <- one_minus r_0 blo ;;
  o_1 <- one_minus r_1 blo ;;
  ' (a_0, s) <- if_V_res I s o_0 r_0 result blo (2 ^ blo)%nat ;;
  let a_0 := fe_mul alpha a_0 in
  s <- init_array s ;;
  (* for(int i = C.total_depth - 1; i >= 1; --i) *)
  st <- for_ (d - 1)%nat 0 (fun k st => trad_layer I C rnd (d - 1 - k)%nat st)
     (VState alpha beta a_0 r_0 r_1 o_0 o_1 B0 pos s) ;;
  L0 <- rd (circuit C) 0 ;;
  input <- para_input_vector L0 ;;
  input_0 <- V_in (s_r0 st) (s_o0 st) input (bit_length L0) (2 ^ bit_length L0)%nat ;;
  input_1 <- V_in (s_r1 st) (s_o1 st) input (bit_length L0) (2 ^ bit_length L0)%nat ;;
  reject_if (fe_ne (s_sum st) (fe_add (fe_mul input_0 (s_alpha st)) (fe_mul input_1 (s_beta st)))) ;;;
  Ok true.
Definition para_verify {S} (I : prover_if S) (init_array : S -> outcome S) (C : layered_circuit) (rnd : nat -> fe) (B0 : betas) (s0 : S)
  : outcome bool :=
  match para_verify_body I init_array C rnd B0 s0 with RetFalse => Ok false | o => o end.
