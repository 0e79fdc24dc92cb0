(** * Model of the circuit loaders of src/traditional_gkr and of the programs around them

    verifier_traditional.cpp:12-81 with bclogc.cpp, and verifier_bc_clogc.cpp:11-99 with
    bc_clogc.cpp.  Files are lists of integers, as in [Loader], whose pieces are used where the
    statements are the same.  Text printed for a gate out of order is left out: the loaders
    go on after printing it. *)
From Coq Require Import ZArith List Bool Arith.
From Verif Require Import Limbs Field Base Circuit Loader FastLoader TradProver TradVerifier BcProver BcVerifier.
Import ListNotations.
Open Scope Z_scope.

(** verifier_traditional.cpp:33-41, one gate.  The state is the remaining tokens,
    [C.circuit\[i\].gates] and [previous_g]. *)
Definition tload_gate (st : list Z * list (option gate) * Z) : outcome (list Z * list (option gate) * Z) :=
  let '(t, a, _) := st in
  ' (ty, t) <- scan_int t ;; ' (g, t) <- scan_int t ;; ' (u, t) <- scan_int t ;; ' (v, t) <- scan_int t ;;
  k <- idx g ;; a <- wr a k (Some (Gate ty u v)) ;; Ok (t, a, g).
(** verifier_traditional.cpp:24-74, one layer. *)
Definition tload_layer (st : list Z * list raw_layer * Z) : outcome (list Z * list raw_layer * Z) :=
  let '(t, ls, max_bits) := st in
  ' (n, t) <- scan_int t ;;
  a <- new_gates n ;;
  ' (t, a, previous_g) <- for_ (Z.to_nat n) 0 (fun _ => tload_gate) (t, a, -1) ;;
  cnt <- count_shifts 64 previous_g 0 ;;
  max_gate <- shl_times (Z.to_nat cnt) 1 ;;
  cnt <- count_shifts 64 max_gate 0 ;;
  ' (a, b) <- (if n =? 1 then k <- idx max_gate ;; a <- wr a k (Some (Gate 2 0 0)) ;; Ok (a, cnt) else Ok (a, cnt - 1)) ;;
  Ok (t, ls ++ [Raw a (Z.to_nat b)], Z.max max_bits b).
(** verifier_traditional.cpp:12-81: the circuit and [max_bit_length].  A negative [d] throws; lines
    75-80 allocate tables of [1 << max_bit_length] elements.  A cell that was never written is [UB]. *)
Definition tread_circuit (t : list Z) : outcome (layered_circuit * Z) :=
  ' (d, t) <- scan_int t ;;
  (if d <? 0 then AssertFail else Ok tt) ;;;
  ' (_, ls, max_bits) <- for_ (Z.to_nat d) 0 (fun _ => tload_layer) (t, [], -1) ;;
  shl1_int max_bits ;;;
  ls <- plain_layers ls ;;
  Ok (Circuit ls (Z.to_nat d), max_bits).
(** bclogc.cpp:13-50: [n_copy] runs, each with its own verifier and prover, all on the same file;
    [rnd i] are the random values of run [i].  [true] is "Verification Pass".  [new prover\[n_copy\]] throws
    for a negative number; an argument that is no number leaves the global [n_copy] at 0. *)
Definition trad_main (n_copy : Z) (t : list Z) (rnd : nat -> nat -> fe) : outcome bool :=
  if n_copy <? 0 then AssertFail else
  for_ (Z.to_nat n_copy) 0 (fun i final_result =>
    ' (C, _) <- tread_circuit t ;;
    result <- run_trad C (rnd i) ;;
    Ok (final_result && result)) true.

(** The block loader writes every block in turn ([for(int blk_id = 0; ...)]). *)
Fixpoint each {A B} (f : A -> outcome B) (l : list A) : outcome (list B) :=
  match l with [] => Ok [] | x :: r => y <- f x ;; s <- each f r ;; Ok (y :: s) end.
(** verifier_bc_clogc.cpp:43-53, one gate. *)
Definition bload_gate (st : list Z * list (list (option gate)) * Z) : outcome (list Z * list (list (option gate)) * Z) :=
  let '(t, bs, _) := st in
  ' (ty, t) <- scan_int t ;; ' (g, t) <- scan_int t ;; ' (u, t) <- scan_int t ;; ' (v, t) <- scan_int t ;;
  bs <- each (fun a => k <- idx g ;; wr a k (Some (Gate ty u v))) bs ;; Ok (t, bs, g).
(** verifier_bc_clogc.cpp:31-92, one layer; [ls] holds, for every block, the layers read so far. *)
Definition bload_layer (st : list Z * list (list raw_layer) * Z) : outcome (list Z * list (list raw_layer) * Z) :=
  let '(t, ls, max_bits) := st in
  ' (n, t) <- scan_int t ;;
  bs <- each (fun _ => new_gates n) ls ;;
  ' (t, bs, previous_g) <- for_ (Z.to_nat n) 0 (fun _ => bload_gate) (t, bs, -1) ;;
  cnt <- count_shifts 64 previous_g 0 ;;
  max_gate <- shl_times (Z.to_nat cnt) 1 ;;
  cnt <- count_shifts 64 max_gate 0 ;;
  bs <- (if n =? 1 then each (fun a => k <- idx max_gate ;; wr a k (Some (Gate 2 0 0))) bs else Ok bs) ;;
  let b := if n =? 1 then cnt else cnt - 1 in
  let max_bits := fold_left (fun m _ => Z.max m b) bs max_bits in
  Ok (t, map (fun p => fst p ++ [Raw (snd p) (Z.to_nat b)]) (combine ls bs), max_bits).
(** verifier_bc_clogc.cpp:11-99; [n_copy] and [log_n_copy] come from the command line.  [init_array]
    (prover_bc_clogc.cpp:138-157) also allocates [1 << blk_bit_length] and [1 << (blk_bit_length +
    max_bit_length)] elements. *)
Definition bread_circuit (n_copy log_n_copy : Z) (t : list Z) : outcome (blocked_circuit * Z) :=
  (if n_copy <? 0 then AssertFail else Ok tt) ;;;
  ' (d, t) <- scan_int t ;;
  start <- each (fun _ => if d <? 0 then AssertFail else Ok []) (repeat tt (Z.to_nat n_copy)) ;;
  ' (_, ls, max_bits) <- for_ (Z.to_nat d) 0 (fun _ => bload_layer) (t, start, -1) ;;
  shl1_int max_bits ;;; shl1_int log_n_copy ;;; shl1_int (log_n_copy + max_bits) ;;;
  cs <- each plain_layers ls ;;
  Ok (Blocked (map (fun c => Circuit c (Z.to_nat d)) cs) (Z.to_nat n_copy) (Z.to_nat log_n_copy), max_bits).
(** bc_clogc.cpp:10-39 *)
Definition bc_main (n_copy log_n_copy : Z) (t : list Z) (rnd : nat -> fe) : outcome bool :=
  ' (C, _) <- bread_circuit n_copy log_n_copy t ;; run_bc C rnd.
