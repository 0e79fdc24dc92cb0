(** * Model of the circuit loader of the fast track, verifier_fast_track.cpp:12-126

    Files are lists of integers, as in [Loader]; the shared pieces ([scan_int], [new_gates],
    [count_shifts], [shl_times], [initialised]) are the same C++ statements.  Text printed to
    stdout or stderr is left out: a gate out of order (lines 62-65) and a second wire of a NOT
    gate (lines 56-61) only cause such text. *)
From Coq Require Import ZArith List Bool Arith.
From Verif Require Import Limbs Field Base Circuit Loader FastVerifier.
Import ListNotations.
Open Scope Z_scope.

(** verifier_fast_track.cpp:53-75, one gate; the state is that of [Loader.load_gate]. *)
Definition fload_gate (first : bool) (st : gstate) : outcome gstate :=
  let '(t, a0, a, previous_g) := st in
  ' (ty, t) <- scan_int t ;; ' (g, t) <- scan_int t ;; ' (u, t) <- scan_ll t ;; ' (v, t) <- scan_ll t ;;
  let v := if ty =? 6 then 0 else v in
  if negb first then
    k <- idx g ;; a <- wr a k (Some (Gate ty (to_int u) (to_int v))) ;; Ok (t, a0, a, g)
  else
    assert_ ((ty =? 2) || (ty =? 3)) ;;;
    k <- idx g ;; a <- wr a k (Some (Gate 4 g 0)) ;;
    a0 <- wr a0 k (Some (Gate ty (to_int u) (to_int v))) ;; Ok (t, a0, a, g).

(** verifier_fast_track.cpp:23-117, one layer; the first iteration makes layers 0 and 1. *)
Definition fload_layer (i : nat) (st : list Z * list raw_layer * Z) : outcome (list Z * list raw_layer * Z) :=
  let '(t, ls, max_bits) := st in
  ' (n, t) <- scan_int t ;;
  a0 <- new_gates n ;; a <- new_gates n ;;
  let first := Nat.eqb i 1 in
  ' (t, a0, a, previous_g) <- for_ (Z.to_nat n) 0 (fun _ => fload_gate first) (t, a0, a, -1) ;;
  cnt <- count_shifts 64 previous_g 0 ;;
  max_gate <- shl_times (Z.to_nat cnt) 1 ;;
  cnt <- count_shifts 64 max_gate 0 ;;
  ' (a0, a, b) <- (if n =? 1 then
      k <- idx max_gate ;;
      if negb first then a <- wr a k (Some (Gate 2 0 0)) ;; Ok (a0, a, cnt)
      else a0 <- wr a0 k (Some (Gate 2 0 0)) ;; a <- wr a k (Some (Gate 4 1 0)) ;; Ok (a0, a, cnt)
    else Ok (a0, a, cnt - 1)) ;;
  let bl := Z.to_nat b in
  Ok (t, ls ++ (if first then [Raw a0 bl] else []) ++ [Raw a bl], Z.max max_bits b).

(** A circuit with a cell that was never written is [UB], as in [Loader]. *)
Fixpoint plain_layers (rs : list raw_layer) : outcome (list layer) :=
  match rs with
  | [] => Ok []
  | r :: rs' => gs <- initialised (r_gates r) ;; ls <- plain_layers rs' ;; Ok (plain_layer gs (r_bits r) :: ls)
  end.

(** verifier_fast_track.cpp:12-126: the circuit and [max_bit_length]; lines 118-123 allocate tables of
    [1 << max_bit_length] elements. *)
Definition fread_circuit (circuit_in : list Z) : outcome (layered_circuit * Z) :=
  ' (d, t) <- scan_int circuit_in ;;
  (if d + 1 <? 0 then AssertFail else if d + 1 <? 2 ^ 31 then Ok tt else UB) ;;;
  ' (_, ls, max_bits) <- for_ (Z.to_nat d) 1 fload_layer (t, [], -1) ;;
  shl1_int max_bits ;;;
  ls <- plain_layers ls ;;
  Ok (Circuit ls (Z.to_nat (d + 1)), max_bits).

(** main_fast_track.cpp:10-21: load the file, hand the circuit to the prover, verify. *)
Definition fast_main (circuit_in : list Z) (rnd : nat -> fe) : outcome bool :=
  ' (C, _) <- fread_circuit circuit_in ;; run_fast_track C rnd.
