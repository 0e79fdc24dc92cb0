(** * Model of circuit evaluation in src/linear_gkr/zk_prover.cpp

    The branches for gate types 0 to 10 are the same statements as in
    prover_fast_track.cpp:53-106, so [FastProver.gate_value] is used for them. *)
From Coq Require Import ZArith List Bool Arith.
From Verif Require Import Base Limbs Field Circuit FastProver Loader.
Import ListNotations.
Open Scope nat_scope.

(** [int] subtraction and addition; overflow is undefined. *)
Definition int_op (z : Z) : outcome Z := if in_int z then Ok z else UB.
(** zk_prover.cpp:78-143 *)
Definition zgate_value (prev : list fe) (ty u v : Z) : outcome fe :=
  match ty with
  | 12%Z =>
      d <- int_op (v - u) ;; d <- int_op (d + 1) ;;
      assert_ (d <=? 63)%Z ;;;
      forz u (v + 1) (fun k acc =>
        ik <- idx k ;; x <- rd prev ik ;;
        Ok (fe_add acc (fe_mul x (fe_of_ull (2 ^ (k - u)))))) (fe_of_int 0)
  | 13%Z =>
      assert_ (u =? v)%Z ;;;
      iu <- idx u ;; x <- rd prev iu ;; iv <- idx v ;; y <- rd prev iv ;;
      Ok (fe_mul x (fe_sub (fe_of_int 1) y))
  | _ => gate_value prev ty u v
  end.
(** zk_prover.cpp:70-144 *)
Definition zlayer_values (L : layer) (prev : list fe) : outcome (list fe) :=
  for_ (2 ^ bit_length L) 0 (fun g row =>
    gt <- rd (gates L) g ;;
    x <- zgate_value prev (g_ty gt) (g_u gt) (g_v gt) ;;
    wr row g x) (repeat fe_zero (2 ^ bit_length L)).
(** zk_prover.cpp:54-152: the returned row and [circuit_value].  Lines 57-66 are
    the same as prover_fast_track.cpp:38-48 ([input_values]). *)
Definition zevaluate (C : layered_circuit) : outcome (list fe * list (list fe)) :=
  L0 <- rd (circuit C) 0 ;;
  row0 <- input_values L0 ;;
  assert_ (Z.of_nat (total_depth C) <? 1000000)%Z ;;;
  cv <- for_ (total_depth C - 1) 1 (fun i cv =>
     L <- rd (circuit C) i ;;
     prev <- rd cv (i - 1) ;;
     row <- zlayer_values L prev ;;
     Ok (cv ++ [row])) [row0] ;;
  ret <- rd cv (total_depth C - 1) ;;
  Ok (ret, cv).
