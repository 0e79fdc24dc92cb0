(** * Model of include/linear_gkr/circuit_fast_track.h

    [int] fields are kept as [Z]; [bit_length], which the loaders only ever set
    to non-negative numbers, is a [nat]. The maps
    [u_gates]/[v_gates] (lines 26-27) are used by the multi-threaded prover only
    (ParaProver.v) and are left out. *)
From Coq Require Import ZArith List.

(** circuit_fast_track.h:8-17 *)
Record gate := Gate { g_ty : Z; g_u : Z; g_v : Z }.
(** circuit_fast_track.h:19-42 *)
Record layer := Layer {
  gates : list gate;
  bit_length : nat;
  is_parallel : bool;
  block_size : Z;
  log_block_size : Z;
  repeat_num : Z;
  log_repeat_num : Z }.
(** circuit_fast_track.h:44-58 *)
Record layered_circuit := Circuit { circuit : list layer; total_depth : nat }.

(** A non-parallel layer, circuit_fast_track.h:33-38. *)
Definition plain_layer (gs : list gate) (b : nat) : layer := Layer gs b false 0%Z 0%Z 0%Z 0%Z.
