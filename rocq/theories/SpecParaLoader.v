(** * What a circuit file denotes to the verifier of the multi-threaded track: the lists of gates by wire *)
From Coq Require Import ZArith List Bool Arith.
From Verif Require Import Circuit SpecLoader SpecFastLoader.
Import ListNotations.
Open Scope Z_scope.

(** The entries of a layer by left and by right wire, and the dummy gate beside a single one. *)
Definition by_left (l : list entry) : list (Z * (Z * nat * Z)) :=
  map (fun e : entry => (f_u (snd e), (f_ty (snd e), fst e, f_v (snd e)))) l ++ (if Nat.eqb (length l) 1 then [(0, (2, 1%nat, 0))] else []).
Definition by_right (l : list entry) : list (Z * (Z * nat * Z)) :=
  map (fun e : entry => (f_v (snd e), (f_ty (snd e), fst e, f_u (snd e)))) l ++ (if Nat.eqb (length l) 1 then [(0, (2, 1%nat, 0))] else []).
