(** * What a circuit file denotes to the programs of src/traditional_gkr

    Independent of the loaders.  Files are described as in [SpecFastLoader]: layers of gates with their
    numbers beside them. *)
From Coq Require Import ZArith List Bool Arith Permutation.
From Verif Require Import Circuit SpecLoader SpecFastLoader.
Import ListNotations.
Open Scope Z_scope.

Definition trad_file_gate (f : fgate) : gate := Gate (f_ty f) (f_u f) (f_v f).
Definition int_gate (f : fgate) : Prop := is_int (f_ty f) /\ is_int (f_u f) /\ is_int (f_v f).
Definition tlayer_ok (l : list entry) : Prop :=
  (1 <= length l)%nat /\ Z.of_nat (length l) < 2 ^ 31 /\ Permutation (map fst l) (seq 0 (length l)) /\
  Z.of_nat (last_id l) < 2 ^ 30 /\ Forall (fun e : entry => int_gate (snd e)) l.
Definition tfile_ok (L : list (list entry)) : Prop := L <> [] /\ Forall tlayer_ok L /\ Z.of_nat (length L) < 2 ^ 31.
(** One layer per layer of the file; the bit length comes from the number written last. *)
Definition tplaced (l : list entry) (gs : list gate) : Prop :=
  length gs = (length l + pad (length l))%nat /\
  (forall k f, In (k, f) l -> nth_error gs k = Some (trad_file_gate f)) /\
  (length l = 1%nat -> nth_error gs 1 = Some (Gate 2 0 0)).
Definition tdenotes (L : list (list entry)) (C : layered_circuit) : Prop :=
  exists ys, Forall2 (fun l y => exists gs, tplaced l gs /\ y = plain_layer gs (last_bits l)) L ys /\
    C = Circuit ys (length L).

(** Files in order. *)
Definition trad_gates (l : list fgate) : list gate := map trad_file_gate l ++ (if Nat.eqb (length l) 1 then [Gate 2 0 0] else []).
Definition trad_file_layer (l : list fgate) : layer := plain_layer (trad_gates l) (least_bits (length l)).
Definition trad_file_circuit (L : list (list fgate)) : layered_circuit := Circuit (map trad_file_layer L) (length L).
(** Files whose circuits the protocol covers: sums, products and zero gates over the [n] positions below
    ([n] is 2 below a layer of one gate); [strict] asks the unused wires of a zero gate to be in range too. *)
Definition trad_gate_ok (strict : bool) (n : nat) (f : fgate) : Prop :=
  is_int (f_u f) /\ is_int (f_v f) /\ In (f_ty f) [0; 1; 2] /\
  (f_ty f <> 2 \/ strict = true -> 0 <= f_u f < Z.of_nat n /\ 0 <= f_v f < Z.of_nat n).
Fixpoint trad_upper (strict : bool) (n : nat) (L : list (list fgate)) : Prop :=
  match L with
  | [] => True
  | l :: r => pow2_size l /\ Z.of_nat (length l) <= 2 ^ 30 /\ Forall (trad_gate_ok strict n) l /\ trad_upper strict (positions l) r
  end.
Definition trad_input_ok (f : fgate) : Prop := is_int (f_u f) /\ is_int (f_v f) /\ (f_ty f = 3 \/ f_ty f = 2 /\ f_u f = 0).
Definition trad_file (strict : bool) (L : list (list fgate)) : Prop :=
  match L with
  | [] => False
  | l :: r => pow2_size l /\ Z.of_nat (length l) <= 2 ^ 30 /\ Forall trad_input_ok l /\ trad_upper strict (positions l) r
  end.
