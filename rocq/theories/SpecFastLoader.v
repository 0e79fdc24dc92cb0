(** * What a circuit file denotes to the fast track

    Independent of the loader.  A layer of the file is a list of gates with the gate numbers
    written beside them, in the order of the file. *)
From Coq Require Import ZArith List Bool Arith Permutation.
From Verif Require Import Circuit SpecLoader.
Import ListNotations.
Open Scope Z_scope.

Definition entry := (nat * fgate)%type.
Definition entry_tokens (l : list entry) : list Z :=
  concat (map (fun e => [f_ty (snd e); Z.of_nat (fst e); f_u (snd e); f_v (snd e)]) l).
Definition flayer_tokens (l : list entry) : list Z := Z.of_nat (length l) :: entry_tokens l.
Definition fcircuit_tokens (L : list (list entry)) : list Z := Z.of_nat (length L) :: concat (map flayer_tokens L).

(** Which files load: the numbers of a layer are [0 .. n-1] in some order and the last one written is below [2^30]. *)
Definition entry_ok (first : bool) (e : entry) : Prop :=
  is_int (f_ty (snd e)) /\ is_ll (f_u (snd e)) /\ is_ll (f_v (snd e)) /\
  (first = true -> f_ty (snd e) = 2 \/ f_ty (snd e) = 3).
Definition last_id (l : list entry) : nat := last (map fst l) 0%nat.
Definition flayer_ok (first : bool) (l : list entry) : Prop :=
  (1 <= length l)%nat /\ Z.of_nat (length l) < 2 ^ 31 /\ Permutation (map fst l) (seq 0 (length l)) /\
  Z.of_nat (last_id l) < 2 ^ 30 /\ Forall (entry_ok first) l.
Definition file_ok (L : list (list entry)) : Prop :=
  match L with [] => False | l :: r => flayer_ok true l /\ Forall (flayer_ok false) r end /\
  Z.of_nat (length L) + 1 < 2 ^ 31.

(** What they load as: the gates in the order of their numbers, but a bit length taken from the last number written. *)
Definition fast_gate (f : fgate) : gate := Gate (f_ty f) (int32 (f_u f)) (if f_ty f =? 6 then 0 else int32 (f_v f)).
Definition pad (n : nat) : nat := if Nat.eqb n 1 then 1%nat else 0%nat.
Definition last_bits (l : list entry) : nat := if Nat.eqb (length l) 1 then 1%nat else Nat.log2_up (S (last_id l)).
Definition placed (l : list entry) (gs : list gate) : Prop :=
  length gs = (length l + pad (length l))%nat /\
  (forall k f, In (k, f) l -> nth_error gs k = Some (fast_gate f)) /\
  (length l = 1%nat -> nth_error gs 1 = Some (Gate 2 0 0)).
Definition copies (n : nat) : list gate := map (fun g => Gate 4 (Z.of_nat g) 0) (seq 0 n).
Definition fdenotes (L : list (list entry)) (C : layered_circuit) : Prop :=
  match L with
  | [] => False
  | l :: r => exists gs rest, placed l gs /\
      Forall2 (fun l y => exists gs, placed l gs /\ y = plain_layer gs (last_bits l)) r rest /\
      C = Circuit (plain_layer gs (last_bits l) :: plain_layer (copies (length gs)) (last_bits l) :: rest) (S (S (length r)))
  end.
Definition fmax_bits (L : list (list entry)) : nat := fold_right Nat.max 0%nat (map last_bits L).

(** A file whose gates are written in order, as the message of the loader asks. *)
Definition numbered (l : list fgate) : list entry := combine (seq 0 (length l)) l.
Definition in_order (L : list (list fgate)) : list (list entry) := map numbered L.
Definition fast_gates (l : list fgate) : list gate := map fast_gate l ++ (if Nat.eqb (length l) 1 then [Gate 2 0 0] else []).
Definition fast_layer (l : list fgate) : layer := plain_layer (fast_gates l) (least_bits (length l)).
Definition fast_circuit (L : list (list fgate)) : layered_circuit :=
  match L with
  | [] => Circuit [] 0
  | l :: r => Circuit (fast_layer l :: plain_layer (copies (length (fast_gates l))) (least_bits (length l)) :: map fast_layer r) (S (S (length r)))
  end.
Definition fast_bits (L : list (list fgate)) : nat := fold_right Nat.max 0%nat (map (fun l => least_bits (length l)) L).

(** Files whose circuits the protocol covers: every layer has a power of two of gates, and every gate reads
    the [n] positions below ([n] is 2 below a layer of one gate). *)
Definition fast_gate_ok (n : nat) (f : fgate) : Prop :=
  is_ll (f_u f) /\ is_ll (f_v f) /\
  ((In (f_ty f) [0;1;7;8;9] /\ 0 <= f_u f < Z.of_nat n /\ 0 <= f_v f < Z.of_nat n) \/
   (f_ty f = 6 /\ 0 <= f_u f < Z.of_nat n) \/
   (f_ty f = 10 /\ 0 <= f_u f < Z.of_nat n /\ f_v f = 0) \/
   (f_ty f = 5 /\ 0 <= f_u f <= f_v f /\ f_v f <= Z.of_nat n) \/
   f_ty f = 2).
Definition positions (l : list fgate) : nat := Nat.max 2 (length l).
Fixpoint fast_upper (n : nat) (L : list (list fgate)) : Prop :=
  match L with
  | [] => True
  | l :: r => pow2_size l /\ Z.of_nat (length l) <= 2 ^ 30 /\ Forall (fast_gate_ok n) l /\ fast_upper (positions l) r
  end.
Definition fast_file (L : list (list fgate)) : Prop :=
  match L with
  | [] => False
  | l :: r => pow2_size l /\ Z.of_nat (length l) <= 2 ^ 30 /\
      Forall (fun f => is_ll (f_u f) /\ is_ll (f_v f) /\ (f_ty f = 3 \/ f_ty f = 2 /\ f_u f = 0)) l /\ fast_upper (positions l) r
  end /\ Z.of_nat (length L) + 1 < 1000000.
