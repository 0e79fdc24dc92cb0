(** * What a circuit file and a meta file denote

    Independent of the loader: a file is described by its layers of gates, written
    out as integers. *)
From Coq Require Import ZArith List Bool Arith.
From Verif Require Import Circuit.
Import ListNotations.
Open Scope Z_scope.

Record fgate := FGate { f_ty : Z; f_u : Z; f_v : Z }.
(** A description: one list of gates per layer of the file, one meta line per layer. *)
Record fmeta := FMeta { m_para : Z; m_block : Z; m_repeat : Z; m_log_block : Z; m_log_repeat : Z }.
Record desc := Desc { d_layers : list (list fgate); d_meta : list fmeta }.

(** The integers in the files. *)
Fixpoint gate_tokens (k : nat) (l : list fgate) : list Z :=
  match l with
  | [] => []
  | f :: r => [f_ty f; Z.of_nat k; f_u f; f_v f] ++ gate_tokens (S k) r
  end.
Definition layer_tokens (l : list fgate) : list Z := Z.of_nat (length l) :: gate_tokens 0 l.
Definition circuit_tokens (L : list (list fgate)) : list Z := Z.of_nat (length L) :: concat (map layer_tokens L).
Definition meta_tokens (M : list fmeta) : list Z :=
  concat (map (fun m => [m_para m; m_block m; m_repeat m; m_log_block m; m_log_repeat m]) M).

(** Two's complement 32-bit value. *)
Definition int32 (z : Z) : Z := if z mod 2 ^ 32 <? 2 ^ 31 then z mod 2 ^ 32 else z mod 2 ^ 32 - 2 ^ 32.
(** The least [b >= 1] with [n <= 2^b] (see [least_bits_spec]). *)
Definition least_bits (n : nat) : nat := Nat.max 1 (Nat.log2_up n).

(** Which gates are accepted over a layer of bit length [b]. *)
Definition is_int (z : Z) : Prop := - 2 ^ 31 <= z < 2 ^ 31.
Definition is_ll (z : Z) : Prop := - 2 ^ 63 <= z < 2 ^ 63.
Definition gate_ok (b : nat) (f : fgate) : Prop :=
  is_int (f_ty f) /\ is_ll (f_u f) /\ is_ll (f_v f) /\
  (f_ty f <> 3 -> 0 <= f_u f < 2 ^ Z.of_nat b) /\
  (f_ty f <> 3 -> f_ty f <> 5 -> 0 <= f_v f < 2 ^ Z.of_nat b) /\
  (f_ty f = 5 -> f_u f < f_v f <= 2 ^ Z.of_nat b) /\
  (f_ty f = 13 -> f_u f = f_v f).
Definition input_ok (f : fgate) : Prop :=
  is_ll (f_u f) /\ is_ll (f_v f) /\ (f_ty f = 3 \/ f_ty f = 2 /\ f_u f = 0 /\ f_v f = 0).
Definition layer_size_ok (l : list fgate) : Prop := (1 <= length l)%nat /\ Z.of_nat (length l) <= 2 ^ 30.
Fixpoint upper_ok (b : nat) (L : list (list fgate)) : Prop :=
  match L with
  | [] => True
  | l :: r => layer_size_ok l /\ Forall (gate_ok b) l /\ upper_ok (least_bits (length l)) r
  end.
Definition meta_ok (m : fmeta) : Prop :=
  is_int (m_para m) /\ is_int (m_block m) /\ is_int (m_repeat m) /\ is_int (m_log_block m) /\ is_int (m_log_repeat m) /\
  (m_para m <> 0 -> 0 <= m_log_repeat m < 31 /\ m_repeat m = 2 ^ m_log_repeat m).
Definition desc_ok (D : desc) : Prop :=
  match d_layers D with
  | [] => False
  | l :: r => layer_size_ok l /\ Forall input_ok l /\ upper_ok (least_bits (length l)) r
  end /\
  Z.of_nat (length (d_layers D)) + 1 < 2 ^ 31 /\
  length (d_meta D) = length (d_layers D) /\ Forall meta_ok (d_meta D).

(** The circuit a description denotes. *)
Definition file_gate (f : fgate) : gate :=
  Gate (f_ty f) (int32 (f_u f)) (if (f_ty f =? 6) || (f_ty f =? 10) then 0 else int32 (f_v f)).
Definition file_gates (l : list fgate) : list gate :=
  map file_gate l ++ (if Nat.eqb (length l) 1 then [Gate 2 0 0] else []).
Definition copy_gates (l : list fgate) : list gate :=
  map (fun g => Gate 4 (Z.of_nat g) 0) (seq 0 (length (file_gates l))).
Definition file_layer (gs : list gate) (b : nat) (m : fmeta) : layer :=
  Layer gs b (negb (m_para m =? 0)) (m_block m) (m_log_block m) (m_repeat m) (m_log_repeat m).
Fixpoint upper_layers (L : list (list fgate)) (M : list fmeta) : list layer :=
  match L, M with
  | l :: r, m :: ms => file_layer (file_gates l) (least_bits (length l)) m :: upper_layers r ms
  | _, _ => []
  end.
Definition denotes (D : desc) : layered_circuit :=
  match d_layers D, d_meta D with
  | l :: r, m :: ms =>
      Circuit (plain_layer (file_gates l) (least_bits (length l)) ::
               file_layer (copy_gates l) (least_bits (length l)) m :: upper_layers r ms)
              (S (S (length r)))
  | _, _ => Circuit [] 0
  end.
Definition max_bits (D : desc) : nat := fold_right (fun l m => Nat.max (least_bits (length l)) m) 0%nat (d_layers D).

(** In the words of C15: the wires of a gate lie in the [n] positions below (a constant
    has none, the end of the range of a sum gate may be [n]). *)
Definition refers_in (n : nat) (g : gate) : Prop :=
  g_ty g = 3%Z \/
  ((0 <= g_u g < Z.of_nat n)%Z /\ (g_ty g <> 5 -> 0 <= g_v g < Z.of_nat n)%Z /\
   (g_ty g = 5 -> g_u g < g_v g <= Z.of_nat n)%Z /\ (g_ty g = 13 -> g_u g = g_v g)%Z).
Definition pow2_size (l : list fgate) : Prop := exists k, length l = (2 ^ k)%nat.
(** The gate types of zk_prover::evaluate; a weighted sum may span at most 63 wires. *)
Definition supported (g : gate) : Prop :=
  In (g_ty g) [0;1;2;3;4;5;6;7;8;9;10;13]%Z \/ (g_ty g = 12 /\ g_v g - g_u g + 1 <= 63)%Z.
