(** * The matrix-multiplication circuit generators

    bin/gen.cpp (modes 2 and 4) and tests/matmul/gen.cpp.  The arguments of the
    program are already parsed; the printed files are lists of the integers in them.
    [rnd] is the sequence of results of rand().  Indices that are bounded by the
    largest [int] the program computes are natural numbers here; that largest one is
    checked for overflow first, which is undefined behaviour. *)
From Coq Require Import ZArith List Bool Arith.
From Verif Require Import Base Loader ZkEval.
Import ListNotations.
Open Scope nat_scope.

(** What one call of printf writes: "%d ", "%010d " or "\n". *)
Inductive item := Dec (z : Z) | Dec10 (z : Z) | Newline.
(** Number of decimal digits. *)
Fixpoint digits (fuel : nat) (z : Z) : Z :=
  match fuel with
  | O => 1%Z
  | S f => if (z <? 10)%Z then 1%Z else (1 + digits f (z / 10))%Z
  end.
(** Number of characters written for a non-negative [int] (all printed numbers are). *)
Definition item_len (x : item) : Z :=
  match x with
  | Dec z => (digits 10 z + 1)%Z
  | Dec10 z => (Z.max 10 (digits 10 z) + 1)%Z
  | Newline => 1%Z
  end.
Definition item_val (x : item) : list Z := match x with Dec z => [z] | Dec10 z => [z] | Newline => [] end.
(** The integers a scanf loop reads back. *)
Definition tokens (o : list item) : list Z := flat_map item_val o.
(** The sum of the results of the printf calls, accumulated in an [int]. *)
Definition str_length (o : list item) : outcome Z := int_op (fold_right (fun x a => (item_len x + a)%Z) 0%Z o).

(** Three nested loops. *)
Definition loop3 {A} (a b c : nat) (f : nat -> nat -> nat -> list A) : list A :=
  flat_map (fun i => flat_map (fun j => flat_map (fun k => f i j k) (seq 0 c)) (seq 0 b)) (seq 0 a).
(** "%d %d %d %d " *)
Definition gate_items (ty : Z) (g u v : nat) : list item := [Dec ty; Dec (Z.of_nat g); Dec (Z.of_nat u); Dec (Z.of_nat v)].
(** "%d %d %010d %d " *)
Definition input_items (g : nat) (x : Z) : list item := [Dec 3; Dec (Z.of_nat g); Dec10 x; Dec 0].

(** __builtin_popcount of an [int] *)
Definition popcount (m : Z) : nat := length (filter (fun i => Z.testbit (m mod 2 ^ 32) (Z.of_nat i)) (seq 0 32)).
(** gen.cpp:110-112: [while(mat_sz != (1 << log_mat_sz)) log_mat_sz++] *)
Fixpoint log_loop (fuel l : nat) (m : Z) : outcome nat :=
  match fuel with
  | O => NoFuel
  | S f => if 31 <=? l then UB else if (m =? 2 ^ Z.of_nat l)%Z then Ok l else log_loop f (S l) m
  end.
(** gen.cpp:105-112 *)
Definition mat_size (m : Z) : outcome nat := assert_ (popcount m =? 1) ;;; log_loop 32 0 m.
(** gen.cpp:117-126: the entries of both matrices *)
Definition mat_A (n : nat) (rnd : nat -> Z) (i j : nat) : Z := (rnd (2 * (i * n + j))%nat mod 10)%Z.
Definition mat_B (n : nat) (rnd : nat -> Z) (i j : nat) : Z := (rnd (2 * (i * n + j) + 1)%nat mod 10)%Z.

(** gen.cpp:130-144 *)
Definition tree_input (n : nat) (A B : nat -> nat -> Z) : list item :=
  Dec (Z.of_nat (n * n * n * 2)) ::
  loop3 n n n (fun i j k => input_items (2 * (i * n * n + j * n + k) + 0) (A i k) ++
                            input_items (2 * (i * n * n + j * n + k) + 1) (B k j)) ++ [Newline].
(** gen.cpp:148-160 *)
Definition tree_mult (n : nat) : list item :=
  Dec (Z.of_nat (n * n * n)) ::
  loop3 n n n (fun i j k => let id := i * n * n + j * n + k in gate_items 1 id (id * 2) (id * 2 + 1)) ++ [Newline].
(** gen.cpp:169-181 *)
Definition tree_add (n leaves : nat) : list item :=
  Dec (Z.of_nat (leaves * n * n)) ::
  loop3 n n leaves (fun i j k => let id := i * n * leaves + j * leaves + k in gate_items 0 id (id * 2) (id * 2 + 1)) ++ [Newline].
(** gen.cpp:164-183: circuit and meta file; [leaves] is num_leaves before the loop. *)
Fixpoint tree_layers (n k cnt dep leaves : nat) : outcome (list item * list Z) :=
  match cnt with
  | O => Ok ([], [])
  | S c =>
      let l := leaves / 2 in
      let o := tree_add n l in
      s <- str_length o ;;
      ' (o', m') <- tree_layers n k c (S dep) l ;;
      Ok (o ++ o', [Z.of_nat l; Z.of_nat (n * n); Z.of_nat (k - dep - 1); Z.of_nat (2 * k); s] ++ m')
  end.
(** bin/gen.cpp:100-185 (mode 2): the circuit file and the meta file *)
Definition gen_tree (m : Z) (rnd : nat -> Z) : outcome (list Z * list Z) :=
  k <- mat_size m ;;
  let n := Z.to_nat m in
  int_op (2 * (m * m * m)) ;;;
  let o1 := tree_input n (mat_A n rnd) (mat_B n rnd) in
  s1 <- str_length o1 ;;
  let o2 := tree_mult n in
  s2 <- str_length o2 ;;
  ' (o3, m3) <- tree_layers n k k 0 n ;;
  Ok (tokens (Dec (Z.of_nat (1 + 1 + k)) :: Newline :: o1 ++ o2 ++ o3),
      [Z.of_nat (n * 2); Z.of_nat (n * n); Z.of_nat (k + 1); Z.of_nat (2 * k); s1] ++
      [Z.of_nat n; Z.of_nat (n * n); Z.of_nat k; Z.of_nat (2 * k); s2] ++ m3).

(** Two nested loops. *)
Definition loop2 {A} (a b : nat) (f : nat -> nat -> list A) : list A :=
  flat_map (fun i => flat_map (fun j => f i j) (seq 0 b)) (seq 0 a).
(** tests/matmul/gen.cpp:12-88 and bin/gen.cpp:190-260 (mode 4, which writes no meta file). *)
Definition gen_range (m : Z) (rnd : nat -> Z) : outcome (list Z * list Z) :=
  k <- mat_size m ;;
  let n := Z.to_nat m in
  let A := mat_A n rnd in let B := mat_B n rnd in
  int_op (Z.max (2 * (m * m)) (m * m * m)) ;;;
  let o1 := Dec (Z.of_nat (n * n * 2)) ::
            loop2 n n (fun i j => input_items (i * n + j) (A i j)) ++
            loop2 n n (fun i j => input_items (n * n + i * n + j) (B i j)) ++ [Newline] in
  let o2 := Dec (Z.of_nat (n * n * n)) ::
            loop3 n n n (fun i j k => gate_items 1 (i * n * n + j * n + k) (i * k) (k * j)) ++ [Newline] in
  let o3 := Dec (Z.of_nat (n * n)) ::
            loop2 n n (fun i j => gate_items 5 (i * n + j) (i * n * n + j * n) (i * n * n + j * n + n)) in
  Ok (tokens (Dec (Z.of_nat (1 + 1 + 1)) :: Newline :: o1 ++ o2 ++ o3), repeat 0%Z 15).
