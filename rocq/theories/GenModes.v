(** * The remaining modes of the circuit generator

    bin/gen.cpp, modes 0, 1 and 5 (mode 3 prints nothing).  As in [Gen], the arguments
    are already parsed, the files are the lists of the integers in them and [rnd] is the
    sequence of results of rand(). *)
From Coq Require Import ZArith List Bool Arith.
From Verif Require Import Base Loader ZkEval Gen.
Import ListNotations.
Open Scope nat_scope.

(** [1 << w] on [int] *)
Definition one_shl (w : Z) : outcome nat := if ((0 <=? w) && (w <? 31))%Z then Ok (2 ^ Z.to_nat w) else UB.
(** One printed line: the size of the layer and its gates *)
Definition line (n : nat) (f : nat -> list item) : list item := Dec (Z.of_nat n) :: flat_map f (seq 0 n) ++ [Newline].
(** "%d %d %d %d " for an input gate *)
Definition plain_input (g : nat) (x : Z) : list item := [Dec 3; Dec (Z.of_nat g); Dec x; Dec 0].

(** bin/gen.cpp:13-43 (mode 0); the loop of lines 26-35 runs [d - 2] times *)
Definition gen_simple (d w : Z) (rnd : nat -> Z) : outcome (list Z) :=
  n <- one_shl w ;;
  let o1 := line n (fun j => plain_input j (rnd j)) in
  let o2 := concat (repeat (line n (fun j => gate_items 8 j j 0)) (Z.to_nat (d - 2))) in
  n' <- one_shl (w - 1) ;;
  let o3 := line n' (fun j => gate_items 10 j (2 * j) 0) in
  Ok (tokens (Dec d :: Newline :: o1 ++ o2 ++ o3)).

(** bin/gen.cpp:67-80: [cnt] equal layers with their meta lines *)
Fixpoint double_layers (n bn : nat) (w : Z) (cnt : nat) : outcome (list item * list Z) :=
  match cnt with
  | O => Ok ([], [])
  | S c =>
      let o := line n (fun j => gate_items 0 j j j) in
      s <- str_length o ;;
      assert_ (n / bn <=? n) ;;;
      ' (o', m') <- double_layers n bn w c ;;
      Ok (o ++ o', [Z.of_nat (n / bn); Z.of_nat bn; 5; w - 5; s]%Z ++ m')
  end.
(** bin/gen.cpp:44-99 (mode 1): the circuit file and the meta file *)
Definition gen_blocked (d w : Z) (rnd : nat -> Z) : outcome (list Z * list Z) :=
  assert_ (5 <? w)%Z ;;;
  n <- one_shl w ;;
  bn <- one_shl (w - 5) ;;
  assert_ (bn <=? n) ;;;
  let o1 := line n (fun j => input_items j (rnd j)) in
  s1 <- str_length o1 ;;
  ' (o2, m2) <- double_layers n bn w (Z.to_nat (d - 2)) ;;
  n' <- one_shl (w - 1) ;;
  let bs := n' / bn in
  let o3 := Dec (Z.of_nat n') ::
            loop2 bn bs (fun i j => gate_items 1 (i * bs + j) (i * bs * 2 + j * 2) (i * bs * 2 + j * 2 + 1)) ++ [Newline] in
  s3 <- str_length o3 ;;
  assert_ (bs <=? n') ;;;
  Ok (tokens (Dec d :: Newline :: o1 ++ o2 ++ o3),
      [Z.of_nat (n / bn); Z.of_nat bn; 5; w - 5; s1]%Z ++ m2 ++ [Z.of_nat bs; Z.of_nat bn; 4; w - 5; s3]%Z).

(** bin/gen.cpp:261-275 (mode 5) *)
Definition gen_sum (d w : Z) : outcome (list Z) :=
  n <- one_shl w ;;
  let o1 := line n (fun j => plain_input j 1) in
  Ok (tokens (Dec d :: Newline :: o1) ++ [2; 5;0;0;0; 5;1;0;0]%Z).
