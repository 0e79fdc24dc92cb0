(** * The direct Lanczos circuit generator

    bin/gen_lanczos.py, print_circuit and the checks before it.  The arguments are
    non-negative integers; the coefficients of filter_coeffs (floating point) are an
    argument; [rnd i] is the pixel drawn for number [i] (random.randint(0, 256)).  The
    file is the list of the integers in it; [print_pws] and [print_rdl] are never called. *)
From Coq Require Import ZArith List Bool Arith.
From Verif Require Import Base.
Import ListNotations.
Open Scope nat_scope.

(** [n.bit_length()] *)
Definition bit_len (n : nat) : nat := match n with O => 0 | _ => S (Nat.log2 n) end.
(** Lines 141, 156, 181: [padding_num] *)
Definition padding (n : nat) : nat := 2 ^ bit_len n - n.
Definition four (ty g u v : Z) : list Z := [ty; g; u; v].
(** Lines 151-152, 178-179, 190-191 *)
Definition padding_gates (n : nat) : list Z := flat_map (fun i => four 2 (Z.of_nat (n + i)) 0 0) (seq 0 (padding n)).
(** Lines 170-177: the products of one row of a window; [gate] is the number of the next gate *)
Fixpoint conv (cnt pix gate : nat) (coef_id inc r total : Z) : list Z :=
  match cnt with
  | O => []
  | S c =>
      let inc' := if (coef_id + 1 =? 2 * r)%Z then (-1)%Z else inc in
      four 1 (Z.of_nat gate) (Z.of_nat pix) (coef_id + total) ++ conv c (S pix) (S gate) (coef_id + inc') inc' r total
  end.
(** Lines 161-177; [gid] has grown by [4 ratio] after each row *)
Definition product_gates (r np n : nat) : list Z :=
  flat_map (fun xrep => flat_map (fun yrep => flat_map (fun y =>
    conv (4 * r) (np * (r * yrep + y) + r * xrep) ((xrep * n + yrep) * (16 * r * r) + y * (4 * r)) 0 1 (Z.of_nat r) (Z.of_nat (np * np)))
    (seq 0 (4 * r))) (seq 0 n)) (seq 0 n).
(** Lines 183-188 *)
Definition sum_gates (r n : nat) : list Z :=
  flat_map (fun xrep => flat_map (fun yrep => flat_map (fun y =>
    four 5 (Z.of_nat ((xrep * n + yrep) * 4 * r + y)) (Z.of_nat ((xrep * n + yrep) * (16 * r * r) + y * (4 * r)))
           (Z.of_nat ((xrep * n + yrep) * (16 * r * r) + y * (4 * r) + 4 * r)))
    (seq 0 (4 * r))) (seq 0 n)) (seq 0 n).
(** Lines 196-198 *)
Definition window_gates (r n : nat) : list Z :=
  flat_map (fun xrep => flat_map (fun yrep =>
    four 5 (Z.of_nat (xrep * n + yrep)) (Z.of_nat ((xrep * n + yrep) * 4 * r)) (Z.of_nat ((xrep * n + yrep + 1) * 4 * r)))
    (seq 0 n)) (seq 0 n).
(** Lines 123-198 *)
Definition print_circuit (r np : nat) (coeffs : list Z) (rnd : nat -> Z) : outcome (list Z) :=
  let n := 1 + (np - 4 * r) / r in
  let total := np * np in
  let sub := 16 * r * r + 2 * r in
  assert_ (0 <? 2 ^ bit_len (sub - 1) - sub) ;;;
  assert_ (length coeffs =? 2 * r) ;;;
  let n1 := total + length coeffs in
  let n2 := n * n * (4 * r * (4 * r)) in
  let n3 := n * n * 4 * r in
  Ok (4%Z ::
      (Z.of_nat (n1 + padding n1) :: flat_map (fun i => four 3 (Z.of_nat i) (rnd i) 0) (seq 0 total) ++
       flat_map (fun c => four 3 (Z.of_nat (c + total)) (nth c coeffs 0%Z) 0) (seq 0 (length coeffs)) ++ padding_gates n1) ++
      (Z.of_nat (n2 + padding n2) :: product_gates r np n ++ padding_gates n2) ++
      (Z.of_nat (n3 + padding n3) :: sum_gates r n ++ padding_gates n3) ++
      (Z.of_nat (n * n) :: window_gates r n)).
(** Lines 199-219: with [ratio] = 0 the remainder raises an exception *)
Definition gen_lanczos (r np : nat) (coeffs : list Z) (rnd : nat -> Z) : outcome (list Z) :=
  if (np <? 4 * r) || (r =? 0) || negb (np mod r =? 0) then ExitProg else print_circuit r np coeffs rnd.
