(** * Model of the circuit loader, zk_verifier.cpp:15-193

    A file is the list of the integers in it.  [fscanf("%d")] of a number outside
    the range of [int] is undefined, and at the end of the file it leaves the variable
    as it was; every variable read this way is then used uninitialised (the only one
    with an earlier value is [n], and it is positive, so an uninitialised [ty] is read next),
    so that is [UB] too.  Cells of [new gate\[n\]] start uninitialised ([None]).
    [printf] output is left out. *)
From Coq Require Import ZArith List Bool Arith.
From Verif Require Import Base Circuit.
Import ListNotations.
Open Scope Z_scope.

Definition in_int (z : Z) : bool := (- 2 ^ 31 <=? z) && (z <? 2 ^ 31).
Definition in_ll (z : Z) : bool := (- 2 ^ 63 <=? z) && (z <? 2 ^ 63).
Definition scan_int (t : list Z) : outcome (Z * list Z) :=
  match t with z :: r => if in_int z then Ok (z, r) else UB | [] => UB end.
Definition scan_ll (t : list Z) : outcome (Z * list Z) :=
  match t with z :: r => if in_ll z then Ok (z, r) else UB | [] => UB end.
(** Conversion of a [long long] argument to the [int] parameters of [gate(int, int, int)]. *)
Definition to_int (z : Z) : Z := (z + 2 ^ 31) mod 2 ^ 32 - 2 ^ 31.
(** [1 << n] on [int] *)
Definition shl1_int (n : Z) : outcome Z := if (0 <=? n) && (n <? 31) then Ok (2 ^ n) else UB.

(** zk_verifier.cpp:34-37, 41-50: [new gate\[n\]]; a negative size throws. *)
Definition new_gates (n : Z) : outcome (list (option gate)) :=
  if n <? 0 then AssertFail else Ok (repeat None (if n =? 1 then 2%nat else Z.to_nat n)).

(** zk_verifier.cpp:60-76 *)
Definition check_range (prev_bits : nat) (ty u v : Z) : outcome unit :=
  if ty =? 3 then Ok tt else
  lim <- shl1_int (Z.of_nat prev_bits) ;;
  if ty =? 5 then
    assert_ ((0 <=? u) && (u <? lim)) ;;; assert_ ((u <? v) && (v <=? lim))
  else
    assert_ ((0 <=? u) && (u <? lim)) ;;; assert_ ((0 <=? v) && (v <? lim)).

(** The state of the gate loop: the remaining tokens, [C.circuit\[0\].gates] (used when
    [i = 1]), [C.circuit\[i\].gates] and [previous_g]. *)
Definition gstate := (list Z * list (option gate) * list (option gate) * Z)%type.
(** zk_verifier.cpp:57-106 *)
Definition load_gate (first : bool) (prev_bits : nat) (st : gstate) : outcome gstate :=
  let '(t, a0, a, previous_g) := st in
  ' (ty, t) <- scan_int t ;; ' (g, t) <- scan_int t ;; ' (u, t) <- scan_ll t ;; ' (v, t) <- scan_ll t ;;
  check_range prev_bits ty u v ;;;
  let v := if ty =? 6 then 0 else v in
  let v := if ty =? 10 then 0 else v in
  (if ty =? 13 then assert_ (u =? v) else Ok tt) ;;;
  if negb (g =? previous_g + 1) then ExitProg else
  k <- idx g ;;
  if negb first then
    a <- wr a k (Some (Gate ty (to_int u) (to_int v))) ;; Ok (t, a0, a, g)
  else
    assert_ ((ty =? 2) || (ty =? 3)) ;;;
    a <- wr a k (Some (Gate 4 g 0)) ;;
    a0 <- wr a0 k (Some (Gate ty (to_int u) (to_int v))) ;; Ok (t, a0, a, g).

(** zk_verifier.cpp:110-114 and 122-126, [while(m) { cnt++; m >>= 1; }]; a negative
    [m] ends at -1 and never becomes zero. *)
Fixpoint count_shifts (fuel : nat) (m : Z) (cnt : Z) : outcome Z :=
  if m <? 0 then Diverges else
  if m =? 0 then Ok cnt else
  match fuel with O => NoFuel | S f => count_shifts f (Z.shiftr m 1) (cnt + 1) end.
(** zk_verifier.cpp:115-120, [max_gate = 1; while(cnt) max_gate <<= 1] *)
Fixpoint shl_times (cnt : nat) (m : Z) : outcome Z :=
  match cnt with
  | O => Ok m
  | S c => if 2 * m <? 2 ^ 31 then shl_times c (2 * m) else UB
  end.

Record raw_layer := Raw { r_gates : list (option gate); r_bits : nat }.
(** zk_verifier.cpp:31-151, one iteration of the loop over layers.  The layers read so far
    are [ls]; the first iteration makes layers 0 and 1.  [layer()] sets the bit length of layer
    0 to 0 (circuit_fast_track.h:33-38), which is what the range check of the first iteration reads. *)
Definition load_layer (i : nat) (st : list Z * list raw_layer * Z) : outcome (list Z * list raw_layer * Z) :=
  let '(t, ls, max_bits) := st in
  ' (n, t) <- scan_int t ;;
  a0 <- new_gates n ;; a <- new_gates n ;;
  let first := Nat.eqb i 1 in
  prev_bits <- (if first then Ok 0%nat else l <- rd ls (i - 1) ;; Ok (r_bits l)) ;;
  ' (t, a0, a, previous_g) <- for_ (Z.to_nat n) 0 (fun _ => load_gate first prev_bits) (t, a0, a, -1) ;;
  cnt <- count_shifts 64 previous_g 0 ;;
  max_gate <- shl_times (Z.to_nat cnt) 1 ;;
  cnt <- count_shifts 64 max_gate 0 ;;
  ' (a0, a, b) <- (if n =? 1 then
      k <- idx max_gate ;;
      if negb first then a <- wr a k (Some (Gate 2 0 0)) ;; Ok (a0, a, cnt)
      else a0 <- wr a0 k (Some (Gate 2 0 0)) ;; a <- wr a k (Some (Gate 4 1 0)) ;; Ok (a0, a, cnt)
    else Ok (a0, a, cnt - 1)) ;;
  let bl := Z.to_nat b in
  Ok (t, ls ++ (if first then [Raw a0 bl] else []) ++ [Raw a bl], Z.max max_bits b).

(** zk_verifier.cpp:156-168, one layer of the meta file *)
Definition meta := (bool * Z * Z * Z * Z)%type.
Definition load_meta (st : list Z * list meta) : outcome (list Z * list meta) :=
  let '(t, ms) := st in
  ' (is_para, t) <- scan_int t ;;
  ' (bs, t) <- scan_int t ;; ' (rn, t) <- scan_int t ;; ' (lbs, t) <- scan_int t ;; ' (lrn, t) <- scan_int t ;;
  let para := negb (is_para =? 0) in
  (if para then s <- shl1_int lrn ;; assert_ (s =? rn) else Ok tt) ;;;
  Ok (t, ms ++ [(para, bs, rn, lbs, lrn)]).

(** All cells must have been written. *)
Fixpoint initialised (l : list (option gate)) : outcome (list gate) :=
  match l with
  | [] => Ok []
  | Some g :: r => r' <- initialised r ;; Ok (g :: r')
  | None :: _ => UB
  end.
Definition make_layer (r : raw_layer) (m : meta) : outcome layer :=
  let '(para, bs, rn, lbs, lrn) := m in
  gs <- initialised (r_gates r) ;; Ok (Layer gs (r_bits r) para bs lbs rn lrn).
Fixpoint make_layers (rs : list raw_layer) (ms : list meta) : outcome (list layer) :=
  match rs, ms with
  | [], [] => Ok []
  | r :: rs', m :: ms' => l <- make_layer r m ;; ls <- make_layers rs' ms' ;; Ok (l :: ls)
  | _, _ => UB
  end.

(** zk_verifier.cpp:15-193: the circuit and [max_bit_length].  The block fields of layer 0 are
    never set; zeros stand for them and nothing reads them.  Lines 171-190 allocate tables
    of [1 << max_bit_length] elements and smaller. *)
Definition read_circuit (circuit_in meta_in : list Z) : outcome (layered_circuit * Z) :=
  ' (d, t) <- scan_int circuit_in ;;
  (if d + 1 <? 0 then AssertFail else if d + 1 <? 2 ^ 31 then Ok tt else UB) ;;;
  ' (_, ls, max_bits) <- for_ (Z.to_nat d) 1 load_layer (t, [], -1) ;;
  ' (_, ms) <- for_ (Z.to_nat d) 1 (fun _ => load_meta) (meta_in, []) ;;
  shl1_int max_bits ;;;
  ls <- make_layers ls ((false, 0, 0, 0, 0) :: ms) ;;
  Ok (Circuit ls (Z.to_nat (d + 1)), max_bits).
