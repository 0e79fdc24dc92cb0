(** * The circuit compiler of the SHA-256 test

    tests/SHA256/parser_sha_data_parallel.cpp: from a program over numbered variables
    and a wiring file to the circuit file and the meta file of a data-parallel circuit.

    The lines of the two files are already parsed (see Program.v).  The printed files are the lists of the integers in them.
    [rnd] is the sequence of results of rand(). *)
From Coq Require Import ZArith List Bool Arith.
From Verif Require Import Base Loader ZkEval Program.
Import ListNotations.
Open Scope Z_scope.

(** ** Conversions *)
(** sscanf("%d") and sscanf("%lld") of a number that does not fit: undefined behaviour *)
Definition read_int (z : Z) : outcome Z := int_op z.
Definition read_ll (z : Z) : outcome Z := if (- 2 ^ 63 <=? z) && (z <? 2 ^ 63) then Ok z else UB.
(** (int)x *)
Definition cast_int (z : Z) : Z := (z + 2 ^ 31) mod 2 ^ 32 - 2 ^ 31.

(** [for(auto x : l)] *)
Fixpoint each {A S : Type} (f : A -> S -> outcome S) (l : list A) (s : S) : outcome S :=
  match l with
  | [] => Ok s
  | x :: r => s' <- f x s ;; each f r s'
  end.

(** ** std::map with keys pair<int, long long> *)
Definition key : Type := Z * Z.
Definition key_eqb (a b : key) : bool := (fst a =? fst b) && (snd a =? snd b).
Definition key_ltb (a b : key) : bool := (fst a <? fst b) || ((fst a =? fst b) && (snd a <? snd b)).
(** The entries in the order of the iteration. *)
Definition kmap (A : Type) : Type := list (key * A).
(** Looking up a key gives the value-initialised object [d] if there is none. *)
Fixpoint mget {A} (d : A) (m : kmap A) (k : key) : A :=
  match m with
  | [] => d
  | (k', a) :: r => if key_eqb k k' then a else mget d r k
  end.
Fixpoint mset {A} (m : kmap A) (k : key) (a : A) : kmap A :=
  match m with
  | [] => [(k, a)]
  | (k', a') :: r =>
      if key_ltb k k' then (k, a) :: m
      else if key_eqb k k' then (k, a) :: r else (k', a') :: mset r k a
  end.
(** Maps that are never iterated (in_deg, the fields layered_lvl and layered_id, and
    output_gate_mapping) are functions; a missing entry is 0. *)
Definition fset (f : key -> Z) (k : key) (z : Z) : key -> Z := fun x => if key_eqb x k then z else f x.
Definition kV (z : Z) : key := (86, z).
Definition kI (z : Z) : key := (73, z).
Definition kN (z : Z) : key := (78, z).
Definition kR (z : Z) : key := (82, z).

(** parser_sha_data_parallel.cpp:84-93; [is_output] is never read, the other two fields
    are kept apart (see above) *)
Record dgate := DG { dg_id : key; dg_ty : Z; dg_in0 : key; dg_in1 : key; dg_outs : list key }.
Definition dg_zero : dgate := DG (0, 0) 0 (0, 0) (0, 0) [].
Definition dag := kmap dgate.
Definition dget (m : dag) (k : key) : dgate := mget dg_zero m k.

(** ** Reading the program *)
(** parser_sha_data_parallel.cpp:35-49 *)
Definition op_ty (o : opname) : Z :=
  match o with OAdd => 0 | OMul => 1 | ONot => 6 | OMinus => 7 | OXor => 8 | ONaab => 9 | OBit => 13 end.
(** [circuit[k].outputs.push_back(o)] *)
Definition push_out (m : dag) (k o : key) : dag :=
  let g := dget m k in mset m k (DG (dg_id g) (dg_ty g) (dg_in0 g) (dg_in1 g) (dg_outs g ++ [o])).
(** One line: parser_sha_data_parallel.cpp:351-483.  The state is the graph and
    [input_count].  Line 397 ([circuit[...].is_output = true]) only creates an entry. *)
Definition read_stmt (s : stmt) (st : dag * Z) : outcome (dag * Z) :=
  let '(m, ic) := st in
  match s with
  | Op o t a b =>
      t <- read_int t ;; a <- read_ll a ;; b <- read_ll b ;;
      let a := cast_int a in let b := cast_int b in
      let m := mset m (kV t) (DG (kV t) (op_ty o) (kV a) (kV b) []) in
      let m := push_out m (kV a) (kV t) in
      let m := push_out m (kV b) (kV t) in
      Ok (m, ic)
  | Sum t a b =>
      t <- read_int t ;; a <- read_ll a ;; b <- read_ll b ;;
      let a := cast_int a in let b := cast_int b in
      let m := mset m (kV t) (DG (kV t) 12 (kV a) (kV b) []) in
      m <- forz a (b + 1) (fun i m => int_op (i + 1) ;;; Ok (push_out m (kV i) (kV t))) m ;;
      Ok (m, ic)
  | SIn t i =>
      t <- read_int t ;; i <- read_ll i ;;
      ic <- int_op (ic + 1) ;;
      Ok (mset m (kV t) (DG (kV t) 3 (kI (cast_int i)) (kN 0) []), ic)
  | SOut o a =>
      _ <- read_int o ;; a <- read_ll a ;;
      let a := cast_int a in
      Ok (mset m (kV a) (dget m (kV a)), ic)
  | SBad => AssertFail
  end.
(** parser_sha_data_parallel.cpp:347-487 without the call at the end *)
Definition read_prog (p : list stmt) : outcome (dag * Z) := each read_stmt p ([], 0).

(** ** Levels: parser_sha_data_parallel.cpp:140-181 *)
Definition in_degrees (m : dag) : key -> Z :=
  fold_left (fun d e => fold_left (fun d y => fset d y (d y + 1)) (dg_outs (snd e)) d) m (fun _ => 0).
(** Lines 155-164: every entry is queued at level 0. *)
Definition check_sources (m : dag) (deg : key -> Z) : outcome unit :=
  each (fun e _ => assert_ (negb (deg (fst e) =? 0) || (dg_ty (snd e) =? 3))) m tt.
Record lstate := LS { ls_q : list key; ls_deg : key -> Z; ls_lvl : key -> Z; ls_max : Z }.
(** Lines 172-180: one element of [g.outputs], [l] is [g.layered_lvl].  (In line 175 [g]
    is a reference: for a gate that is its own input [l] changes during the loop.) *)
Definition visit_out (cur x : key) (s : lstate) : lstate :=
  let deg := fset (ls_deg s) x (ls_deg s x - 1) in
  let lvl := fset (ls_lvl s) x (Z.max (ls_lvl s x) (ls_lvl s cur + 1)) in
  LS (if deg x =? 0 then ls_q s ++ [x] else ls_q s) deg lvl (ls_max s).
Definition visit (m : dag) (cur : key) (s : lstate) : lstate :=
  let s := LS (ls_q s) (ls_deg s) (ls_lvl s) (Z.max (ls_max s) (ls_lvl s cur)) in
  fold_left (fun s x => visit_out cur x s) (dg_outs (dget m cur)) s.
(** Lines 165-181.  The queue is emptied after at most two visits per entry (see
    [levels_total]). *)
Fixpoint bfs (fuel : nat) (m : dag) (s : lstate) : outcome lstate :=
  match ls_q s with
  | [] => Ok s
  | cur :: q =>
      match fuel with
      | O => NoFuel
      | S f => bfs f m (visit m cur (LS q (ls_deg s) (ls_lvl s) (ls_max s)))
      end
  end.
Definition levels (m : dag) : outcome lstate :=
  let deg := in_degrees m in
  check_sources m deg ;;;
  bfs (2 * length m) m (LS (map fst m) deg (fun _ => 0) (-1)).

(** ** Relays *)
Record rstate := RS { rs_m : dag; rs_lvl : key -> Z; rs_cnt : Z }.
(** parser_sha_data_parallel.cpp:114-126: relays for the levels from [i] on, [n] of them *)
Fixpoint relays (n : nat) (i : Z) (pre : key) (s : rstate) : outcome (key * rstate) :=
  match n with
  | O => Ok (pre, s)
  | S n' =>
      let c := rs_cnt s in
      c' <- int_op (c + 1) ;;
      relays n' (i + 1) (kR c) (RS (mset (rs_m s) (kR c) (DG (kR c) 10 pre (kN 0) [])) (fset (rs_lvl s) (kR c) i) c')
  end.
Definition set_in0 (m : dag) (k x : key) : dag :=
  let g := dget m k in mset m k (DG (dg_id g) (dg_ty g) x (dg_in1 g) (dg_outs g)).
Definition set_in1 (m : dag) (k x : key) : dag :=
  let g := dget m k in mset m k (DG (dg_id g) (dg_ty g) (dg_in0 g) x (dg_outs g)).
(** parser_sha_data_parallel.cpp:106-136; [m0] is sha256_dag_copy.  The level of an entry
    of the copy is that of the same entry of sha256_dag. *)
Definition add_relay (m0 : dag) (id0 id1 : key) (right : bool) (s : rstate) : outcome rstate :=
  if rs_lvl s id0 =? rs_lvl s id1 + 1 then Ok s
  else
    ' (pre, s) <- relays (Z.to_nat (rs_lvl s id0 - (rs_lvl s id1 + 1))) (rs_lvl s id1 + 1) (dg_id (dget m0 id1)) s ;;
    let k := dg_id (dget m0 id0) in
    Ok (RS (if right then set_in1 (rs_m s) k pre else set_in0 (rs_m s) k pre) (rs_lvl s) (rs_cnt s)).
(** parser_sha_data_parallel.cpp:183-266 *)
Definition relay_gate (m0 : dag) (e : key * dgate) (s : rstate) : outcome rstate :=
  let '(id, g) := e in
  match dg_ty g with
  | 0 | 1 | 7 | 8 | 9 =>
      s <- add_relay m0 id (dg_in0 g) false s ;; add_relay m0 id (dg_in1 g) true s
  | 3 => assert_ (rs_lvl s id =? 0) ;;; Ok s
  | 6 | 11 => add_relay m0 id (dg_in0 g) false s
  | 12 =>
      forz (snd (dg_in0 g)) (snd (dg_in1 g) + 1) (fun i s => assert_ (rs_lvl s (kV i) + 1 =? rs_lvl s id) ;;; Ok s) s
  | 13 => assert_ (key_eqb (dg_in0 g) (dg_in1 g)) ;;; add_relay m0 id (dg_in0 g) false s
  | _ => Ok s
  end.
Definition insert_relays (m : dag) (lvl : key -> Z) : outcome rstate := each (relay_gate m) m (RS m lvl 0).

(** ** Layers *)
Record sgate := SG { sg_ty : Z; sg_g : Z; sg_u : Z; sg_v : Z }.
Record slayer := SL { sl_gates : list sgate; sl_bits : Z; sl_pad : Z }.
(** parser_sha_data_parallel.cpp:285-290 (and 582-583): [while(lgc)] *)
Fixpoint halve (fuel : nat) (lgc full bits : Z) : outcome (Z * Z) :=
  if lgc =? 0 then Ok (full, bits)
  else match fuel with
       | O => NoFuel
       | S f => full <- int_op (full * 2) ;; halve f (lgc / 2) full (bits + 1)
       end.
(** Lines 267-276: the number of entries on each level *)
Definition count_levels (m : dag) (lvl : key -> Z) (n : nat) : outcome (list Z) :=
  each (fun e c => l <- idx (lvl (fst e)) ;; x <- rd c l ;; x <- int_op (x + 1) ;; wr c l x) m (repeat 0 n).
(** Lines 280-295: padding_num and bit_len of each level *)
Definition pad_level (c : Z) : outcome (Z * Z) :=
  ' (full, bits) <- halve 32 c 1 0 ;;
  Ok (full - c, if full - c =? 0 then bits - 1 else bits).
Fixpoint pad_levels (c : list Z) : outcome (list (Z * Z)) :=
  match c with
  | [] => Ok []
  | x :: r => p <- pad_level x ;; ps <- pad_levels r ;; Ok (p :: ps)
  end.
(** Lines 297-308: positions in the layers, in the order of the map *)
Definition number_levels (m : dag) (lvl : key -> Z) (n : nat) : outcome (list Z * (key -> Z)) :=
  each (fun e s => let '(c, pos) := s in
          l <- idx (lvl (fst e)) ;; x <- rd c l ;; x' <- int_op (x + 1) ;; c <- wr c l x' ;;
          Ok (c, fset pos (fst e) x)) m (repeat 0 n, fun _ => 0).
(** Lines 310-329: the gates; a missing entry of the copy has level and position 0 *)
Definition emit_gate (lvl pos : key -> Z) (e : key * dgate) (ls : list (list sgate)) : outcome (list (list sgate)) :=
  let '(id, g) := e in
  let v := if (dg_ty g =? 3) || (dg_ty g =? 10) || (dg_ty g =? 6) then 0 else pos (dg_in1 g) in
  l <- idx (lvl id) ;; row <- rd ls l ;;
  ls <- wr ls l (row ++ [SG (dg_ty g) (pos id) (pos (dg_in0 g)) v]) ;;
  assert_ ((lvl (dg_in0 g) + 1 =? lvl id) || (dg_ty g =? 3)) ;;;
  assert_ ((lvl (dg_in1 g) + 1 =? lvl id) || (dg_ty g =? 10) || (dg_ty g =? 6) || (dg_ty g =? 3)) ;;;
  Ok ls.
(** Lines 332-342: the dummy gates at the end of a layer of [c] gates *)
Definition pad_gates (c pad : Z) : list sgate :=
  map (fun j => SG 2 (c + Z.of_nat j) 0 0) (seq 0 (Z.to_nat pad)).
Fixpoint pad_layers (ls : list (list sgate)) (cs : list Z) (ps : list (Z * Z)) : list slayer :=
  match ls, cs, ps with
  | l :: ls, c :: cs, (pad, bits) :: ps => SL (l ++ pad_gates c pad) bits pad :: pad_layers ls cs ps
  | _, _, _ => []
  end.
Definition layers_of (m : dag) (lvl : key -> Z) (mx : Z) : outcome (list slayer) :=
  let n := Z.to_nat (mx + 1) in
  cnt <- count_levels m lvl n ;;
  ps <- pad_levels cnt ;;
  ' (c, pos) <- number_levels m lvl n ;;
  ls <- each (emit_gate lvl pos) m (repeat [] n) ;;
  Ok (pad_layers ls c ps).
(** parser_sha_data_parallel.cpp:140-343 *)
Definition dag_to_layered (m : dag) : outcome (list slayer) :=
  s <- levels m ;; r <- insert_relays m (ls_lvl s) ;; layers_of (rs_m r) (rs_lvl r) (ls_max s).

(** ** The wiring file *)
(** The used fields of a gate: layered_lvl = 1, the second component of input0 *)
Record rgate := RG { rg_pass : bool; rg_in : Z }.
Record rread := RR { rr_m : kmap rgate; rr_out : key -> Z; rr_min : Z; rr_cnt : Z; rr_rnd : nat }.
(** parser_sha_data_parallel.cpp:500-543; [rr_rnd] counts the calls of rand() *)
Definition read_rstmt (rnd : nat -> Z) (s : rstmt) (st : rread) : outcome rread :=
  match s with
  | RConst t c =>
      t <- read_int t ;; c <- read_ll c ;;
      Ok (RR (mset (rr_m st) (kV t) (RG false c)) (rr_out st) (rr_min st) (rr_cnt st) (rr_rnd st))
  | RIn t i =>
      t <- read_int t ;; _ <- read_ll i ;;
      Ok (RR (mset (rr_m st) (kV t) (RG false (rnd (rr_rnd st)))) (rr_out st) (rr_min st) (rr_cnt st) (S (rr_rnd st)))
  | ROut o a =>
      c <- int_op (rr_cnt st + 1) ;; o <- read_int o ;; a <- read_ll a ;;
      Ok (RR (rr_m st) (fset (rr_out st) (kV (cast_int a)) o) (Z.min (rr_min st) o) c (rr_rnd st))
  | RPass t a b =>
      t <- read_int t ;; a <- read_ll a ;; _ <- read_ll b ;;
      Ok (RR (mset (rr_m st) (kV t) (RG true a)) (rr_out st) (rr_min st) (rr_cnt st) (rr_rnd st))
  | RBad => AssertFail
  end.
Definition read_rstmts (rnd : nat -> Z) (w : list rstmt) : outcome rread :=
  each (read_rstmt rnd) w (RR [] (fun _ => 0) 1061109567 0 0).
(** Lines 552-563: positions of the gates; [n0] is sha256.layers[0].gates.size() *)
Definition number_rdl (s : rread) (ic : Z) (n0 : nat) : outcome (Z * (key -> Z)) :=
  each (fun e st => let '(c, pos) := st in
          if rg_pass (snd e)
          then
            x <- int_op (rr_out s (kV (snd (fst e))) - rr_min s) ;;
            Ok (c, fset pos (fst e) (cast_int (Z.quot x ic * Z.of_nat n0 + Z.rem x ic)))
          else c' <- int_op (c + 1) ;; Ok (c', fset pos (fst e) c))
       (rr_m s) (0, fun _ => 0).
(** Lines 565-593: the layer of constants with its padding *)
Definition rdl_inputs (s : rread) (pos : key -> Z) : outcome (list sgate) :=
  let l := map (fun e => SG 3 (pos (fst e)) (rg_in (snd e)) 0) (filter (fun e => negb (rg_pass (snd e))) (rr_m s)) in
  let n := Z.of_nat (length l) in
  ' (full, _) <- halve 32 n 1 0 ;;
  Ok (l ++ pad_gates n (full - n)).
(** Lines 597-626: the layer of relays; [None] is an uninitialised element *)
Definition rdl_relays (s : rread) (pos : key -> Z) (ic rep : Z) (n0 : nat) (pad : Z) : outcome (list (option sgate)) :=
  row <- each (fun e row =>
           if rg_pass (snd e)
           then i <- idx (pos (fst e)) ;; wr row i (Some (SG 10 (pos (fst e)) (pos (kV (rg_in (snd e)))) 0))
           else Ok row) (rr_m s) (repeat None (n0 * Z.to_nat rep)) ;;
  for_ (Z.to_nat rep) 0 (fun i row =>
    for_ (Z.to_nat pad) 0 (fun j row =>
      let id := cast_int (Z.of_nat i * Z.of_nat n0 + Z.of_nat j + ic) in
      k <- idx id ;; wr row k (Some (SG 2 id 0 0))) row) row.
(** parser_sha_data_parallel.cpp:491-627: both layers and repeat_num.  A division by
    [input_count = 0] and an access to layer 0 of no layers are undefined. *)
Definition read_rdl (rnd : nat -> Z) (w : list rstmt) (ic : Z) (L : list slayer) : outcome (list sgate * list (option sgate) * Z) :=
  s <- read_rstmts rnd w ;;
  L0 <- rd L 0 ;;
  (if ic =? 0 then UB else Ok tt) ;;;
  let rep := Z.quot (rr_cnt s) ic in
  assert_ (ic * rep =? rr_cnt s) ;;;
  let n0 := length (sl_gates L0) in
  ' (_, pos) <- number_rdl s ic n0 ;;
  l0 <- rdl_inputs s pos ;;
  l1 <- rdl_relays s pos ic rep n0 (sl_pad L0) ;;
  Ok (l0, l1, rep).

(** ** Output: parser_sha_data_parallel.cpp:629-705; [r0] is 1 (line 642) *)
Definition sgate_tokens (g : sgate) : list Z := [sg_ty g; sg_g g; sg_u g; sg_v g].
(** Lines 651-653.  For 0 the loop runs until log_rep overflows. *)
Fixpoint log_rep (fuel : nat) (tmp l : Z) : outcome Z :=
  if tmp =? 1 then Ok l
  else if tmp =? 0 then UB
  else match fuel with O => NoFuel | S f => log_rep f (tmp / 2) (l + 1) end.
Fixpoint cat_map {A B} (f : A -> outcome (list B)) (l : list A) : outcome (list B) :=
  match l with
  | [] => Ok []
  | x :: r => a <- f x ;; b <- cat_map f r ;; Ok (a ++ b)
  end.
Definition print_opt (o : option sgate) : outcome (list Z) := match o with Some g => Ok (sgate_tokens g) | None => UB end.
(** Lines 659-675: layer 0 of the program *)
Definition print_first (L : slayer) (rep : Z) : outcome (list Z) :=
  cat_map (fun r => cat_map (fun g =>
    s <- int_op (Z.of_nat r * Z.of_nat (length (sl_gates L))) ;;
    n <- int_op (sg_g g + s) ;;
    if sg_ty g =? 3 then Ok [10; n; n; 0]
    else if sg_ty g =? 2 then Ok [2; n; 0; 0] else AssertFail) (sl_gates L)) (seq 0 (Z.to_nat rep)).
(** Lines 682-699: a later layer; [p] is prev_block_size *)
Definition print_layer (p : nat) (L : slayer) (rep : Z) : outcome (list Z) :=
  cat_map (fun r => cat_map (fun g =>
    s <- int_op (Z.of_nat r * Z.of_nat (length (sl_gates L))) ;;
    n <- int_op (sg_g g + s) ;;
    q <- int_op (Z.of_nat r * Z.of_nat p) ;;
    if (sg_ty g =? 10) || (sg_ty g =? 6)
    then assert_ (sg_v g =? 0) ;;; Ok [sg_ty g; n; sg_u g + q; sg_v g]
    else Ok [sg_ty g; n; sg_u g + q; sg_v g + q]) (sl_gates L)) (seq 0 (Z.to_nat rep)).
Fixpoint print_layers (p : nat) (L : list slayer) (rep : Z) : outcome (list Z) :=
  match L with
  | [] => Ok []
  | l :: r =>
      n <- int_op (Z.of_nat (length (sl_gates l)) * rep) ;;
      a <- print_layer p l rep ;;
      b <- print_layers (length (sl_gates l)) r rep ;;
      Ok (n :: a ++ b)
  end.
Definition meta_line (flag rep lr : Z) (L : slayer) : list Z := [flag; Z.of_nat (length (sl_gates L)); rep; sl_bits L; lr].
Definition merge (r0 : Z) (l0 : list sgate) (l1 : list (option sgate)) (rep : Z) (L : list slayer) : outcome (list Z * list Z) :=
  t1 <- cat_map print_opt l1 ;;
  lr <- log_rep 32 rep 0 ;;
  L0 <- rd L 0 ;;
  n2 <- int_op (Z.of_nat (length (sl_gates L0)) * rep) ;;
  t2 <- print_first L0 rep ;;
  t3 <- print_layers (length (sl_gates L0)) (tl L) rep ;;
  Ok ([Z.of_nat (2 + length L); Z.of_nat (length l0)] ++ concat (map (fun g => [3; sg_g g; sg_u g; sg_v g]) l0) ++
      [Z.of_nat (length l1)] ++ t1 ++ [n2] ++ t2 ++ t3,
      [0; 0; r0; 0; 0] ++ meta_line 0 rep lr L0 ++ concat (map (meta_line 1 rep lr) L)).

(** parser_sha_data_parallel.cpp:707-720: the circuit file and the meta file *)
Definition compile_with (r0 : Z) (read : list stmt -> outcome (dag * Z)) (rnd : nat -> Z) (p : list stmt) (w : list rstmt) : outcome (list Z * list Z) :=
  ' (m, ic) <- read p ;;
  L <- dag_to_layered m ;;
  ' (l0, l1, rep) <- read_rdl rnd w ic L ;;
  merge r0 l0 l1 rep L.
Definition compile : (nat -> Z) -> list stmt -> list rstmt -> outcome (list Z * list Z) := compile_with 1 read_prog.

(** ** The compiler of the Lanczos test

    tests/lanczos/parser_sha_data_parallel.cpp is an older copy: it does not know EXPSUM and
    BIT (such lines are refused, line 432; no gate then has type 12 or 13), and the first line
    of the meta file is 0 0 0 0 0 (line 592). *)
Definition read_stmt_lanczos (s : stmt) (st : dag * Z) : outcome (dag * Z) :=
  match s with
  | Op OBit _ _ _ | Sum _ _ _ => AssertFail
  | _ => read_stmt s st
  end.
Definition compile_lanczos : (nat -> Z) -> list stmt -> list rstmt -> outcome (list Z * list Z) :=
  compile_with 0 (fun p => each read_stmt_lanczos p ([], 0)).
