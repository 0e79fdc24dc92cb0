(** * The generator of the SHA-256 program

    tests/SHA256/sha256gen.py with the options of tests/SHA256/build.sh for the files that
    build.py compiles: -R (no randomized zero test: [randzero] is False), -P (no padding),
    -m n; [noconsts] is True in every case.  Lines are statements (Program.v) instead of text.

    A function that writes lines takes [voffset] and returns its result, the inputs it
    allocated, the lines it wrote, and the new [voffset].  A failing assert is
    [AssertFail]; an index or key that does not exist is [UB]. *)
From Coq Require Import ZArith List Bool Arith.
From Verif Require Import Base Program.
Import ListNotations.
Open Scope Z_scope.

Definition gen (A : Type) : Type := Z -> outcome (A * (list Z * list stmt) * Z).
Definition gret {A} (a : A) : gen A := fun v => Ok (a, ([], []), v).
Definition glift {A} (m : outcome A) : gen A := fun v => a <- m ;; Ok (a, ([], []), v).
Definition gbind {A B} (m : gen A) (k : A -> gen B) : gen B := fun v =>
  ' (a, (i, l), v) <- m v ;; ' (b, (i', l'), v) <- k a v ;; Ok (b, (i ++ i', l ++ l'), v).
Notation "x <~ m ;; k" := (gbind m (fun x => k)) (at level 61, m at next level, right associativity).
Notation "' p <~ m ;; k" := (gbind m (fun p => k)) (at level 61, p pattern, m at next level, right associativity).
(** Write a line that assigns the next variable: its number is the result. *)
Definition emit (f : Z -> stmt) : gen Z := fun v => Ok (v, ([], [f v]), v + 1).
(** [for x in l], collecting the results *)
Fixpoint gmap {A B} (f : A -> gen B) (l : list A) : gen (list B) :=
  match l with
  | [] => gret []
  | x :: r => y <~ f x ;; ys <~ gmap f r ;; gret (y :: ys)
  end.
(** [for i in range(start, start + n)] with a state *)
Fixpoint gfor {S : Type} (n start : nat) (f : nat -> S -> gen S) (s : S) : gen S :=
  match n with
  | O => gret s
  | Datatypes.S n' => s <~ f start s ;; gfor n' (Datatypes.S start) f s
  end.
(** [range(a, a + n)] *)
Fixpoint zrange (a : Z) (n : nat) : list Z := match n with O => [] | S n' => a :: zrange (a + 1) n' end.

(** ** Bitwise functions *)
(** sha256gen.py:14-33 *)
Definition write_ch (x y z : list Z) : gen (list Z) :=
  x_and_y <~ gmap (fun '(x, y) => emit (fun t => Op OMul t x y)) (combine x y) ;;
  nx_and_z <~ gmap (fun '(x, z) => emit (fun t => Op ONaab t x z)) (combine x z) ;;
  gmap (fun '(p, q) => emit (fun t => Op OXor t p q)) (combine x_and_y nx_and_z).
(** sha256gen.py:36-49 *)
Definition write_xors (x y z : list Z) : gen (list Z) :=
  x_xor_y <~ gmap (fun '(x, y) => emit (fun t => Op OXor t x y)) (combine x y) ;;
  gmap (fun '(p, z) => emit (fun t => Op OXor t p z)) (combine x_xor_y z).
(** sha256gen.py:52-69 *)
Definition write_maj (x y z : list Z) : gen (list Z) :=
  l <~ gmap (fun '(x, y, z) =>
         p <~ emit (fun t => Op OMul t x y) ;; q <~ emit (fun t => Op OMul t y z) ;;
         r <~ emit (fun t => Op OMul t x z) ;; gret (p, q, r)) (combine (combine x y) z) ;;
  write_xors (map (fun '(p, q, r) => p) l) (map (fun '(p, q, r) => q) l) (map (fun '(p, q, r) => r) l).
(** x[n:] + x[:n] *)
Definition rot (n : nat) (x : list Z) : list Z := skipn n x ++ firstn n x.
(** x[n:] + [0] * n *)
Definition shf (n : nat) (x : list Z) : list Z := skipn n x ++ repeat 0 n.
(** sha256gen.py:72-103 *)
Definition write_Sigma0 (x : list Z) : gen (list Z) := write_xors (rot 2 x) (rot 13 x) (rot 22 x).
Definition write_Sigma1 (x : list Z) : gen (list Z) := write_xors (rot 6 x) (rot 11 x) (rot 25 x).
Definition write_sigma0 (x : list Z) : gen (list Z) := write_xors (rot 7 x) (rot 18 x) (shf 3 x).
Definition write_sigma1 (x : list Z) : gen (list Z) := write_xors (rot 17 x) (rot 19 x) (shf 10 x).

(** ** Sums and tests *)
(** The assert of sha256gen.py:124-125 *)
Fixpoint consecutive (l : list Z) : bool :=
  match l with
  | x :: ((y :: _) as r) => (x + 1 =? y) && consecutive r
  | _ => true
  end.
(** sha256gen.py:123-128; ivals[0] of an empty list is an error *)
Definition do_addition (ivals : list Z) : gen Z :=
  _ <~ glift (assert_ (consecutive ivals)) ;;
  first <~ glift (rd ivals 0) ;;
  emit (fun t => Sum t first (last ivals 0)).
(** sha256gen.py:151-163 without a condition *)
Definition test_field_field (fval1 fval2 : Z) : gen Z := emit (fun t => Op OMinus t fval1 fval2).
Definition test_bitvec_field (bvals : list Z) (fval : Z) : gen Z :=
  bsum <~ do_addition bvals ;; test_field_field bsum fval.
(** sha256gen.py:165-174 *)
Definition verify_bits (ivals : list Z) : gen (list Z) := gmap (fun x => emit (fun t => Op OBit t x x)) ivals.
(** sha256gen.py:176-183 *)
Definition alloc1 : gen Z := fun v => Ok (v, ([v], []), v + 1).
Definition alloc (extent : nat) : gen (list Z) := fun v => Ok (zrange v extent, (zrange v extent, []), v + Z.of_nat extent).
Definition allocs {A} (n : nat) (m : gen A) : gen (list A) := gmap (fun _ => m) (repeat tt n).

(** ** One block: write_64_rounds *)
(** Step 1, sha256gen.py:488-567: the inputs *)
Record ins := Ins {
  i_W : list Z; i_Wb : list (list Z);   (* W_i, and the bits of W_1 .. W_63 *)
  i_K : list Z; i_H : list Z; i_Ho : list Z; i_Hb : list (list Z);
  i_a : list Z; i_b : list Z; i_c : list Z; i_e : list Z; i_f : list Z; i_g : list Z;
  i_ao : list (list Z); i_eo : list (list Z) }.
Definition block_ins : gen ins :=
  W <~ allocs 64 alloc1 ;; Wb1 <~ allocs 15 (alloc 32) ;; Wb2 <~ allocs 48 (alloc 34) ;;
  K <~ allocs 64 alloc1 ;; H <~ allocs 8 alloc1 ;; Ho <~ allocs 8 alloc1 ;; Hb <~ allocs 8 (alloc 33) ;;
  a <~ alloc 32 ;; b <~ alloc 32 ;; c <~ alloc 32 ;; e <~ alloc 32 ;; f <~ alloc 32 ;; g <~ alloc 32 ;;
  ao <~ allocs 64 (alloc 35) ;; eo <~ allocs 64 (alloc 35) ;;
  gret (Ins W (Wb1 ++ Wb2) K H Ho Hb a b c e f g ao eo).
(** W_i_bits[i][:32] *)
Definition w32 (I : ins) (i : nat) : outcome (list Z) := l <- rd (i_Wb I) (i - 1) ;; Ok (firstn 32 l).

(** Lines 583-591.  The dictionary has the keys 1 .. 63; Python 2 iterates over these in
    ascending order (it only matters for the numbers of the variables). *)
Definition check_words (I : ins) : gen (list Z * list Z) :=
  gfor 63 1 (fun idx '(bt, rt) =>
    l <~ glift (rd (i_Wb I) (idx - 1)) ;; tmp <~ verify_bits l ;;
    w <~ glift (rd (i_W I) idx) ;; t <~ test_bitvec_field (firstn 32 l) w ;;
    gret (bt ++ tmp, rt ++ [t])) ([], []).
(** Lines 593-596 *)
Definition check_bits (I : ins) : gen (list Z) :=
  l <~ gmap verify_bits (i_Hb I ++ [i_a I; i_b I; i_c I; i_e I; i_f I; i_g I] ++ i_ao I ++ i_eo I) ;; gret (concat l).
(** Lines 610-624 *)
Definition schedule (I : ins) (r : nat) : gen Z :=
  x <~ glift (w32 I (r - 15)) ;; s0b <~ write_sigma0 x ;;
  y <~ glift (w32 I (r - 2)) ;; s1b <~ write_sigma1 y ;;
  s0 <~ do_addition s0b ;; s1 <~ do_addition s1b ;;
  u <~ emit (fun t => Op OAdd t s0 s1) ;;
  w16 <~ glift (rd (i_W I) (r - 16)) ;; w7 <~ glift (rd (i_W I) (r - 7)) ;;
  u' <~ emit (fun t => Op OAdd t w16 w7) ;;
  wival <~ emit (fun t => Op OAdd t u' u) ;;
  l <~ glift (rd (i_Wb I) (r - 1)) ;; test_bitvec_field l wival.
(** The variables of a round; h_bits and d_bits are never used *)
Record rstate := RSt {
  r_a : list Z; r_b : list Z; r_c : list Z; r_e : list Z; r_f : list Z; r_g : list Z;
  f_a : Z; f_b : Z; f_c : Z; f_d : Z; f_e : Z; f_f : Z; f_g : Z; f_h : Z }.
(** Lines 629-687: the new state and the two tests *)
Definition round_ (I : ins) (r : nat) (s : rstate) : gen (rstate * list Z) :=
  S0b <~ write_Sigma0 (firstn 32 (r_a s)) ;;
  S1b <~ write_Sigma1 (firstn 32 (r_e s)) ;;
  Mb <~ write_maj (firstn 32 (r_a s)) (firstn 32 (r_b s)) (firstn 32 (r_c s)) ;;
  Cb <~ write_ch (firstn 32 (r_e s)) (firstn 32 (r_f s)) (firstn 32 (r_g s)) ;;
  S0 <~ do_addition S0b ;; S1 <~ do_addition S1b ;; M <~ do_addition Mb ;; C <~ do_addition Cb ;;
  t2 <~ emit (fun t => Op OAdd t S0 M) ;;
  t1_late <~ emit (fun t => Op OAdd t S1 C) ;;
  k <~ glift (rd (i_K I) r) ;; w <~ glift (rd (i_W I) r) ;;
  kiwi <~ emit (fun t => Op OAdd t k w) ;;
  dh <~ emit (fun t => Op OAdd t (f_d s) (f_h s)) ;;
  x <~ emit (fun t => Op OAdd t kiwi dh) ;;
  enext <~ emit (fun t => Op OAdd t x t1_late) ;;
  y <~ emit (fun t => Op OAdd t t2 (f_h s)) ;;
  y' <~ emit (fun t => Op OAdd t y kiwi) ;;
  anext <~ emit (fun t => Op OAdd t y' t1_late) ;;
  ao <~ glift (rd (i_ao I) r) ;; eo <~ glift (rd (i_eo I) r) ;;
  ta <~ test_bitvec_field ao anext ;;
  te <~ test_bitvec_field eo enext ;;
  fe' <~ do_addition (firstn 32 eo) ;;
  fa' <~ do_addition (firstn 32 ao) ;;
  gret (RSt ao (r_a s) (r_b s) eo (r_e s) (r_f s) fa' (f_a s) (f_b s) (f_c s) fe' (f_e s) (f_f s) (f_g s), [ta; te]).
(** Step 2 to 4, lines 569-698: the tests, round_tests followed by bit_tests (line 719) *)
Definition block_tests (I : ins) : gen (list Z) :=
  d_field <~ glift (rd (i_H I) 3) ;; h_field <~ glift (rd (i_H I) 7) ;;
  a_field <~ do_addition (i_a I) ;; b_field <~ do_addition (i_b I) ;; c_field <~ do_addition (i_c I) ;;
  e_field <~ do_addition (i_e I) ;; f_field <~ do_addition (i_f I) ;; g_field <~ do_addition (i_g I) ;;
  ' (bt1, rt1) <~ check_words I ;;
  bt2 <~ check_bits I ;;
  rt2 <~ gmap (fun '(x, y) => test_field_field x y)
    (combine [a_field; b_field; c_field; e_field; f_field; g_field] (firstn 3 (i_H I) ++ firstn 3 (skipn 4 (i_H I)))) ;;
  rt3 <~ gmap (fun '(b, h) => test_bitvec_field (firstn 32 b) h) (combine (i_Hb I) (i_Ho I)) ;;
  rt4 <~ gmap (schedule I) (seq 16 48) ;;
  ' (s, rt5) <~ gfor 64 0 (fun r '(s, ts) => ' (s, t) <~ round_ I r s ;; gret (s, ts ++ t))
    (RSt (i_a I) (i_b I) (i_c I) (i_e I) (i_f I) (i_g I) a_field b_field c_field d_field e_field f_field g_field h_field, []) ;;
  rt6 <~ gmap (fun '(x, h, b) => t <~ emit (fun t => Op OAdd t x h) ;; test_bitvec_field b t)
    (combine (combine [f_a s; f_b s; f_c s; f_d s; f_e s; f_f s; f_g s; f_h s] (i_H I)) (i_Hb I)) ;;
  gret ((rt1 ++ rt2 ++ rt3 ++ rt4 ++ rt5 ++ rt6) ++ bt1 ++ bt2).
(** Lines 483-719, with v_initial = 34: the tests, the inputs, the lines, and the next variable *)
Definition sha_run : outcome (list Z * (list Z * list stmt) * Z) := (I <~ block_ins ;; block_tests I) 34.
(** Step 6, lines 721-746 *)
Definition sha_program : outcome (list stmt) :=
  ' (ts, (inv, lines), v) <- sha_run ;;
  Ok (map (fun i => SIn i i) (zrange 0 34) ++ map (fun '(x, i) => SIn x i) (combine inv (zrange 34 (length inv))) ++
      lines ++ map (fun '(t, o) => SOut o t) (combine ts (zrange v (length ts)))).
