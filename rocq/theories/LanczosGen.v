(** * The generator of the Lanczos filter test

    tests/lanczos/lanczos2.py, run by build.sh as "lanczos2.py ratio npixels".  Lines are
    statements (Program.v) instead of text; the generator monad is that of ShaGen.v.  The
    filter coefficients are computed with floating-point numbers (filter_coeffs, lines 12-30)
    and are a parameter here; for the ratio of the tests see [coeffs_16]. *)
From Coq Require Import ZArith List Bool Arith.
From Verif Require Import Base Program ShaGen.
Import ListNotations.
Open Scope Z_scope.

(** ** The program: print_pws, lines 32-75 *)
(** Lines 43-51; [ci] is coeffs_idx *)
Definition lanczos_muls (ci row : list Z) : gen (list Z) :=
  _ <~ glift (assert_ (length row =? length ci)%nat) ;;
  gmap (fun '(elm, c) => emit (fun t => Op OMul t elm c)) (combine row ci).
(** Lines 54-62: one level of the tree *)
Fixpoint add_level (ivals : list Z) : gen (list Z) :=
  match ivals with
  | x :: y :: r => t <~ emit (fun t => Op OAdd t x y) ;; ts <~ add_level r ;; gret (t :: ts)
  | _ => gret ivals
  end.
(** Lines 53-67.  The recursion ends unless [ivals] is empty; [fuel] is its length. *)
Fixpoint add_tree (fuel : nat) (ivals : list Z) : gen Z :=
  match fuel with
  | O => glift NoFuel
  | S f => outs <~ add_level ivals ;; match outs with [x] => gret x | _ => add_tree f outs end
  end.
Definition print_add_tree (ivals : list Z) : gen Z := add_tree (length ivals) ivals.
(** Lines 39-40 *)
Definition coeffs_idx (ratio : nat) : list Z :=
  let l := zrange (Z.of_nat (16 * ratio ^ 2)) (2 * ratio) in rev l ++ l.
(** Lines 69-78 *)
Definition lanczos_row (ratio xidx : nat) : gen Z :=
  ovals <~ lanczos_muls (coeffs_idx ratio) (zrange (Z.of_nat (4 * ratio * xidx)) (4 * ratio)) ;; print_add_tree ovals.
Definition lanczos_sums (ratio : nat) : gen Z :=
  outs <~ gmap (lanczos_row ratio) (seq 0 (4 * ratio)) ;;
  _ <~ glift (assert_ (length outs =? 4 * ratio)%nat) ;;
  ovals <~ lanczos_muls (coeffs_idx ratio) outs ;; print_add_tree ovals.
Definition lanczos_program (ratio : nat) : outcome (list stmt) :=
  let v0 := (16 * ratio ^ 2 + 2 * ratio)%nat in
  ' (aval, (_, lines), voffset) <- lanczos_sums ratio (Z.of_nat v0) ;;
  Ok (map (fun i => SIn i i) (zrange 0 v0) ++ lines ++ [SOut voffset aval]).

(** ** The wiring file: print_rdl, lines 80-121 *)
(** Lines 108-115: the variables that one block passes on *)
Definition lanczos_block (ratio npixels : nat) (xrep yrep : nat) : list Z :=
  flat_map (fun yoff => zrange (Z.of_nat (npixels * yoff + ratio * xrep)) (4 * ratio)) (seq (ratio * yrep) (4 * ratio)) ++
  zrange (Z.of_nat (npixels ^ 2)) (2 * ratio).
(** Lines 103-115: all blocks, with the assert of line 106 *)
Definition lanczos_blocks (ratio npixels n_reps : nat) : outcome (list Z) :=
  for_ n_reps 0 (fun xrep st => for_ n_reps 0 (fun yrep st =>
    assert_ (length st =? (16 * ratio ^ 2 + 2 * ratio) * (yrep + n_reps * xrep))%nat ;;;
    Ok (st ++ lanczos_block ratio npixels xrep yrep)) st) [].
(** Lines 80-121; n_inputs_subAC is 16 ratio^2 + 2 ratio, nbits its logarithm rounded up *)
Definition lanczos_wiring (ratio npixels : nat) (coeffs : list Z) : outcome (list rstmt) :=
  let n_reps := (1 + (npixels - 4 * ratio) / ratio)%nat in
  let n_inputs := (16 * ratio ^ 2 + 2 * ratio)%nat in
  let v0 := (npixels ^ 2 + 2 * ratio)%nat in
  assert_ (0 <? 2 ^ Nat.log2_up n_inputs - n_inputs)%nat ;;;
  assert_ (length coeffs =? 2 * ratio)%nat ;;;
  all <- lanczos_blocks ratio npixels n_reps ;;
  let n_out := (n_inputs * n_reps ^ 2)%nat in
  Ok (map (fun i => RIn i i) (zrange 0 (npixels ^ 2)) ++
      map (fun '(c, t) => RConst t c) (combine coeffs (zrange (Z.of_nat (npixels ^ 2)) (2 * ratio))) ++
      map (fun '(x, t) => RPass t x x) (combine all (zrange (Z.of_nat v0) (length all))) ++
      map (fun '(o, t) => ROut o t) (combine (zrange (Z.of_nat (v0 + length all)) n_out) (zrange (Z.of_nat v0) n_out))).
(** Lines 123-145: both files.  A ratio of 0 is a division by zero. *)
Definition lanczos_files (ratio npixels : nat) (coeffs : list Z) : outcome (list stmt * list rstmt) :=
  if (npixels <? 4 * ratio)%nat then ExitProg else
  if (ratio =? 0)%nat then UB else
  if negb (npixels mod ratio =? 0)%nat then ExitProg else
  p <- lanczos_program ratio ;; w <- lanczos_wiring ratio npixels coeffs ;; Ok (p, w).
(** filter_coeffs(16), lines 13-30: the numbers written for the ratio of build.sh *)
Definition coeffs_16 : list Z :=
  [4286316544; 4217831424; 4083220480; 3887202304; 3636461568; 3339517952; 3006136320; 2647195648;
   2273968128; 1897529344; 1528692736; 1177288704; 851705856; 559022080; 304283648; 90767360;
   -80084992; -208863232; -297664512; -349962240; -370475008; -364576768; -338231296; -297467904;
   -248053760; -195297280; -143851520; -97320960; -58589184; -29294592; -10158080; -1048576].
