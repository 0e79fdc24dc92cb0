(** * The generator of the wiring file for a Merkle tree

    write_merkle_rdl of tests/SHA256/sha256gen.py:970-1173 with the options of
    tests/SHA256/build.sh for the files that build.py compiles: no padding, no randomized
    zero test.  The functions [alloc], [alloc1] and [allocs] are those of ShaGen.v; nothing
    but the inputs is written before the end. *)
From Coq Require Import ZArith List Bool Arith.
From Verif Require Import Base Program ShaGen.
Import ListNotations.
Open Scope Z_scope.

(** The variables of the loop over the blocks.  Hout and Hout_bits are kept as the finished
    layers and the current one, which is the last entry of the list in Python. *)
Record mst := MSt {
  m_layer : nat; m_idx : nat;
  m_hout : list (list (list Z)); m_hout_lay : list (list Z);
  m_bits : list (list (list (list Z))); m_bits_lay : list (list (list Z));
  m_blocks : list (list Z) }.
(** Lines 1042-1049: the next layer *)
Definition enter (n : nat) (s : mst) : mst :=
  if (m_idx s =? 2 ^ (n - m_layer s))%nat
  then MSt (S (m_layer s)) 0 (m_hout s ++ [m_hout_lay s]) [] (m_bits s ++ [m_bits_lay s]) [] (m_blocks s)
  else s.
(** Lines 1057-1066: W_0 .. W_15 *)
Definition block_words (s : mst) : gen (list Z) :=
  match m_layer s with
  | O => alloc 16
  | S l => prev <~ glift (rd (m_hout s) l) ;;
           x <~ glift (rd prev (2 * m_idx s)) ;; y <~ glift (rd prev (2 * m_idx s + 1)) ;; gret (x ++ y)
  end.
(** Lines 1073-1082: the bits of W_1 .. W_15 *)
Definition block_bits (s : mst) : gen (list Z) :=
  match m_layer s with
  | O => alloc (15 * 32)
  | S l => prev <~ glift (rd (m_bits s) l) ;;
           x <~ glift (rd prev (2 * m_idx s)) ;; y <~ glift (rd prev (2 * m_idx s + 1)) ;;
           gret (flat_map (firstn 32) (skipn 1 x ++ y))
  end.
(** Lines 1037-1123: one block *)
Definition merkle_block (n : nat) (K H init Hfin : list Z) (nblocks block : nat) (s0 : mst) : gen mst :=
  let s := enter n s0 in
  let is_last := (block =? nblocks - 1)%nat in
  w <~ block_words s ;;
  w' <~ alloc 48 ;;
  wb <~ block_bits s ;;
  wb' <~ alloc (48 * 34) ;;
  ho <~ (if is_last then gret [] else alloc 8) ;;
  hb <~ allocs 8 (alloc 33) ;;
  ae <~ alloc (35 * 64 * 2) ;;
  gret (MSt (m_layer s) (S (m_idx s)) (m_hout s) (m_hout_lay s ++ [ho]) (m_bits s) (m_bits_lay s ++ [hb])
    (m_blocks s ++ [zrange 0 34 ++ w ++ w' ++ wb ++ wb' ++ K ++ H ++ (if is_last then Hfin else ho) ++ concat hb ++ init ++ ae])).
(** Lines 974-1123: the inputs of all blocks *)
Definition merkle_blocks (n : nat) : gen (list (list Z)) :=
  let nblocks := (2 ^ (n + 1) - 1)%nat in
  K <~ allocs 64 alloc1 ;; H <~ allocs 8 alloc1 ;; init <~ alloc (6 * 32) ;; Hfin <~ allocs 8 alloc1 ;;
  s <~ gfor nblocks 0 (merkle_block n K H init Hfin nblocks) (MSt 0 0 [] [] [] [] []) ;;
  gret (m_blocks s).
(** Lines 1129-1168: the file.  [inv] are the inputs (public and private ones together, since
    there is no padding in between), [v] the next variable, [all] the inputs of the blocks. *)
Definition merkle_file (inv : list Z) (v : Z) (all : list Z) : list rstmt :=
  RConst 0 0 :: map (fun i => RConst i (4 * 2 ^ (i - 1))) (zrange 1 33) ++
  map (fun '(x, i) => RIn x i) (combine inv (zrange 34 (length inv))) ++
  map (fun '(x, t) => RPass t x x) (combine all (zrange v (length all))) ++
  map (fun '(t, o) => ROut o t) (combine (zrange v (length all)) (zrange (34 + Z.of_nat (length inv)) (length all))).
Definition merkle (n : nat) : outcome (list rstmt) :=
  assert_ (0 <? n)%nat ;;;
  ' (bks, (inv, _), v) <- merkle_blocks n 34 ;;
  lastb <- rd bks (length bks - 1) ;;
  let all := bks ++ [lastb] in
  assert_ (forallb (fun b => Z.of_nat (length b) =? 7226) all) ;;;
  Ok (merkle_file inv v (concat all)).
