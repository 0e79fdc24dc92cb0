(** * The stand-alone commitment of src/VPD/multivariate_test.cpp

    An earlier commitment to a multilinear polynomial given by its values on
    the cube; the key holds the equality weights of the secret point.  Groups
    and integers as in VpdGroup.  [(int)pow(2, i)] is exact below [2^31] and
    undefined from there on; [ceil(log2(n))] is the rounded-up logarithm.

    A vector of vectors that the code allocates first and fills row by row is
    built here by appending finished rows. *)
From Coq Require Import ZArith List Bool Arith.
From Verif Require Import Base Limbs Field Fp VpdGroup.
Import ListNotations.
Open Scope nat_scope.

(** multivariate_test.cpp:18: [#define P 254], the bits of a scalar. *)
Definition scalar_bits := 254.
(** multivariate_test.cpp:26 *)
Definition W_window := 2.
(** [(int)pow(2, i)] *)
Definition pow2_int (i : nat) : outcome nat := if i <? 31 then Ok (2 ^ i) else UB.

Record keyV := KeyV {
  kv_D : nat;
  kv_ga : F;
  kv_g1_pre : list F;
  kv_g2_pre : list F;
  kv_g1 : list (list F);      (** [pubs_g1] *)
  kv_g1a : list (list F);     (** [pubs_g1a] *)
  kv_g2 : list F;             (** [pubs_g2] *)
  kv_pre : list F;            (** [pubs_g1_pre[0][0]] *)
  kv_prea : list F;           (** [pubs_g1a_pre[0][0]] *)
  kv_pre2 : list (list F);    (** [pubs_g1_pre2] *)
  kv_pre2a : list (list F) }. (** [pubs_g1a_pre2] *)

(** multivariate_test.cpp:229-245: [vars]; the even entries may be negative. *)
Definition V_vars (D : nat) (s : list Z) : outcome (list (list Z)) :=
  for_ D 1 (fun i vars =>
    prev <- rd vars (i - 1) ;;
    row <- for_ (2 ^ (i - 1)) 0 (fun j row =>
      v <- rd prev j ;; si <- rd s (D - i) ;;
      row <- wr row (2 * j + 1) (Z.rem (v * si) P) ;;
      wr row (2 * j) (Z.rem (v * (1 - si)) P)) (repeat 0%Z (2 ^ i)) ;;
    Ok (vars ++ [row])) [[1%Z]].

(** multivariate_test.cpp:215-216 and 248-260: [pubs_g1] and [pubs_g1a]. *)
Definition V_pubs (D : nat) (g1_pre : list F) (a : Z) (g1a0 : F) (vars : list (list Z))
  : outcome (list (list F) * list (list F)) :=
  for_ D 1 (fun i st =>
    let '(g1, g1a) := st in
    prev <- rd g1 (i - 1) ;; preva <- rd g1a (i - 1) ;; vrow <- rd vars i ;;
    ' (row, rowa) <- for_ (2 ^ (i - 1)) 0 (fun j st =>
      let '(row, rowa) := st in
      v <- rd vrow (2 * j + 1) ;;
      let v := fix_neg_z v in
      x <- pre_exp g1_pre v ;;
      row <- wr row (2 * j + 1) x ;;
      y <- rd prev j ;;
      row <- wr row (2 * j) (Fsub y x) ;;
      xa <- pre_exp g1_pre (Z.rem (v * a) P) ;;
      rowa <- wr rowa (2 * j + 1) xa ;;
      ya <- rd preva j ;;
      rowa <- wr rowa (2 * j) (Fsub ya xa) ;;
      Ok (row, rowa)) (repeat F0 (2 ^ i), repeat F0 (2 ^ i)) ;;
    Ok (g1 ++ [row], g1a ++ [rowa])) ([[gen1]], [[g1a0]]).

(** multivariate_test.cpp:86-121: sums of the pairs of each level from the first on. *)
Definition V_pairs (D : nat) (g1 : list (list F)) : outcome (list (list F)) :=
  for_ D 1 (fun i pre =>
    row <- rd g1 i ;;
    sums <- for_ (2 ^ i / W_window) 0 (fun j sums =>
      x <- rd row (j * W_window) ;; y <- rd row (j * W_window + 1) ;;
      Ok (sums ++ [Fadd x y])) [] ;;
    Ok (pre ++ [sums])) [[]].

(** multivariate_test.cpp:189-275, with precompute_g1 (:38-53), precompute_pub
    (:55-83) and precompute_pub2 (:86-121); [a] and [s] are drawn by the code. *)
Definition V_keygen (D : nat) (a : Z) (s : list Z) : outcome keyV :=
  pow2_int D ;;;
  let g1_pre := doublings scalar_bits gen1 in
  let g2_pre := doublings scalar_bits gen2 in
  g1a0 <- gmulz gen1 a ;;
  ga <- gmulz gen2 a ;;
  vars <- V_vars D s ;;
  ' (g1, g1a) <- V_pubs D g1_pre a g1a0 vars ;;
  g2 <- for_ D 0 (fun i g2 => si <- rd s i ;; y <- gmulz gen2 si ;; Ok (g2 ++ [y])) [] ;;
  row0 <- rd g1 0 ;; x0 <- rd row0 0 ;;
  row0a <- rd g1a 0 ;; x0a <- rd row0a 0 ;;
  pre2 <- V_pairs D g1 ;; pre2a <- V_pairs D g1a ;;
  Ok (KeyV D ga g1_pre g2_pre g1 g1a g2 (doublings scalar_bits x0) (doublings scalar_bits x0a) pre2 pre2a).

(** multivariate_test.cpp:126-166 *)
Definition V_multi_scalar (pub pre : list F) (e : list Z) : outcome F :=
  for_ scalar_bits 0 (fun ii temp =>
    let i := scalar_bits - 1 - ii in
    temp <- for_ (length e / W_window) 0 (fun j temp =>
      e1 <- rd e (j * W_window + 1) ;; e0 <- rd e (j * W_window) ;;
      let selector := Nat.b2n (Z.testbit e1 (Z.of_nat i)) * 2 + Nat.b2n (Z.testbit e0 (Z.of_nat i)) in
      match selector with
      | 3 => x <- rd pre j ;; Ok (Fadd temp x)
      | 1 => x <- rd pub (j * 2) ;; Ok (Fadd temp x)
      | 2 => x <- rd pub (j * 2 + 1) ;; Ok (Fadd temp x)
      | _ => Ok temp
      end) temp ;;
    Ok (if i =? 0 then temp else gmul temp 2)) (gmul gen1 0).

(** multivariate_test.cpp:277-298 *)
Definition V_commit (K : keyV) (input : list Z) : outcome (F * F) :=
  let coeffs := map fix_neg_z input in
  let d := Nat.log2_up (length input) in
  pub <- rd (kv_g1 K) d ;; pre <- rd (kv_pre2 K) d ;;
  digest <- V_multi_scalar pub pre coeffs ;;
  puba <- rd (kv_g1a K) d ;; prea <- rd (kv_pre2a K) d ;;
  digesta <- V_multi_scalar puba prea coeffs ;;
  Ok (digest, digesta).

(** multivariate_test.cpp:301-310 *)
Definition V_check_commit (K : keyV) (digest digesta : F) : bool :=
  gt_eqb (pairing gen2 digesta) (pairing (kv_ga K) digest).

(** multivariate_test.cpp:316-325: the equality weights of [r]. *)
Definition V_products (r : list Z) : outcome (list Z) :=
  ' (products, _) <- for_ (length r) 0 (fun i st =>
    let '(products, index) := st in
    products <- for_ (2 ^ i) 0 (fun j products =>
      x <- rd products j ;; ri <- rd r i ;;
      products <- wr products (index + j) (Z.rem (x * ri) P) ;;
      x <- rd products j ;;
      wr products j (Z.rem (x * (1 - ri)) P)) products ;;
    Ok (products, index + 2 ^ i)) (upd (repeat 0%Z (2 ^ length r)) 0 1%Z, 1) ;;
  Ok products.
(** multivariate_test.cpp:327-335 *)
Definition V_answer (r input : list Z) : outcome Z :=
  products <- V_products r ;;
  ans <- for_ (length input) 0 (fun i ans =>
    x <- rd products i ;; c <- rd input i ;; Ok (ans + x * c)%Z) 0%Z ;;
  Ok (fix_neg_z (Z.rem ans P)).

(** multivariate_test.cpp:340-363: the quotients, lowest variable first.
    Shrinking [temp_coeffs] after a round is left out: later rounds read the
    kept part only. *)
Definition V_quotients (r input : list Z) : outcome (list Z) :=
  let n := length r in
  let tc := firstn (2 ^ n) input ++ repeat 0%Z (2 ^ n - length input) in
  ' (_, wc, _) <- for_ n 0 (fun i st =>
    let '(tc, wc, start_index) := st in
    ' (tc, wc) <- for_ (2 ^ (n - i - 1)) 0 (fun j st =>
      let '(tc, wc) := st in
      lo <- rd tc (2 * j) ;; hi <- rd tc (2 * j + 1) ;; ri <- rd r i ;;
      wc <- wr wc (start_index + j) (Z.rem (- lo + hi) P) ;;
      tc <- wr tc j (Z.rem (- lo * (ri - 1) + hi * ri) P) ;;
      Ok (tc, wc)) (tc, wc) ;;
    Ok (tc, wc, start_index + 2 ^ (n - i - 1))) (tc, repeat 0%Z (2 ^ n), 0) ;;
  Ok (map fix_neg_z wc).

(** [z.get_str().length()]: decimal digits, and one for a minus sign. *)
Fixpoint digits (fuel : nat) (z : Z) : nat :=
  match fuel with O => 1 | S f => if (z <? 10)%Z then 1 else S (digits f (z / 10)) end.
Definition str_length (z : Z) : nat :=
  (if (z <? 0)%Z then 1 else 0) + digits (Z.to_nat (Z.log2 (Z.abs z))) (Z.abs z).

(** multivariate_test.cpp:386-411: one term of the last witness. *)
Definition V_last_term (pre : list F) (temp1 : Z) (w : F) : outcome F :=
  if (temp1 =? 0)%Z then Ok w
  else
    let temp2 := (temp1 - P)%Z in
    if str_length temp1 <? str_length temp2 then x <- pre_exp pre temp1 ;; Ok (Fadd w x)
    else x <- pre_exp pre (- temp2) ;; Ok (Fsub w x).

(** multivariate_test.cpp:366-411: the proof elements.  [witnessa[0]] keeps
    its default value unless there is one variable only.  With no variables
    [r.size()-1] wraps and [(int)pow(2, ...)] of it is undefined. *)
Definition V_witness (K : keyV) (n : nat) (wc : list Z) : outcome (list F * list F) :=
  if n =? 0 then UB else
  ' (w, wa, start_index) <- for_ (n - 1) 0 (fun i st =>
    let '(w, wa, start_index) := st in
    let l := n - i - 1 in
    temp_e <- for_ (2 ^ l) 0 (fun j e => x <- rd wc (start_index + j) ;; Ok (e ++ [x])) [] ;;
    pub <- rd (kv_g1 K) l ;; pre <- rd (kv_pre2 K) l ;;
    x <- V_multi_scalar pub pre temp_e ;;
    w <- wr w i x ;;
    wa <- (if i =? 0 then Ok wa else
             puba <- rd (kv_g1a K) l ;; prea <- rd (kv_pre2a K) l ;;
             xa <- V_multi_scalar puba prea temp_e ;; wr wa i xa) ;;
    Ok (w, wa, start_index + 2 ^ l)) (repeat F0 n, repeat F0 n, 0) ;;
  c <- rd wc start_index ;;
  x <- V_last_term (kv_pre K) c (gmul gen1 0) ;;
  xa <- V_last_term (kv_prea K) c (gmul gen1 0) ;;
  w <- wr w (n - 1) x ;; wa <- wr wa (n - 1) xa ;;
  Ok (w, wa).

(** multivariate_test.cpp:312-418 *)
Definition V_prove (K : keyV) (r input : list Z) : outcome (Z * list F * list F) :=
  pow2_int (length r) ;;;
  ans <- V_answer r input ;;
  wc <- V_quotients r input ;;
  ' (w, wa) <- V_witness K (length r) wc ;;
  Ok (ans, w, wa).

(** multivariate_test.cpp:420-470 *)
Definition V_verify (K : keyV) (r : list Z) (digest : F) (ans : Z) (w wa : list F) : outcome bool :=
  let n := length r in
  flag <- for_ n 0 (fun i flag =>
    if i =? 0 then Ok flag else
    xa <- rd wa i ;; x <- rd w i ;;
    Ok (flag && gt_eqb (pairing gen2 xa) (pairing (kv_ga K) x))) true ;;
  temp2 <- pre_exp (kv_g1_pre K) ans ;;
  let e1 := pairing gen2 (Fsub digest temp2) in
  e3 <- for_ n 0 (fun i e3 =>
    ii <- idx (Z.of_nat (kv_D K) - Z.of_nat n + Z.of_nat i) ;;
    y <- rd (kv_g2 K) ii ;; ri <- rd r i ;; t <- pre_exp (kv_g2_pre K) ri ;;
    x <- rd w i ;;
    Ok (Fadd e3 (pairing (Fsub y t) x))) F0 ;;
  Ok (flag && gt_eqb e1 e3).
