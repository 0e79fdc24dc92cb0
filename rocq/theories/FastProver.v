(** * Model of src/linear_gkr/prover_fast_track.cpp

    Timing code, [std::cerr] output and memory release are left out.  Arrays
    are lists; the pointer arguments [r_0], [one_minus_r_0], ... are passed as
    the lists they point to.  [1 << i] is [2 ^ i]; the overflow of [1 << i] on
    [int] for [i >= 31] is not modelled. *)
From Coq Require Import ZArith List Bool Arith.
From Verif Require Import Base Limbs Field Poly Circuit.
Import ListNotations.
Open Scope nat_scope.

(** [prime_field::mod] used in 512-bit expressions (implicit conversion). *)
Definition modv : u512 := u512_of_u256 mod_u.
(** [if(x.value < 0) x.value = x.value + mod] *)
Definition fix_neg (x : fe) : fe := if u512_lt x u512_zero then u512_add x modv else x.

(** prover_fast_track.h:12-33 *)
Record prover := Prover {
  p_v_u : fe; p_v_v : fe; p_total_uv : nat;
  p_C : layered_circuit;
  p_circuit_value : list (list fe);
  p_layer : nat; p_length_g : nat; p_length_u : nat; p_length_v : nat;
  p_alpha : fe; p_beta : fe;
  p_r_0 : list fe; p_r_1 : list fe; p_o_r_0 : list fe; p_o_r_1 : list fe;
  p_addV : list linear_poly; p_Vmult : list linear_poly; p_addmult : list linear_poly;
  p_beta_u : list fe; p_beta_g_sum : list fe;
  p_g0f : list fe; p_g0s : list fe; p_g1f : list fe; p_g1s : list fe;
  p_uf : list fe; p_us : list fe }.

Definition set_values (p : prover) (cv : list (list fe)) : prover :=
  Prover (p_v_u p) (p_v_v p) (p_total_uv p) (p_C p) cv (p_layer p) (p_length_g p) (p_length_u p)
    (p_length_v p) (p_alpha p) (p_beta p) (p_r_0 p) (p_r_1 p) (p_o_r_0 p) (p_o_r_1 p)
    (p_addV p) (p_Vmult p) (p_addmult p) (p_beta_u p) (p_beta_g_sum p)
    (p_g0f p) (p_g0s p) (p_g1f p) (p_g1s p) (p_uf p) (p_us p).
Definition set_arrays (p : prover) (n : nat) (V A M : list linear_poly) : prover :=
  Prover (p_v_u p) (p_v_v p) n (p_C p) (p_circuit_value p) (p_layer p) (p_length_g p) (p_length_u p)
    (p_length_v p) (p_alpha p) (p_beta p) (p_r_0 p) (p_r_1 p) (p_o_r_0 p) (p_o_r_1 p)
    A V M (p_beta_u p) (p_beta_g_sum p)
    (p_g0f p) (p_g0s p) (p_g1f p) (p_g1s p) (p_uf p) (p_us p).
Definition set_g_tables (p : prover) (g0f g0s g1f g1s gsum : list fe) : prover :=
  Prover (p_v_u p) (p_v_v p) (p_total_uv p) (p_C p) (p_circuit_value p) (p_layer p) (p_length_g p)
    (p_length_u p) (p_length_v p) (p_alpha p) (p_beta p) (p_r_0 p) (p_r_1 p) (p_o_r_0 p) (p_o_r_1 p)
    (p_addV p) (p_Vmult p) (p_addmult p) (p_beta_u p) gsum g0f g0s g1f g1s (p_uf p) (p_us p).
Definition set_u_tables (p : prover) (uf us bu : list fe) : prover :=
  Prover (p_v_u p) (p_v_v p) (p_total_uv p) (p_C p) (p_circuit_value p) (p_layer p) (p_length_g p)
    (p_length_u p) (p_length_v p) (p_alpha p) (p_beta p) (p_r_0 p) (p_r_1 p) (p_o_r_0 p) (p_o_r_1 p)
    (p_addV p) (p_Vmult p) (p_addmult p) bu (p_beta_g_sum p)
    (p_g0f p) (p_g0s p) (p_g1f p) (p_g1s p) uf us.
Definition set_v (p : prover) (vu vv : fe) : prover :=
  Prover vu vv (p_total_uv p) (p_C p) (p_circuit_value p) (p_layer p) (p_length_g p) (p_length_u p)
    (p_length_v p) (p_alpha p) (p_beta p) (p_r_0 p) (p_r_1 p) (p_o_r_0 p) (p_o_r_1 p)
    (p_addV p) (p_Vmult p) (p_addmult p) (p_beta_u p) (p_beta_g_sum p)
    (p_g0f p) (p_g0s p) (p_g1f p) (p_g1s p) (p_uf p) (p_us p).

(** prover_fast_track.cpp:147-162, [init_array]; [field_element()] is 0. The
    other members are in the state a fresh object has before use. *)
Definition init_prover (C : layered_circuit) (max_bit_length : nat) : prover :=
  let n := 2 ^ max_bit_length in
  let h := 2 ^ (Nat.shiftr max_bit_length 1 + 1) in
  let za := repeat fe_zero n in
  let zh := repeat fe_zero h in
  let zl := repeat linear_default n in
  Prover fe_zero fe_zero 0 C [] 0 0 0 0 fe_zero fe_zero [] [] [] [] zl zl zl za za zh zh zh zh zh zh.

(** Copy of the first [n] elements of an array (loops such as lines 12-13). *)
Definition copy_n (raw : list fe) (n : nat) : outcome (list fe) :=
  for_ n 0 (fun i out => x <- rd raw i ;; wr out i x) (repeat fe_zero n).

(** prover_fast_track.cpp:14-21: repeatedly replace [output[j]] by a combination
    [op output[2j] one_minus_r[i] output[2j+1] r[i]]. *)
Definition fold_table (op : fe -> fe -> fe -> fe -> fe) (one_minus_r_0 r_0 : list fe)
    (r_0_size output_size : nat) (output : list fe) : outcome (list fe) :=
  ' (output, _) <- for_ r_0_size 0 (fun i st =>
      let '(output, size) := st in
      output <- for_ (Nat.shiftr size 1) 0 (fun j output =>
         x0 <- rd output (Nat.shiftl j 1) ;;
         o <- rd one_minus_r_0 i ;;
         x1 <- rd output (Nat.lor (Nat.shiftl j 1) 1) ;;
         r <- rd r_0 i ;;
         wr output j (op x0 o x1 r)) output ;;
      Ok (output, Nat.shiftr size 1)) (output, output_size) ;;
  Ok output.

(** prover_fast_track.cpp:8-33 *)
Definition V_res (one_minus_r_0 r_0 output_raw : list fe) (r_0_size output_size : nat) : outcome fe :=
  output <- copy_n output_raw output_size ;;
  output <- fold_table (fun x0 o x1 r => u512_mod (u512_add (u512_mul x0 o) (u512_mul x1 r)))
              one_minus_r_0 r_0 r_0_size output_size output ;;
  res <- rd output 0 ;;
  Ok (fix_neg res).

(** prover_fast_track.cpp:53-106: the value of one gate from the previous layer. *)
Definition gate_value (prev : list fe) (ty u v : Z) : outcome fe :=
  match ty with
  | 0%Z => iu <- idx u ;; x <- rd prev iu ;; iv <- idx v ;; y <- rd prev iv ;; Ok (fe_add x y)
  | 1%Z => iu <- idx u ;; x <- rd prev iu ;; iv <- idx v ;; y <- rd prev iv ;; Ok (fe_mul x y)
  | 2%Z => Ok (fe_of_int 0)
  | 3%Z => Ok (fe_of_int u)
  | 4%Z => iu <- idx u ;; rd prev iu
  | 5%Z => forz u v (fun k acc => ik <- idx k ;; x <- rd prev ik ;; Ok (fe_add acc x)) (fe_of_int 0)
  | 6%Z => iu <- idx u ;; x <- rd prev iu ;; Ok (fe_sub (fe_of_int 1) x)
  | 7%Z => iu <- idx u ;; x <- rd prev iu ;; iv <- idx v ;; y <- rd prev iv ;; Ok (fe_sub x y)
  | 8%Z => iu <- idx u ;; x <- rd prev iu ;; iv <- idx v ;; y <- rd prev iv ;;
           Ok (fe_sub (fe_add x y) (fe_mul (fe_mul (fe_of_int 2) x) y))
  | 9%Z => iu <- idx u ;; x <- rd prev iu ;; iv <- idx v ;; y <- rd prev iv ;;
           Ok (fe_sub y (fe_mul x y))
  | 10%Z => iu <- idx u ;; rd prev iu
  | _ => AssertFail
  end.

(** prover_fast_track.cpp:38-48: the input layer. *)
Definition input_values (L : layer) : outcome (list fe) :=
  for_ (2 ^ bit_length L) 0 (fun g row =>
    gt <- rd (gates L) g ;;
    assert_ ((g_ty gt =? 3)%Z || (g_ty gt =? 2)%Z) ;;;
    wr row g (fe_of_int (g_u gt))) (repeat fe_zero (2 ^ bit_length L)).

(** prover_fast_track.cpp:52-108: one later layer. *)
Definition layer_values (L : layer) (prev : list fe) : outcome (list fe) :=
  for_ (2 ^ bit_length L) 0 (fun g row =>
    gt <- rd (gates L) g ;;
    x <- gate_value prev (g_ty gt) (g_u gt) (g_v gt) ;;
    wr row g x) (repeat fe_zero (2 ^ bit_length L)).

(** prover_fast_track.cpp:35-116; [circuit_value] holds the rows computed so far. *)
Definition evaluate (p : prover) : outcome (list fe * prover) :=
  let C := p_C p in
  L0 <- rd (circuit C) 0 ;;
  row0 <- input_values L0 ;;
  assert_ (Z.of_nat (total_depth C) <? 1000000)%Z ;;;
  cv <- for_ (total_depth C - 1) 1 (fun i cv =>
     L <- rd (circuit C) i ;;
     prev <- rd cv (i - 1) ;;
     row <- layer_values L prev ;;
     Ok (cv ++ [row])) [row0] ;;
  ret <- rd cv (total_depth C - 1) ;;
  Ok (ret, set_values p cv).

(** prover_fast_track.cpp:118-133 *)
Definition sumcheck_init (p : prover) (layer_id lg lu lv : nat) (a b : fe)
    (R_0 R_1 o_r_0 o_r_1 : list fe) : prover :=
  Prover (p_v_u p) (p_v_v p) (p_total_uv p) (p_C p) (p_circuit_value p) layer_id lg lu
    lv a b R_0 R_1 o_r_0 o_r_1
    (p_addV p) (p_Vmult p) (p_addmult p) (p_beta_u p) (p_beta_g_sum p)
    (p_g0f p) (p_g0s p) (p_g1f p) (p_g1s p) (p_uf p) (p_us p).

(** ** Equality tables *)
(** [t[j | (1 << i)] = t[j] * r[k] % mod; t[j] = t[j] * o[k] % mod] *)
Definition split_entry (t r o : list fe) (k i j : nat) : outcome (list fe) :=
  x <- rd t j ;; a <- rd r k ;;
  t <- wr t (Nat.lor j (2 ^ i)) (u512_mod (u512_mul x a)) ;;
  y <- rd t j ;; b <- rd o k ;;
  wr t j (u512_mod (u512_mul y b)).

(** prover_fast_track.cpp:202-211 and 213-222: two half tables for the
    coordinates [off .. off + n - 1]. *)
Definition half_tables2 (r0 o0 r1 o1 : list fe) (off n : nat) (t0 t1 : list fe) : outcome (list fe * list fe) :=
  for_ n 0 (fun i st =>
    for_ (2 ^ i) 0 (fun j st =>
      let '(t0, t1) := st in
      t0 <- split_entry t0 r0 o0 (i + off) i j ;;
      t1 <- split_entry t1 r1 o1 (i + off) i j ;;
      Ok (t0, t1)) st) (t0, t1).
(** prover_fast_track.cpp:388-395 and 397-404: one half table. *)
Definition half_table (r o : list fe) (off n : nat) (t : list fe) : outcome (list fe) :=
  for_ n 0 (fun i t => for_ (2 ^ i) 0 (fun j t => split_entry t r o (i + off) i j) t) t.

(** [(f0[i & mask] * s0[i >> h] + f1[i & mask] * s1[i >> h]) % mod] *)
Definition g_weight (f0 s0 f1 s1 : list fe) (h i : nat) : outcome fe :=
  let mask := 2 ^ h - 1 in
  a <- rd f0 (Nat.land i mask) ;; b <- rd s0 (Nat.shiftr i h) ;;
  c <- rd f1 (Nat.land i mask) ;; d <- rd s1 (Nat.shiftr i h) ;;
  Ok (u512_mod (u512_add (u512_mul a b) (u512_mul c d))).
(** [f[i & mask] * s[i >> h] % mod] *)
Definition u_weight (f s : list fe) (h i : nat) : outcome fe :=
  let mask := 2 ^ h - 1 in
  a <- rd f (Nat.land i mask) ;; b <- rd s (Nat.shiftr i h) ;;
  Ok (u512_mod (u512_mul a b)).

(** [l[i].b.value = f (l[i].b.value)] *)
Definition upd_b (l : list linear_poly) (i : nat) (f : fe -> fe) : outcome (list linear_poly) :=
  x <- rd l i ;; wr l i (LinearPoly (l_a x) (f (l_b x))).

(** Common resets, lines 183-191 and 417-424: [V[i] = circuit_value[..][i]],
    the other two arrays zero on [0, n). *)
Definition reset_arrays (prev : list fe) (n : nat) (V A M : list linear_poly)
  : outcome (list linear_poly * list linear_poly * list linear_poly) :=
  let z := LinearPoly (fe_of_int 0) (fe_of_int 0) in
  for_ n 0 (fun i st =>
    let '(V, A, M) := st in
    x <- rd prev i ;;
    V <- wr V i (linear_of x) ;; A <- wr A i z ;; M <- wr M i z ;;
    Ok (V, A, M)) (V, A, M).

(** prover_fast_track.cpp:233-311: contribution of gate [i] in phase 1 to
    ([addV_array], [add_mult_sum]). [w k] is the weight table lookup. *)
Definition phase1_gate (w : nat -> outcome fe) (prev : list fe) (i : nat) (gt : gate)
    (st : list linear_poly * list linear_poly) : outcome (list linear_poly * list linear_poly) :=
  let '(A, M) := st in
  let u := g_u gt in let v := g_v gt in
  match g_ty gt with
  | 0%Z => tmp <- w i ;; iu <- idx u ;; iv <- idx v ;; y <- rd prev iv ;;
      A <- upd_b A iu (fun b => u512_mod (u512_add b (u512_mul y tmp))) ;;
      M <- upd_b M iu (fun b => u512_mod (u512_add b tmp)) ;;
      Ok (A, M)
  | 1%Z => tmp <- w i ;; iu <- idx u ;; iv <- idx v ;; y <- rd prev iv ;;
      M <- upd_b M iu (fun b => u512_mod (u512_add b (u512_mul y tmp))) ;;
      Ok (A, M)
  | 4%Z => iu <- idx u ;; tmp <- w iu ;;
      M <- upd_b M iu (fun b => u512_mod (u512_add b tmp)) ;;
      Ok (A, M)
  | 5%Z => tmp <- w i ;;
      M <- forz u v (fun j M =>
        ij <- idx j ;;
        upd_b M ij (fun b => let s := u512_add b tmp in
                             if u512_ge s modv then u512_sub s modv else s)) M ;;
      Ok (A, M)
  | 6%Z => tmp <- w i ;; iu <- idx u ;;
      M <- upd_b M iu (fun b => u512_mod (u512_sub (u512_add b modv) tmp)) ;;
      A <- upd_b A iu (fun b => u512_mod (u512_add b tmp)) ;;
      Ok (A, M)
  | 7%Z => tmp <- w i ;; iu <- idx u ;; iv <- idx v ;; y <- rd prev iv ;;
      A <- upd_b A iu (fun b => u512_mod (u512_sub (u512_add b modv) (u512_mod (u512_mul y tmp)))) ;;
      M <- upd_b M iu (fun b => u512_mod (u512_add b tmp)) ;;
      Ok (A, M)
  | 8%Z => tmp <- w i ;; iu <- idx u ;; iv <- idx v ;; y <- rd prev iv ;;
      A <- upd_b A iu (fun b => u512_mod (u512_add b (u512_mod (u512_mul tmp y)))) ;;
      M <- upd_b M iu (fun b => u512_mod (u512_sub (u512_add (u512_add b tmp) modv)
             (u512_mod (u512_mul (u512_mod (u512_mul (fe_of_int 2) y)) tmp)))) ;;
      Ok (A, M)
  | 9%Z => tmp <- w i ;; iu <- idx u ;; iv <- idx v ;; y <- rd prev iv ;;
      A <- upd_b A iu (fun b => u512_mod (u512_add b (u512_mod (u512_mul tmp y)))) ;;
      M <- upd_b M iu (fun b => u512_mod (u512_sub (u512_add b modv) (u512_mod (u512_mul y tmp)))) ;;
      Ok (A, M)
  | 10%Z => tmp <- w i ;; iu <- idx u ;;
      M <- upd_b M iu (fun b => u512_mod (u512_add b tmp)) ;;
      Ok (A, M)
  | _ => Ok (A, M)
  end.

(** prover_fast_track.cpp:177-321 *)
Definition sumcheck_phase1_init (p : prover) : outcome prover :=
  Lm <- rd (circuit (p_C p)) (p_layer p - 1) ;;
  L <- rd (circuit (p_C p)) (p_layer p) ;;
  prev <- rd (p_circuit_value p) (p_layer p - 1) ;;
  let total_uv := 2 ^ bit_length Lm in
  ' (V, A, M) <- reset_arrays prev total_uv (p_Vmult p) (p_addV p) (p_addmult p) ;;
  g0f <- wr (p_g0f p) 0 (p_alpha p) ;;
  g1f <- wr (p_g1f p) 0 (p_beta p) ;;
  g0s <- wr (p_g0s p) 0 (fe_of_int 1) ;;
  g1s <- wr (p_g1s p) 0 (fe_of_int 1) ;;
  let first_half := Nat.shiftr (p_length_g p) 1 in
  let second_half := p_length_g p - first_half in
  ' (g0f, g1f) <- half_tables2 (p_r_0 p) (p_o_r_0 p) (p_r_1 p) (p_o_r_1 p) 0 first_half g0f g1f ;;
  ' (g0s, g1s) <- half_tables2 (p_r_0 p) (p_o_r_0 p) (p_r_1 p) (p_o_r_1 p) first_half second_half g0s g1s ;;
  let w := g_weight g0f g0s g1f g1s first_half in
  gsum <- for_ (2 ^ p_length_g p) 0 (fun i gsum => x <- w i ;; wr gsum i x) (p_beta_g_sum p) ;;
  ' (A, M) <- for_ (2 ^ p_length_g p) 0 (fun i st =>
     gt <- rd (gates L) i ;; phase1_gate w prev i gt st) (A, M) ;;
  Ok (set_g_tables (set_arrays p total_uv V A M) g0f g0s g1f g1s gsum).

(** One entry of an in-place table update, lines 335-338 ([current_bit == 0]). *)
Definition bind_first (l : list linear_poly) (i : nat) : outcome (list linear_poly) :=
  z <- rd l (Nat.shiftl i 1) ;;
  cur <- rd l i ;;
  l <- wr l i (LinearPoly (l_a cur) (l_b z)) ;;
  o <- rd l (Nat.lor (Nat.shiftl i 1) 1) ;;
  cur <- rd l i ;;
  wr l i (LinearPoly (fe_sub (l_b o) (l_b cur)) (l_b cur)).
(** Lines 349-350: [(a1 * r + b1 - b + mod) % mod]. *)
Definition bind_next1 (r : fe) (l : list linear_poly) (i : nat) : outcome (list linear_poly) :=
  z <- rd l (Nat.shiftl i 1) ;;
  cur <- rd l i ;;
  l <- wr l i (LinearPoly (l_a cur) (u512_mod (u512_add (u512_mul (l_a z) r) (l_b z)))) ;;
  o <- rd l (Nat.lor (Nat.shiftl i 1) 1) ;;
  cur <- rd l i ;;
  wr l i (LinearPoly (u512_mod (u512_add (u512_sub (u512_add (u512_mul (l_a o) r) (l_b o)) (l_b cur)) modv))
                     (l_b cur)).
(** Lines 548-549 (phase 2): [(a1 * r + b1 + mod - b) % mod]. *)
Definition bind_next2 (r : fe) (l : list linear_poly) (i : nat) : outcome (list linear_poly) :=
  z <- rd l (Nat.shiftl i 1) ;;
  cur <- rd l i ;;
  l <- wr l i (LinearPoly (l_a cur) (u512_mod (u512_add (u512_mul (l_a z) r) (l_b z)))) ;;
  o <- rd l (Nat.lor (Nat.shiftl i 1) 1) ;;
  cur <- rd l i ;;
  wr l i (LinearPoly (u512_mod (u512_sub (u512_add (u512_add (u512_mul (l_a o) r) (l_b o)) modv) (l_b cur)))
                     (l_b cur)).

(** Lines 358-362: adding the contribution of entry [i] to the round polynomial. *)
Definition accumulate (V A M : list linear_poly) (i : nat) (ret : quadratic_poly) : outcome quadratic_poly :=
  v <- rd V i ;; a <- rd A i ;; m <- rd M i ;;
  Ok (QuadraticPoly
        (u512_mod (u512_add (q_a ret) (u512_mul (l_a m) (l_a v))))
        (u512_mod (u512_add (u512_add (u512_add (q_b ret) (u512_mul (l_a m) (l_b v)))
                                      (u512_mul (l_b m) (l_a v))) (l_a a)))
        (u512_mod (u512_add (u512_add (q_c ret) (u512_mul (l_b m) (l_b v))) (l_b a)))).

(** Lines 366-372 *)
Definition renormalise (x : fe) : fe := u512_mod (u512_add (u512_mod x) modv).

(** prover_fast_track.cpp:323-377 and 525-584; [next] is the rule used for [current_bit != 0]. *)
Definition sumcheck_update (next : fe -> list linear_poly -> nat -> outcome (list linear_poly))
    (p : prover) (previous_random : fe) (current_bit : nat) : outcome (quadratic_poly * prover) :=
  let zero := fe_of_int 0 in
  let bind_entry := if current_bit =? 0 then bind_first else next previous_random in
  let n := Nat.shiftr (p_total_uv p) 1 in
  ' (V, A, M, ret) <- for_ n 0 (fun i st =>
     let '(V, A, M, ret) := st in
     V <- bind_entry V i ;;
     A <- bind_entry A i ;;
     M <- bind_entry M i ;;
     ret <- accumulate V A M i ret ;;
     Ok (V, A, M, ret)) (p_Vmult p, p_addV p, p_addmult p, QuadraticPoly zero zero zero) ;;
  Ok (QuadraticPoly (renormalise (q_a ret)) (renormalise (q_b ret)) (renormalise (q_c ret)),
      set_arrays p n V A M).
Definition sumcheck_phase1_update := sumcheck_update bind_next1.
Definition sumcheck_phase2_update := sumcheck_update bind_next2.

(** prover_fast_track.cpp:428-517: contribution of gate [i] in phase 2.  [wu]
    and [wg] are the table lookups for [tmp_u] and [tmp_g]. *)
Definition phase2_gate (wu wg : nat -> outcome fe) (v_u : fe) (i : nat) (gt : gate)
    (st : list linear_poly * list linear_poly) : outcome (list linear_poly * list linear_poly) :=
  let '(A, M) := st in
  let u := g_u gt in let v := g_v gt in
  match g_ty gt with
  | 1%Z => iu <- idx u ;; tmp_u <- wu iu ;; tmp_g <- wg i ;; iv <- idx v ;;
      M <- upd_b M iv (fun b => u512_mod (u512_add b (u512_mul (u512_mod (u512_mul tmp_g tmp_u)) v_u))) ;;
      Ok (A, M)
  | 0%Z => iu <- idx u ;; tmp_u <- wu iu ;; tmp_g <- wg i ;; iv <- idx v ;;
      M <- upd_b M iv (fun b => u512_mod (u512_add b (u512_mul tmp_g tmp_u))) ;;
      A <- upd_b A iv (fun b => u512_mod (u512_add (u512_mul (u512_mod (u512_mul tmp_g tmp_u)) v_u) b)) ;;
      Ok (A, M)
  | 5%Z => tmp_g <- wg i ;;
      let tmp_g_vu := u512_mod (u512_mul tmp_g v_u) in
      A <- forz u v (fun j A =>
        ij <- idx j ;; tmp_u <- wu ij ;;
        upd_b A 0 (fun b => u512_mod (u512_add b (u512_mul tmp_g_vu tmp_u)))) A ;;
      Ok (A, M)
  | 6%Z => iu <- idx u ;; tmp_u <- wu iu ;; tmp_g <- wg i ;; iv <- idx v ;;
      A <- upd_b A iv (fun b => u512_mod (u512_sub
             (u512_add (u512_add b (u512_mod (u512_mul tmp_g tmp_u))) modv)
             (u512_mod (u512_mul (u512_mod (u512_mul tmp_g tmp_u)) v_u)))) ;;
      Ok (A, M)
  | 7%Z => iu <- idx u ;; tmp_u <- wu iu ;; tmp_g <- wg i ;; iv <- idx v ;;
      M <- upd_b M iv (fun b => u512_mod (u512_sub (u512_add b modv) (u512_mod (u512_mul tmp_g tmp_u)))) ;;
      A <- upd_b A iv (fun b => u512_mod (u512_add (u512_mul (u512_mod (u512_mul tmp_g tmp_u)) v_u) b)) ;;
      Ok (A, M)
  | 8%Z => iu <- idx u ;; tmp_u <- wu iu ;; tmp_g <- wg i ;; iv <- idx v ;;
      let tmp := u512_mod (u512_mul tmp_g tmp_u) in
      M <- upd_b M iv (fun b => u512_mod (u512_sub (u512_add (u512_add b tmp) modv)
             (u512_mod (u512_mul (u512_mod (u512_mul (fe_of_int 2) v_u)) tmp)))) ;;
      A <- upd_b A iv (fun b => u512_mod (u512_add b (u512_mod (u512_mul tmp v_u)))) ;;
      Ok (A, M)
  | 9%Z => iu <- idx u ;; tmp_u <- wu iu ;; tmp_g <- wg i ;; iv <- idx v ;;
      let tmp := u512_mod (u512_mul tmp_g tmp_u) in
      M <- upd_b M iv (fun b => u512_mod (u512_sub (u512_add (u512_add b tmp) modv)
             (u512_mod (u512_mul v_u tmp)))) ;;
      Ok (A, M)
  | 10%Z => iu <- idx u ;; tmp_u <- wu iu ;; tmp_g <- wg i ;; iv <- idx v ;;
      let tmp := u512_mod (u512_mul tmp_g tmp_u) in
      A <- upd_b A iv (fun b => u512_mod (u512_add b (u512_mul tmp v_u))) ;;
      assert_ (v =? 0)%Z ;;;
      Ok (A, M)
  | _ => Ok (A, M)
  end.

(** prover_fast_track.cpp:379-523 *)
Definition sumcheck_phase2_init (p : prover) (previous_random : fe) (r_u one_minus_r_u : list fe)
  : outcome prover :=
  V0 <- rd (p_Vmult p) 0 ;;
  let v_u := linear_eval V0 previous_random in
  let first_half := Nat.shiftr (p_length_u p) 1 in
  let second_half := p_length_u p - first_half in
  uf <- wr (p_uf p) 0 (fe_of_int 1) ;;
  us <- wr (p_us p) 0 (fe_of_int 1) ;;
  uf <- half_table r_u one_minus_r_u 0 first_half uf ;;
  us <- half_table r_u one_minus_r_u first_half second_half us ;;
  let wu := u_weight uf us first_half in
  bu <- for_ (2 ^ p_length_u p) 0 (fun i bu => x <- wu i ;; wr bu i x) (p_beta_u p) ;;
  Lm <- rd (circuit (p_C p)) (p_layer p - 1) ;;
  L <- rd (circuit (p_C p)) (p_layer p) ;;
  prev <- rd (p_circuit_value p) (p_layer p - 1) ;;
  let total_uv := 2 ^ bit_length Lm in
  let total_g := 2 ^ bit_length L in
  ' (V, A, M) <- reset_arrays prev total_uv (p_Vmult p) (p_addV p) (p_addmult p) ;;
  let wg := g_weight (p_g0f p) (p_g0s p) (p_g1f p) (p_g1s p) (Nat.shiftr (p_length_g p) 1) in
  ' (A, M) <- for_ total_g 0 (fun i st =>
     gt <- rd (gates L) i ;; phase2_gate wu wg v_u i gt st) (A, M) ;;
  Ok (set_v (set_u_tables (set_arrays p total_uv V A M) uf us bu) v_u (p_v_v p)).

(** prover_fast_track.cpp:585-589 *)
Definition sumcheck_finalize (p : prover) (previous_random : fe) : outcome ((fe * fe) * prover) :=
  V0 <- rd (p_Vmult p) 0 ;;
  let v_v := linear_eval V0 previous_random in
  Ok ((p_v_u p, v_v), set_v p (p_v_u p) v_v).
