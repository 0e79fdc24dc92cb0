(** * Model of src/linear_gkr/zk_prover.cpp (the sumcheck prover and the masks)

    Circuit evaluation is in ZkEval.v and the three commitment schemes in
    VpdR.v, VpdMask.v, VpdInput.v.  Conventions are those of FastProver.v; the
    members shared with class [prover] are kept in a [prover] record.
    [prime_field::random()] is a stream [fr : nat -> u512] of the values filled in
    by [u512b::random()], the numbers drawn with [mpz_urandomm] are a stream
    [zr : nat -> Z]; the state carries the positions of the next unread elements.
    The key material is global to the namespaces [vpdR], [vpd_test] and
    [input_vpd]; it is kept in the prover state, as the prover runs [KeyGen].
    Timing is left out. *)
From Coq Require Import ZArith List Bool Arith.
From Verif Require Import Base Limbs Field Fp Poly Circuit FastProver ZkEval VpdGroup VpdR VpdMask VpdInput.
Import ListNotations.
Open Scope nat_scope.

(** ** Members of zk_prover.h *)
(** zk_prover.h:68-72, 83: the mask polynomial ([maskpoly], [maskpoly_gmp],
    [maskpoly_sumc], [maskpoly_sumr], [rho], [r_f_mask_poly]). *)
Record mpart := MPart {
  m_poly : list fe; m_gmp : list Z; m_sumc : fe; m_sumr : fe; m_rho : fe; m_rf : Z }.
(** zk_prover.h:82-85: the value masks. *)
Record rpart := RPart {
  r_maskR : list fe; r_preR : list fe; r_rf : Z;
  r_sumcu : fe; r_sumcv : fe; r_preZu : fe; r_preZv : fe; r_Zu : fe; r_Zv : fe;
  r_preu1 : fe; r_prev1 : fe; r_Iuv : fe; r_prepreu1 : fe; r_preprev1 : fe;
  r_Rg1 : quadratic_poly; r_Rg2 : quadratic_poly; r_sumRc : quadratic_poly }.
(** zk_prover.h:83, 89-90: the committed input. *)
Record ipart := IPart {
  i_mpz : list Z; i_maskr_mpz : list Z; i_maskr : list fe; i_rf : Z; i_rf2 : Z }.
Record zprover := ZProver {
  z_p : prover; z_m : mpart; z_r : rpart; z_i : ipart;
  z_kR : keyR; z_kM : keyM; z_kI : keyI; z_pos : nat; z_zpos : nat }.

Definition set_p (z : zprover) (p : prover) : zprover :=
  ZProver p (z_m z) (z_r z) (z_i z) (z_kR z) (z_kM z) (z_kI z) (z_pos z) (z_zpos z).
Definition set_pmr (z : zprover) (p : prover) (m : mpart) (r : rpart) : zprover :=
  ZProver p m r (z_i z) (z_kR z) (z_kM z) (z_kI z) (z_pos z) (z_zpos z).
Definition set_m (z : zprover) (m : mpart) : zprover := set_pmr z (z_p z) m (z_r z).
Definition set_sums (m : mpart) (sumc sumr : fe) : mpart :=
  MPart (m_poly m) (m_gmp m) sumc sumr (m_rho m) (m_rf m).

(** A fresh object after [init_array], zk_prover.cpp:384-396: same arrays as
    prover_fast_track.cpp:147-162 without [beta_u] and [beta_g_sum]. *)
Definition init_zprover (C : layered_circuit) (max_bit_length : nat) : zprover :=
  let q0 := QuadraticPoly fe_zero fe_zero fe_zero in
  ZProver (init_prover C max_bit_length)
    (MPart [] [] fe_zero fe_zero fe_zero 0)
    (RPart (repeat fe_zero 6) (repeat fe_zero 6) 0 fe_zero fe_zero fe_zero fe_zero fe_zero fe_zero
       fe_zero fe_zero fe_zero fe_zero fe_zero q0 q0 q0)
    (IPart [] [] [] 0 0)
    (KeyR 0 [] [] F0 [] []) (KeyM 0 0 [] [] F0 [] []) (KeyI 0 0 [] [] F0 [] [] []) 0 0.

(** [x.to_gmp_class()] *)
Definition gmp (x : fe) : outcome Z := match fe_to_gmp x with Some z => Ok z | None => AssertFail end.
Fixpoint gmps (l : list fe) : outcome (list Z) :=
  match l with [] => Ok [] | x :: l => z <- gmp x ;; zs <- gmps l ;; Ok (z :: zs) end.
(** [n] successive values of the two streams. *)
Definition draw (fr : nat -> u512) (pos n : nat) : list fe :=
  map (fun i => u512_mod (fr (pos + i))) (seq 0 n).
Definition drawz (zr : nat -> Z) (pos n : nat) : list Z := map (fun i => zr (pos + i)) (seq 0 n).

(** ** Conditional reductions *)
(** [if(x >= mod_512) x = x + minus_mod_512] *)
Definition cred (x : fe) : fe := if u512_ge x mod_512 then u512_add x minus_mod_512 else x.
(** [if(x >= mod) x = x - mod] *)
Definition cred_sub (x : fe) : fe := if u512_ge x modv then u512_sub x modv else x.
(** [while(x >= m) x = step x].  The loop is given 8 steps; [NoFuel] if they do
    not suffice (they do for the operands the prover has, see ZkPhaseProofs.v). *)
Fixpoint while_ge (m : u512) (step : fe -> fe) (fuel : nat) (x : fe) : outcome fe :=
  if u512_ge x m then match fuel with O => NoFuel | S f => while_ge m step f (step x) end else Ok x.
(** [while(x >= mod_512) x = x + minus_mod_512] *)
Definition wred : fe -> outcome fe := while_ge mod_512 (fun x => u512_add x minus_mod_512) 8.
(** [while(x >= mod) x = x - mod] *)
Definition wred_sub : fe -> outcome fe := while_ge modv (fun x => u512_sub x modv) 8.
(** [l[i].b.value = f (l[i].b.value)] with a loop in [f]. *)
Definition upd_bo (l : list linear_poly) (i : nat) (f : fe -> outcome fe) : outcome (list linear_poly) :=
  x <- rd l i ;; b <- f (l_b x) ;; wr l i (LinearPoly (l_a x) b).

(** ** Circuit evaluation, V_res *)
(** zk_prover.cpp:54-152 *)
Definition zk_evaluate (z : zprover) : outcome (list fe * zprover) :=
  ' (ret, cv) <- zevaluate (p_C (z_p z)) ;;
  Ok (ret, set_p z (set_values (z_p z) cv)).
(** zk_prover.cpp:27-52 has the statements of prover_fast_track.cpp:8-33. *)
Definition zk_V_res := V_res.

Section Random.
Variables (fr : nat -> u512) (zr : nat -> Z).

(** ** Masks *)
(** zk_prover.cpp:179-220; the result is [digest_input], flattened. *)
Definition keygen_and_commit (z : zprover) (n : nat) : outcome (F * F * F * F * zprover) :=
  let q := z_zpos z in
  kI <- I_keygen n (zr q) (drawz zr (q + 1) (n + 1)) ;;
  let q := q + n + 2 in
  L0 <- rd (circuit (p_C (z_p z))) 0 ;;
  full <- shl_int (Z.of_nat n) ;;
  input <- for_ full 0 (fun g input =>
    gt <- rd (gates L0) g ;;
    if (g_ty gt =? 3)%Z then x <- gmp (fe_of_int (g_u gt)) ;; wr input g x
    else if (g_ty gt =? 2)%Z then x <- gmp (fe_of_int 0) ;; wr input g x
    else AssertFail) (repeat 0%Z (full + 1)) ;;
  let maskr := draw fr (z_pos z) 2 in
  maskr_mpz <- gmps maskr ;;
  let r_f := zr q in let r_f2 := zr (q + 1) in
  ' (input, (d, da, d2, d2a)) <- I_commit kI input maskr_mpz r_f r_f2 ;;
  Ok (d, da, d2, d2a,
      ZProver (z_p z) (z_m z) (z_r z) (IPart input maskr_mpz maskr r_f r_f2)
        (z_kR z) (z_kM z) kI (z_pos z + 2) (q + 2)).

(** zk_prover.cpp:222-232 *)
Definition prove_input (z : zprover) (R : list Z) (Zv : Z) : outcome (Z * list F * list F * zprover) :=
  let i := z_i z in let n := ki_n (z_kI z) in
  ' (ans, w, wa) <- I_prove (z_kI z) R (i_mpz i) (i_maskr_mpz i) (i_rf i) (i_rf2 i) Zv
                      (drawz zr (z_zpos z) n) ;;
  Ok (ans, w, wa, ZProver (z_p z) (z_m z) (z_r z) i (z_kR z) (z_kM z) (z_kI z) (z_pos z) (z_zpos z + n)).

(** zk_prover.cpp:156-177 *)
Definition generate_maskpoly_pre_rho (z : zprover) (length degree : nat) : outcome (F * F * zprover) :=
  let n := length * degree + 1 + 6 in
  let poly := draw fr (z_pos z) n in
  let q := z_zpos z in
  kM <- M_keygen length (zr q) (drawz zr (q + 1) (length + 1)) ;;
  let q := q + length + 2 in
  pg <- gmps poly ;;
  let r_f := zr q in
  ' (d, da) <- M_commit kM pg r_f ;;
  let m := MPart poly pg (m_sumc (z_m z)) (m_sumr (z_m z)) (m_rho (z_m z)) r_f in
  Ok (d, da, ZProver (z_p z) m (z_r z) (z_i z) (z_kR z) kM (z_kI z) (z_pos z + n) (q + 1)).

(** [x + x] repeated [n] times. *)
Definition dbl_n (n : nat) (x : fe) : fe := Nat.iter n (fun x => fe_add x x) x.

(** zk_verifier.cpp:914, [p -> rho = rho] *)
Definition set_rho (z : zprover) (rho : fe) : zprover :=
  let m := z_m z in
  set_m z (MPart (m_poly m) (m_gmp m) (m_sumc m) (m_sumr m) rho (m_rf m)).
(** zk_prover.cpp:234-248 *)
Definition generate_maskpoly_after_rho (z : zprover) (length degree : nat) : outcome zprover :=
  let m := z_m z in
  let k := length * degree in
  poly <- for_ (k + 1 + 6) 0 (fun i poly => x <- rd poly i ;; wr poly i (fe_mul x (m_rho m))) (m_poly m) ;;
  s <- rd poly k ;;
  s <- for_ (k + 1) 0 (fun j s => x <- rd poly (k - j) ;; Ok (fe_add s x)) s ;;
  s <- for_ 6 1 (fun i s => x <- rd poly (k + i) ;; Ok (fe_add s x)) s ;;
  let s := dbl_n (length - 1) s in
  Ok (set_m z (MPart poly (m_gmp m) s (fe_of_int 0) (m_rho m) (m_rf m))).

(** zk_prover.cpp:252-302, called at the end of zk_prover.cpp:365-381. *)
Definition generate_maskR (z : zprover) (layer_id : nat) : outcome (F * F * zprover) :=
  let q := z_zpos z in
  kR <- R_keygen (zr q) (zr (q + 1)) (zr (q + 2)) (zr (q + 3)) ;;
  let r := z_r z in
  mg <- gmps (r_maskR r) ;;
  let r_f := zr (q + 4) in
  ' (d, da) <- R_commit kR mg r_f ;;
  let pu := r_preu1 r in let pv := r_prev1 r in
  R0 <- rd (r_maskR r) 0 ;; R1 <- rd (r_maskR r) 1 ;; R2 <- rd (r_maskR r) 2 ;;
  R3 <- rd (r_maskR r) 3 ;; R4 <- rd (r_maskR r) 4 ;; R5 <- rd (r_maskR r) 5 ;;
  let Rg pt := QuadraticPoly R4 (fe_add R3 (fe_mul R5 pt))
                 (fe_add (fe_add R0 (fe_mul R1 pt)) (fe_mul (fe_mul R2 pt) pt)) in
  let Rg1 := Rg pu in let Rg2 := Rg pv in
  let sumR g := fe_add (fe_add (fe_add (q_a g) (q_b g)) (q_c g)) (q_c g) in
  let cu := fe_mul (fe_mul (p_alpha (z_p z)) (r_Zu r)) (sumR Rg1) in
  let cv := fe_mul (fe_mul (p_beta (z_p z)) (r_Zv r)) (sumR Rg2) in
  let one := fe_of_int 1 in
  ' (maskR, sumRc, pos) <-
    (if 1 <? layer_id then
       let l := draw fr (z_pos z) 6 in
       R0 <- rd l 0 ;; R1 <- rd l 1 ;; R2 <- rd l 2 ;; R3 <- rd l 3 ;; R4 <- rd l 4 ;; R5 <- rd l 5 ;;
       Ok (l, QuadraticPoly (fe_add R2 R2) (fe_add (fe_add R1 R1) R5)
                (fe_add (fe_add (fe_add R0 R0) R3) R4), z_pos z + 6)
     else if layer_id =? 1 then
       x0 <- rd (i_maskr (z_i z)) 0 ;; x1 <- rd (i_maskr (z_i z)) 1 ;;
       Ok (upd (upd (r_maskR r) 0 x0) 1 x1, QuadraticPoly (fe_of_int 0) x1 x0, z_pos z)
     else Ok (r_maskR r, r_sumRc r, z_pos z)) ;;
  Ok (d, da,
      ZProver (z_p z) (z_m z)
        (RPart maskR (r_maskR r) r_f cu cv (r_Zu r) (r_Zv r) one one pu pv one pu pv Rg1 Rg2 sumRc)
        (z_i z) kR (z_kM z) (z_kI z) pos (q + 5)).

(** zk_prover.cpp:365-381 *)
Definition zk_sumcheck_init (z : zprover) (layer_id lg lu lv : nat) (a b : fe)
    (R_0 R_1 o_r_0 o_r_1 : list fe) : outcome (F * F * zprover) :=
  generate_maskR (set_p z (sumcheck_init (z_p z) layer_id lg lu lv a b R_0 R_1 o_r_0 o_r_1)) layer_id.

(** zk_prover.cpp:304-317 *)
Definition prove_R (z : zprover) (R : list Z) : outcome (Z * list F * list F * zprover) :=
  input <- gmps (r_preR (z_r z)) ;;
  let q := z_zpos z in
  ' (ans, w, wa) <- R_prove (z_kR z) R input (r_rf (z_r z)) (zr q) (zr (q + 1)) ;;
  Ok (ans, w, wa, ZProver (z_p z) (z_m z) (z_r z) (z_i z) (z_kR z) (z_kM z) (z_kI z) (z_pos z) (q + 2)).
(** zk_prover.cpp:319-329 *)
Definition prove_mask (z : zprover) (R : list Z) : outcome (Z * list F * list F * zprover) :=
  let n := km_n (z_kM z) in let q := z_zpos z in
  ' (ans, w, wa) <- M_prove (z_kM z) R (m_gmp (z_m z)) (m_rf (z_m z)) (drawz zr q n) ;;
  Ok (ans, w, wa, ZProver (z_p z) (z_m z) (z_r z) (z_i z) (z_kR z) (z_kM z) (z_kI z) (z_pos z) (q + n)).
End Random.

(** ** Phase 1 *)
(** [f0[i & mask] * s0[i >> h] + f1[i & mask] * s1[i >> h]], not reduced. *)
Definition g_weight_raw (f0 s0 f1 s1 : list fe) (h i : nat) : outcome fe :=
  let mask := 2 ^ h - 1 in
  a <- rd f0 (Nat.land i mask) ;; b <- rd s0 (Nat.shiftr i h) ;;
  c <- rd f1 (Nat.land i mask) ;; d <- rd s1 (Nat.shiftr i h) ;;
  Ok (u512_add (u512_mul a b) (u512_mul c d)).

(** zk_prover.cpp:470-597: contribution of gate [i] in phase 1 to
    ([addV_array], [add_mult_sum]); [w] is the reduced, [wraw] the raw weight. *)
Definition zphase1_gate (w wraw : nat -> outcome fe) (prev : list fe) (i : nat) (gt : gate)
    (st : list linear_poly * list linear_poly) : outcome (list linear_poly * list linear_poly) :=
  let '(A, M) := st in
  let u := g_u gt in let v := g_v gt in
  match g_ty gt with
  | 0%Z => tmp <- w i ;; iu <- idx u ;; iv <- idx v ;; y <- rd prev iv ;;
      A <- upd_b A iu (fun b => u512_mod (u512_add b (u512_mul y tmp))) ;;
      M <- upd_b M iu (fun b => u512_mod (u512_add b tmp)) ;;
      Ok (A, M)
  | 1%Z => tmp <- w i ;; iu <- idx u ;; iv <- idx v ;; y <- rd prev iv ;;
      M <- upd_b M iu (fun b => u512_mod (u512_add b (u512_mul y tmp))) ;;
      Ok (A, M)
  | 5%Z => tmp <- w i ;;
      M <- forz u v (fun j M => ij <- idx j ;; upd_b M ij (fun b => cred (u512_add b tmp))) M ;;
      Ok (A, M)
  | 12%Z => tmp <- w i ;;
      ' (M, _) <- forz u (v + 1) (fun j st =>
        let '(M, tmp) := st in
        ij <- idx j ;;
        M <- upd_b M ij (fun b => cred (u512_add b tmp)) ;;
        Ok (M, cred (u512_add tmp tmp))) (M, tmp) ;;
      Ok (A, M)
  | 4%Z => iu <- idx u ;; tmp <- wraw iu ;;
      M <- upd_b M iu (fun b => u512_mod (u512_add b tmp)) ;;
      Ok (A, M)
  | 6%Z => tmp <- w i ;; iu <- idx u ;;
      M <- upd_bo M iu (fun b => wred (u512_sub (u512_add b modv) tmp)) ;;
      A <- upd_b A iu (fun b => cred (u512_add b tmp)) ;;
      Ok (A, M)
  | 7%Z => tmp <- w i ;; iu <- idx u ;; iv <- idx v ;; y <- rd prev iv ;;
      A <- upd_b A iu (fun b => u512_mod (u512_sub (u512_add b modv) (u512_mod (u512_mul y tmp)))) ;;
      M <- upd_b M iu (fun b => cred (u512_add b tmp)) ;;
      Ok (A, M)
  | 8%Z => tmp <- w i ;; iu <- idx u ;; iv <- idx v ;; y <- rd prev iv ;;
      let tmp_V := u512_mod (u512_mul tmp y) in
      let tmp_2V := cred (u512_add tmp_V tmp_V) in
      A <- upd_b A iu (fun b => cred (u512_add b tmp_V)) ;;
      M <- upd_bo M iu (fun b => wred (u512_sub (u512_add (u512_add b tmp) modv) tmp_2V)) ;;
      Ok (A, M)
  | 13%Z => tmp <- w i ;; iu <- idx u ;; iv <- idx v ;; y <- rd prev iv ;;
      let tmp_V := u512_mod (u512_mul tmp y) in
      M <- upd_bo M iu (fun b => wred_sub (u512_add (u512_sub (u512_add b modv) tmp_V) tmp)) ;;
      Ok (A, M)
  | 9%Z => tmp <- w i ;; iu <- idx u ;; iv <- idx v ;; y <- rd prev iv ;;
      let tmpV := u512_mod (u512_mul tmp y) in
      A <- upd_b A iu (fun b => u512_mod (u512_add b tmpV)) ;;
      M <- upd_bo M iu (fun b => wred (u512_sub (u512_add b modv) tmpV)) ;;
      A <- upd_bo A iu wred ;;
      Ok (A, M)
  | 10%Z => tmp <- w i ;; iu <- idx u ;;
      M <- upd_b M iu (fun b => cred (u512_add b tmp)) ;;
      Ok (A, M)
  | _ => Ok (A, M)
  end.

(** zk_prover.cpp:420-605 *)
Definition zphase1_init (p : prover) : outcome prover :=
  Lm <- rd (circuit (p_C p)) (p_layer p - 1) ;;
  L <- rd (circuit (p_C p)) (p_layer p) ;;
  prev <- rd (p_circuit_value p) (p_layer p - 1) ;;
  let total_uv := 2 ^ bit_length Lm in
  ' (V, A, M) <- reset_arrays prev total_uv (p_Vmult p) (p_addV p) (p_addmult p) ;;
  g0f <- wr (p_g0f p) 0 (p_alpha p) ;;
  g1f <- wr (p_g1f p) 0 (p_beta p) ;;
  g0s <- wr (p_g0s p) 0 (fe_of_int 1) ;;
  g1s <- wr (p_g1s p) 0 (fe_of_int 1) ;;
  let first_half := Nat.shiftr (p_length_g p) 1 in
  let second_half := p_length_g p - first_half in
  ' (g0f, g1f) <- half_tables2 (p_r_0 p) (p_o_r_0 p) (p_r_1 p) (p_o_r_1 p) 0 first_half g0f g1f ;;
  ' (g0s, g1s) <- half_tables2 (p_r_0 p) (p_o_r_0 p) (p_r_1 p) (p_o_r_1 p) first_half second_half g0s g1s ;;
  let w := g_weight g0f g0s g1f g1s first_half in
  let wraw := g_weight_raw g0f g0s g1f g1s first_half in
  ' (A, M) <- for_ (2 ^ p_length_g p) 0 (fun i st =>
     gt <- rd (gates L) i ;; zphase1_gate w wraw prev i gt st) (A, M) ;;
  Ok (set_g_tables (set_arrays p total_uv V A M) g0f g0s g1f g1s (p_beta_g_sum p)).
Definition zk_phase1_init (z : zprover) : outcome zprover :=
  p <- zphase1_init (z_p z) ;; Ok (set_p z p).

(** ** Round polynomials *)
(** zk_prover.cpp:613-645, 697-731, 1014-1053, 1100-1137: the loop over the
    tables, which is the one of prover_fast_track.cpp:326-364 ([mod_512] in place
    of [mod] in the differences). *)
Definition table_round (next : fe -> list linear_poly -> nat -> outcome (list linear_poly))
    (p : prover) (previous_random : fe) (current_bit : nat) : outcome (quadratic_poly * prover) :=
  let zero := fe_of_int 0 in
  let bind_entry := if current_bit =? 0 then bind_first else next previous_random in
  let n := Nat.shiftr (p_total_uv p) 1 in
  ' (V, A, M, ret) <- for_ n 0 (fun i st =>
     let '(V, A, M, ret) := st in
     V <- bind_entry V i ;;
     A <- bind_entry A i ;;
     M <- bind_entry M i ;;
     ret <- accumulate V A M i ret ;;
     Ok (V, A, M, ret)) (p_Vmult p, p_addV p, p_addmult p, QuadraticPoly zero zero zero) ;;
  Ok (ret, set_arrays p n V A M).

(** [x * (field_element(1) - r)] *)
Definition mul1m (x r : fe) : fe := fe_mul x (fe_sub (fe_of_int 1) r).

(** zk_prover.cpp:648-655, 734-742 (phase 1: [ph2 = false], [always = true]),
    1057-1065 (phase 2) and 1141-1148 (last round of phase 2: [always = true]). *)
Definition r_step (ph2 always : bool) (bit : nat) (prev : fe) (r : rpart) : rpart :=
  let pos := 0 <? bit in
  let Iuv := if always || pos then mul1m (r_Iuv r) prev else r_Iuv r in
  let cu := if pos then mul1m (r_sumcu r) prev else r_sumcu r in
  let cv := if pos then mul1m (r_sumcv r) prev else r_sumcv r in
  let Zu := if pos && negb ph2 then fe_mul (mul1m (r_Zu r) prev) prev else r_Zu r in
  let Zv := if pos && ph2 then fe_mul (mul1m (r_Zv r) prev) prev else r_Zv r in
  RPart (r_maskR r) (r_preR r) (r_rf r) cu cv (r_preZu r) (r_preZv r) Zu Zv (r_preu1 r) (r_prev1 r) Iuv
    (r_prepreu1 r) (r_preprev1 r) (r_Rg1 r) (r_Rg2 r) (r_sumRc r).
(** [ret.b = ret.b - maskR_sumcu - maskR_sumcv; ret.c = ret.c + maskR_sumcu + maskR_sumcv] *)
Definition r_add (r : rpart) (q : quadratic_poly) : quadratic_poly :=
  QuadraticPoly (q_a q) (fe_sub (fe_sub (q_b q) (r_sumcu r)) (r_sumcv r))
    (fe_add (fe_add (q_c q) (r_sumcu r)) (r_sumcv r)).

(** zk_prover.cpp:661-669: the degree 2 and 1 coefficients of variable [cur],
    each doubled [k] times. *)
Definition mask_low (poly : list fe) (cur k : nat) : outcome (fe * fe) :=
  x <- rd poly (2 * cur) ;; y <- rd poly (2 * cur + 1) ;; Ok (dbl_n k x, dbl_n k y).
(** zk_prover.cpp:763-773: the degree 5, 4, 3 coefficients, [h] being 1 or 4. *)
Definition mask_high (poly : list fe) (len h k : nat) : outcome (fe * fe * fe) :=
  x <- rd poly (len * 2 + h) ;; y <- rd poly (len * 2 + h + 1) ;; t <- rd poly (len * 2 + h + 2) ;;
  Ok (dbl_n k x, dbl_n k y, dbl_n k t).
(** [maskpoly_sumr + maskpoly[2 cur - 2] * r * r + maskpoly[2 cur - 1] * r] *)
Definition mask_sumr (poly : list fe) (cur : nat) (r sumr : fe) : outcome fe :=
  i2 <- idx (2 * Z.of_nat cur - 2) ;; i1 <- idx (2 * Z.of_nat cur - 1) ;;
  x <- rd poly i2 ;; y <- rd poly i1 ;;
  Ok (fe_add (fe_add sumr (fe_mul (fe_mul x r) r)) (fe_mul y r)).
Definition mulpow (n : nat) (c r : fe) : fe := Nat.iter n (fun x => fe_mul x r) c.
(** zk_prover.cpp:998-1001 and 1214-1217: the same for degrees 5, 4, 3. *)
Definition mask_sumr_high (poly : list fe) (len h : nat) (r sumr : fe) : outcome fe :=
  x <- rd poly (len * 2 + h) ;;
  let sumr := fe_add sumr (mulpow 5 x r) in
  y <- rd poly (len * 2 + h + 1) ;;
  let sumr := fe_add sumr (mulpow 4 y r) in
  t <- rd poly (len * 2 + h + 2) ;;
  Ok (fe_add sumr (mulpow 3 t r)).

(** zk_prover.cpp:661-682 and 1068-1085: [tmp1], [tmp2], [tmp3] and the updated
    [maskpoly_sumc], [maskpoly_sumr] for variable [cur]; [dosumr] says whether
    the part under [if(current_bit > 0)] is executed ([tmp3] stays 0 if not). *)
Definition mask_round (m : mpart) (lens cur : nat) (dosumr : bool) (prev : fe)
  : outcome (fe * fe * fe * mpart) :=
  let k := lens - cur in
  ' (tmp1, tmp2) <- mask_low (m_poly m) cur k ;;
  let sumc := fe_mul (fe_sub (fe_sub (m_sumc m) tmp1) tmp2) inv_2 in
  if dosumr then
    sumr <- mask_sumr (m_poly m) cur prev (m_sumr m) ;;
    Ok (tmp1, tmp2, dbl_n k sumr, set_sums m sumc sumr)
  else Ok (tmp1, tmp2, fe_zero, set_sums m sumc (m_sumr m)).
(** zk_prover.cpp:760-784 and 1163-1184: the same in the last round of a phase. *)
Definition mask_round5 (m : mpart) (lens cur h : nat) (dosumr : bool) (prev : fe)
  : outcome (fe * fe * fe * (fe * fe * fe) * mpart) :=
  let k := lens - cur in
  ' (tmp1, tmp2) <- mask_low (m_poly m) cur k ;;
  ' (tmp4, tmp5, tmp6) <- mask_high (m_poly m) (lens + 1) h k ;;
  let sumc := fe_mul (fe_sub (fe_sub (fe_sub (fe_sub (fe_sub (m_sumc m) tmp1) tmp2) tmp4) tmp5) tmp6) inv_2 in
  if dosumr then
    sumr <- mask_sumr (m_poly m) cur prev (m_sumr m) ;;
    Ok (tmp1, tmp2, dbl_n k sumr, (tmp4, tmp5, tmp6), set_sums m sumc sumr)
  else Ok (tmp1, tmp2, fe_zero, (tmp4, tmp5, tmp6), set_sums m sumc (m_sumr m)).

(** [(x.value + y.value) % mod] *)
Definition addm (x y : fe) : fe := u512_mod (u512_add x y).

(** zk_prover.cpp:609-691 *)
Definition zk_phase1_update (z : zprover) (prev : fe) (bit : nat) : outcome (quadratic_poly * zprover) :=
  ' (ret, p) <- table_round bind_next1 (z_p z) prev bit ;;
  let r := r_step false true bit prev (z_r z) in
  let ret := r_add r ret in
  ' (tmp1, tmp2, tmp3, m) <- mask_round (z_m z) (p_length_u p + p_length_v p) bit (0 <? bit) prev ;;
  Ok (QuadraticPoly (fe_add (q_a ret) tmp1) (fe_add (q_b ret) tmp2)
        (fe_add (fe_add (q_c ret) (m_sumc m)) tmp3),
      set_pmr z p m r).

(** zk_prover.cpp:747-758 and 1151-1162; [Zt] is [Zu] or [Zv], [ms] is
    [add_mult_sum[0]].  Result: the coefficients [d], [e], [f] and the new
    quadratic part. *)
Definition last_terms (S : quadratic_poly) (ms : linear_poly) (Zt : fe) (ret : quadratic_poly)
  : (fe * fe * fe) * quadratic_poly :=
  let a := q_a S in let b := q_b S in let c := q_c S in
  let d := l_a ms in let e := l_b ms in
  ((fe_mul (fe_mul (fe_sub (fe_of_int 0) a) d) Zt,
    fe_mul (fe_sub (fe_mul a (fe_sub d e)) (fe_mul b d)) Zt,
    fe_mul (fe_sub (fe_add (fe_mul a e) (fe_mul b (fe_sub d e))) (fe_mul c d)) Zt),
   QuadraticPoly
    (fe_add (q_a ret) (fe_mul (fe_add (fe_mul c (fe_sub d e)) (fe_mul b e)) Zt))
    (fe_add (q_b ret) (fe_mul (fe_mul c e) Zt))
    (q_c ret)).
(** The part of the last rounds after the table loop; [cur] is the variable
    number, [islast] the test [current_bit == length - 1]. *)
Definition lastbit_finish (z : zprover) (p : prover) (r : rpart) (Zt : fe) (islast : bool)
    (cur h : nat) (dosumr : bool) (prev : fe) (ret : quadratic_poly) : outcome (quintuple_poly * zprover) :=
  let ret := r_add r ret in
  ms <- (if islast then rd (p_addmult p) 0 else Ok linear_default) ;;
  let '((d, e, f), ret) :=
    if islast then last_terms (r_sumRc r) ms Zt ret else ((fe_of_int 0, fe_of_int 0, fe_of_int 0), ret) in
  ' (tmp1, tmp2, tmp3, (tmp4, tmp5, tmp6), m) <-
    mask_round5 (z_m z) (p_length_u p + p_length_v p) cur h dosumr prev ;;
  Ok (QuintuplePoly (fe_add d tmp4) (fe_add e tmp5) (fe_add f tmp6)
        (addm (q_a ret) tmp1) (addm (q_b ret) tmp2)
        (u512_mod (u512_add (u512_add (q_c ret) (m_sumc m)) tmp3)),
      set_pmr z p m r).
(** zk_prover.cpp:693-800 *)
Definition zk_phase1_lastbit (z : zprover) (prev : fe) (bit : nat) : outcome (quintuple_poly * zprover) :=
  ' (ret, p) <- table_round bind_next1 (z_p z) prev bit ;;
  let r := r_step false true bit prev (z_r z) in
  lastbit_finish z p r (r_Zu r) (bit + 1 =? p_length_u p) bit 1 (0 <? bit) prev ret.

(** ** Phase 2 *)
(** zk_prover.cpp:855-993: contribution of gate [i] in phase 2. *)
Definition zphase2_gate (wu wg : nat -> outcome fe) (v_u : fe) (i : nat) (gt : gate)
    (st : list linear_poly * list linear_poly) : outcome (list linear_poly * list linear_poly) :=
  let '(A, M) := st in
  let u := g_u gt in let v := g_v gt in
  match g_ty gt with
  | 1%Z => iu <- idx u ;; tmp_u <- wu iu ;; tmp_g <- wg i ;; iv <- idx v ;;
      M <- upd_b M iv (fun b => u512_mod (u512_add b (u512_mul (u512_mod (u512_mul tmp_g tmp_u)) v_u))) ;;
      Ok (A, M)
  | 0%Z => iu <- idx u ;; tmp_u <- wu iu ;; tmp_g <- wg i ;; iv <- idx v ;;
      let tmp_g_u := u512_mod (u512_mul tmp_g tmp_u) in
      M <- upd_b M iv (fun b => cred (u512_add b tmp_g_u)) ;;
      A <- upd_b A iv (fun b => u512_mod (u512_add (u512_mul tmp_g_u v_u) b)) ;;
      Ok (A, M)
  | 5%Z => iu <- idx u ;; _ <- wu iu ;; tmp_g <- wg i ;;
      let tmp_g_vu := u512_mod (u512_mul tmp_g v_u) in
      A <- forz u v (fun j A =>
        ij <- idx j ;; tmp_u <- wu ij ;;
        upd_b A 0 (fun b => u512_mod (u512_add b (u512_mul tmp_g_vu tmp_u)))) A ;;
      Ok (A, M)
  | 12%Z => tmp_g <- wg i ;;
      ' (A, _) <- forz u (v + 1) (fun j st =>
        let '(A, tmp_g_vu) := st in
        ij <- idx j ;; tmp_u <- wu ij ;;
        A <- upd_b A 0 (fun b => u512_mod (u512_add b (u512_mul tmp_g_vu tmp_u))) ;;
        Ok (A, cred (u512_add tmp_g_vu tmp_g_vu))) (A, u512_mod (u512_mul tmp_g v_u)) ;;
      Ok (A, M)
  | 6%Z => iu <- idx u ;; tmp_u <- wu iu ;; tmp_g <- wg i ;; iv <- idx v ;;
      let tmp_g_u := u512_mod (u512_mul tmp_g tmp_u) in
      A <- upd_b A iv (fun b => u512_mod (u512_sub (u512_add (u512_add b tmp_g_u) modv)
             (u512_mod (u512_mul tmp_g_u v_u)))) ;;
      Ok (A, M)
  | 7%Z => iu <- idx u ;; tmp_u <- wu iu ;; tmp_g <- wg i ;; iv <- idx v ;;
      let tmp := u512_mod (u512_mul tmp_g tmp_u) in
      M <- upd_bo M iv (fun b => wred (u512_sub (u512_add b modv) tmp)) ;;
      A <- upd_b A iv (fun b => u512_mod (u512_add (u512_mul tmp v_u) b)) ;;
      Ok (A, M)
  | 8%Z => iu <- idx u ;; tmp_u <- wu iu ;; tmp_g <- wg i ;; iv <- idx v ;;
      let tmp := u512_mod (u512_mul tmp_g tmp_u) in
      let tmp_v_u := u512_mod (u512_mul tmp v_u) in
      M <- upd_bo M iv (fun b => wred (u512_sub (u512_sub
             (u512_add (u512_add (u512_add b tmp) modv) modv) tmp_v_u) tmp_v_u)) ;;
      A <- upd_b A iv (fun b => cred (u512_add b tmp_v_u)) ;;
      Ok (A, M)
  | 13%Z => iu <- idx u ;; tmp_u <- wu iu ;; tmp_g <- wg i ;; iv <- idx v ;;
      let tmp := u512_mod (u512_mul tmp_g tmp_u) in
      let tmp_v_u := u512_mod (u512_mul tmp v_u) in
      M <- upd_bo M iv (fun b => wred_sub (u512_sub (u512_add b modv) tmp_v_u)) ;;
      A <- upd_b A iv (fun b => cred_sub (u512_add b tmp_v_u)) ;;
      Ok (A, M)
  | 9%Z => iu <- idx u ;; tmp_u <- wu iu ;; tmp_g <- wg i ;; iv <- idx v ;;
      let tmp := u512_mod (u512_mul tmp_g tmp_u) in
      M <- upd_bo M iv (fun b => wred (u512_sub (u512_add (u512_add b tmp) modv)
             (u512_mod (u512_mul v_u tmp)))) ;;
      Ok (A, M)
  | 10%Z => iu <- idx u ;; tmp_u <- wu iu ;; tmp_g <- wg i ;; iv <- idx v ;;
      let tmp := u512_mod (u512_mul tmp_g tmp_u) in
      A <- upd_b A iv (fun b => u512_mod (u512_add b (u512_mul tmp v_u))) ;;
      Ok (A, M)
  | _ => Ok (A, M)
  end.

(** zk_prover.cpp:813-994: the tables of phase 2, [v_u] being known. *)
Definition zphase2_tables (p : prover) (v_u : fe) (r_u one_minus_r_u : list fe) : outcome prover :=
  let first_half := Nat.shiftr (p_length_u p) 1 in
  let second_half := p_length_u p - first_half in
  uf <- wr (p_uf p) 0 (fe_of_int 1) ;;
  us <- wr (p_us p) 0 (fe_of_int 1) ;;
  uf <- half_table r_u one_minus_r_u 0 first_half uf ;;
  us <- half_table r_u one_minus_r_u first_half second_half us ;;
  let wu := u_weight uf us first_half in
  Lm <- rd (circuit (p_C p)) (p_layer p - 1) ;;
  L <- rd (circuit (p_C p)) (p_layer p) ;;
  prev <- rd (p_circuit_value p) (p_layer p - 1) ;;
  let total_uv := 2 ^ bit_length Lm in
  let total_g := 2 ^ bit_length L in
  ' (V, A, M) <- reset_arrays prev total_uv (p_Vmult p) (p_addV p) (p_addmult p) ;;
  let wg := g_weight (p_g0f p) (p_g0s p) (p_g1f p) (p_g1s p) (Nat.shiftr (p_length_g p) 1) in
  ' (A, M) <- for_ total_g 0 (fun i st =>
     gt <- rd (gates L) i ;; zphase2_gate wu wg v_u i gt st) (A, M) ;;
  Ok (set_v (set_u_tables (set_arrays p total_uv V A M) uf us (p_beta_u p)) v_u (p_v_v p)).

(** zk_prover.cpp:802-1005 *)
Definition zk_phase2_init (z : zprover) (prev : fe) (r_u one_minus_r_u : list fe) : outcome zprover :=
  let p := z_p z in let r := z_r z in let m := z_m z in
  V0 <- rd (p_Vmult p) 0 ;;
  let Zu := fe_mul (mul1m (r_Zu r) prev) prev in
  let v_u := fe_add (linear_eval V0 prev) (fe_mul Zu (quadratic_eval (r_sumRc r) prev)) in
  let r := RPart (r_maskR r) (r_preR r) (r_rf r) (mul1m (r_sumcu r) prev) (mul1m (r_sumcv r) prev)
             (r_preZu r) (r_preZv r) Zu (r_Zv r) prev (r_prev1 r) (mul1m (r_Iuv r) prev)
             (r_prepreu1 r) (r_preprev1 r) (r_Rg1 r) (r_Rg2 r) (r_sumRc r) in
  p <- zphase2_tables p v_u r_u one_minus_r_u ;;
  sumr <- mask_sumr (m_poly m) (p_length_u p) prev (m_sumr m) ;;
  sumr <- mask_sumr_high (m_poly m) (p_length_u p + p_length_v p + 1) 1 prev sumr ;;
  Ok (set_pmr z p (set_sums m (m_sumc m) sumr) r).

(** zk_prover.cpp:1010-1094 *)
Definition zk_phase2_update (z : zprover) (prev : fe) (bit : nat) : outcome (quadratic_poly * zprover) :=
  ' (ret, p) <- table_round bind_next2 (z_p z) prev bit ;;
  let r := r_step true false bit prev (z_r z) in
  let ret := r_add r ret in
  ' (tmp1, tmp2, tmp3, m) <-
    mask_round (z_m z) (p_length_u p + p_length_v p) (bit + p_length_u p) true prev ;;
  Ok (QuadraticPoly (addm (addm (q_a ret) tmp1) modv) (addm (addm (q_b ret) tmp2) modv)
        (addm (u512_mod (u512_add (u512_add (q_c ret) (m_sumc m)) tmp3)) modv),
      set_pmr z p m r).

(** zk_prover.cpp:1096-1196 *)
Definition zk_phase2_lastbit (z : zprover) (prev : fe) (bit : nat) : outcome (quintuple_poly * zprover) :=
  ' (ret, p) <- table_round bind_next2 (z_p z) prev bit ;;
  let r := r_step true true bit prev (z_r z) in
  lastbit_finish z p r (r_Zv r) (bit + 1 =? p_length_v p) (bit + p_length_u p) 4 true prev ret.

(** zk_prover.cpp:1231-1240 *)
Definition zk_finalize (z : zprover) (prev : fe) : outcome ((fe * fe) * zprover) :=
  let p := z_p z in let r := z_r z in
  V0 <- rd (p_Vmult p) 0 ;;
  let Zv := fe_mul (mul1m (r_Zv r) prev) prev in
  let v_v := fe_add (linear_eval V0 prev) (fe_mul Zv (quadratic_eval (r_sumRc r) prev)) in
  let r := RPart (r_maskR r) (r_preR r) (r_rf r) (r_sumcu r) (r_sumcv r) (r_preZu r) (r_preZv r)
             (r_Zu r) Zv (r_preu1 r) prev (mul1m (r_Iuv r) prev)
             (r_prepreu1 r) (r_preprev1 r) (r_Rg1 r) (r_Rg2 r) (r_sumRc r) in
  Ok ((p_v_u p, v_v), set_pmr z (set_v p (p_v_u p) v_v) (z_m z) r).

(** zk_prover.cpp:1198-1228 *)
Definition zk_finalround (z : zprover) (prev : fe) (cur : nat) (general : fe)
  : outcome (quadratic_poly * zprover) :=
  let p := z_p z in let r := z_r z in let m := z_m z in
  let co x y := fe_add (fe_mul (fe_mul (fe_mul (r_Iuv r) (r_preZu r)) x) (p_alpha p))
                       (fe_mul (fe_mul (fe_mul (r_Iuv r) (r_preZv r)) y) (p_beta p)) in
  let a := co (q_a (r_Rg1 r)) (q_a (r_Rg2 r)) in
  let b := fe_add (co (q_b (r_Rg1 r)) (q_b (r_Rg2 r))) general in
  let c := co (q_c (r_Rg1 r)) (q_c (r_Rg2 r)) in
  let lens := p_length_u p + p_length_v p in
  let k := lens - cur in
  ' (tmp1, tmp2) <- mask_low (m_poly m) cur k ;;
  let sumc := fe_mul (fe_sub (fe_sub (m_sumc m) tmp1) tmp2) inv_2 in
  sumr <- mask_sumr (m_poly m) cur prev (m_sumr m) ;;
  sumr <- mask_sumr_high (m_poly m) (lens + 1) 4 prev sumr ;;
  let tmp3 := dbl_n k sumr in
  Ok (QuadraticPoly (addm a tmp1) (addm b tmp2) (u512_mod (u512_add (u512_add c sumc) tmp3)),
      set_m z (set_sums m sumc sumr)).
