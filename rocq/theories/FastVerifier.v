(** * Model of src/linear_gkr/verifier_fast_track.cpp (the verifier proper)

    The circuit loaders are in Loader.v.  The verifier talks to the prover
    through the record [prover_if], one field per member of class [prover] that
    [verify] uses, so that any prover (honest or not) can be plugged in.
    Randomness ([prime_field::random()]) is a stream [rnd : nat -> fe]; the
    verifier state carries the position of the next unread element. *)
From Coq Require Import ZArith List Bool Arith.
From Verif Require Import Base Limbs Field Poly Circuit FastProver.
Import ListNotations.
Open Scope nat_scope.

(** Members of [prover] called by [verify] (prover_fast_track.h:34-47). *)
Record prover_if (S : Type) := ProverIf {
  if_evaluate : S -> outcome (list fe * S);
  if_V_res : S -> list fe -> list fe -> list fe -> nat -> nat -> outcome (fe * S);
  if_sumcheck_init : S -> nat -> nat -> nat -> nat -> fe -> fe ->
                     list fe -> list fe -> list fe -> list fe -> outcome S;
  if_phase1_init : S -> outcome S;
  if_phase1_update : S -> fe -> nat -> outcome (quadratic_poly * S);
  if_phase2_init : S -> fe -> list fe -> list fe -> outcome S;
  if_phase2_update : S -> fe -> nat -> outcome (quadratic_poly * S);
  if_finalize : S -> fe -> outcome ((fe * fe) * S);
  if_v_u : S -> fe }.
Arguments if_evaluate {S}. Arguments if_V_res {S}. Arguments if_sumcheck_init {S}.
Arguments if_phase1_init {S}. Arguments if_phase1_update {S}. Arguments if_phase2_init {S}.
Arguments if_phase2_update {S}. Arguments if_finalize {S}. Arguments if_v_u {S}.

(** The prover of prover_fast_track.cpp as an instance. *)
Definition honest : prover_if prover := {|
  if_evaluate := evaluate;
  if_V_res := fun p o r out n m => x <- V_res o r out n m ;; Ok (x, p);
  if_sumcheck_init := fun p i lg lu lv a b r0 r1 o0 o1 => Ok (sumcheck_init p i lg lu lv a b r0 r1 o0 o1);
  if_phase1_init := sumcheck_phase1_init;
  if_phase1_update := sumcheck_phase1_update;
  if_phase2_init := sumcheck_phase2_init;
  if_phase2_update := sumcheck_phase2_update;
  if_finalize := sumcheck_finalize;
  if_v_u := p_v_u |}.

(** verifier_fast_track.h: the four equality tables of the verifier. *)
Record betas := Betas { b_g0 : list fe; b_g1 : list fe; b_u : list fe; b_v : list fe }.

(** ** Predicates *)
(** [(beta_g_r0[g] + beta_g_r1[g]) * beta_u[u] * beta_v[v]] *)
Definition pred_term (B : betas) (g : nat) (u v : Z) : outcome fe :=
  x0 <- rd (b_g0 B) g ;; x1 <- rd (b_g1 B) g ;;
  iu <- idx u ;; xu <- rd (b_u B) iu ;;
  iv <- idx v ;; xv <- rd (b_v B) iv ;;
  Ok (fe_mul (fe_mul (fe_add x0 x1) xu) xv).
(** The loop shared by lines 201-315 and 403-419: sum of [pred_term] over the
    gates of type [ty]; [chk] says whether [assert(v == 0)] is present. *)
Definition pred_loop (L : layer) (B : betas) (ty : Z) (chk : bool) : outcome fe :=
  for_ (2 ^ bit_length L) 0 (fun i ret =>
    gt <- rd (gates L) i ;;
    if (g_ty gt =? ty)%Z then
      assert_ (negb chk || (g_v gt =? 0)%Z) ;;;
      t <- pred_term B i (g_u gt) (g_v gt) ;;
      Ok (fe_add ret t)
    else Ok ret) (fe_of_int 0).
(** [ret.value = ret.value % mod; if(ret.value < 0) ...; return ret] *)
Definition finish (ret : fe) : fe := fix_neg (u512_mod ret).

(** verifier_fast_track.cpp:201-217 *)
Definition add_pred (L : layer) (B : betas) := x <- pred_loop L B 0 false ;; Ok (finish x).
(** verifier_fast_track.cpp:218-232 *)
Definition mult_pred (L : layer) (B : betas) := x <- pred_loop L B 1 false ;; Ok (finish x).
(** verifier_fast_track.cpp:234-247 *)
Definition not_pred (L : layer) (B : betas) := pred_loop L B 6 true.
(** verifier_fast_track.cpp:249-261 *)
Definition xor_pred (L : layer) (B : betas) := pred_loop L B 8 false.
(** verifier_fast_track.cpp:263-278 *)
Definition minus_pred (L : layer) (B : betas) := x <- pred_loop L B 7 false ;; Ok (finish x).
(** verifier_fast_track.cpp:280-295 *)
Definition NAAB_pred (L : layer) (B : betas) := x <- pred_loop L B 9 false ;; Ok (finish x).
(** verifier_fast_track.cpp:403-419 *)
Definition relay_pred (L : layer) (B : betas) := x <- pred_loop L B 10 true ;; Ok (finish x).
(** verifier_fast_track.cpp:297-315 *)
Definition sum_pred (L : layer) (B : betas) : outcome fe :=
  x <- for_ (2 ^ bit_length L) 0 (fun i ret =>
    gt <- rd (gates L) i ;;
    if (g_ty gt =? 5)%Z then
      forz (g_u gt) (g_v gt) (fun j ret =>
        x0 <- rd (b_g0 B) i ;; x1 <- rd (b_g1 B) i ;;
        xv <- rd (b_v B) 0 ;;
        ij <- idx j ;; xu <- rd (b_u B) ij ;;
        Ok (fe_add ret (fe_mul (fe_mul (fe_add x0 x1) xv) xu))) ret
    else Ok ret) (fe_of_int 0) ;;
  Ok (finish x).

(** ** Equality tables of the verifier *)
(** verifier_fast_track.cpp:325-337: one level of the tables for the output point. *)
Definition level_raw (r o : list fe) (i : nat) (t : list fe) : outcome (list fe) :=
  t <- for_ (2 ^ i) 0 (fun j t =>
    x <- rd t j ;; a <- rd r i ;; wr t (Nat.lor j (2 ^ i)) (u512_mod (u512_mul x a))) t ;;
  for_ (2 ^ i) 0 (fun j t =>
    x <- rd t j ;; b <- rd o i ;; wr t j (u512_mod (u512_mul x b))) t.
(** verifier_fast_track.cpp:341-353: one level of the tables for the input points. *)
Definition level_fe (r o : list fe) (i : nat) (t : list fe) : outcome (list fe) :=
  t <- for_ (2 ^ i) 0 (fun j t =>
    x <- rd t j ;; a <- rd r i ;; wr t (Nat.lor j (2 ^ i)) (fe_mul x a)) t ;;
  for_ (2 ^ i) 0 (fun j t =>
    x <- rd t j ;; b <- rd o i ;; wr t j (fe_mul x b)) t.
(** verifier_fast_track.cpp:317-354; the code fills the two tables of each pair
    in the same loop, here one after the other (they are separate arrays). *)
Definition beta_init (lg lu : nat) (alpha beta : fe) (r_0 r_1 r_u r_v o_0 o_1 o_u o_v : list fe)
    (B : betas) : outcome betas :=
  g0 <- wr (b_g0 B) 0 alpha ;;
  g1 <- wr (b_g1 B) 0 beta ;;
  ' (g0, g1) <- for_ lg 0 (fun i st =>
     let '(g0, g1) := st in
     g0 <- level_raw r_0 o_0 i g0 ;; g1 <- level_raw r_1 o_1 i g1 ;; Ok (g0, g1)) (g0, g1) ;;
  tu <- wr (b_u B) 0 (fe_of_int 1) ;;
  tv <- wr (b_v B) 0 (fe_of_int 1) ;;
  ' (tu, tv) <- for_ lu 0 (fun i st =>
     let '(tu, tv) := st in
     tu <- level_fe r_u o_u i tu ;; tv <- level_fe r_v o_v i tv ;; Ok (tu, tv)) (tu, tv) ;;
  Ok (Betas g0 g1 tu tv).

(** verifier_fast_track.cpp:356-367 *)
Definition direct_relay (depth bl : nat) (r_g r_u : list fe) : outcome fe :=
  if negb (depth =? 1) then Ok (fe_of_int 0)
  else for_ bl 0 (fun i ret =>
    g <- rd r_g i ;; u <- rd r_u i ;;
    Ok (fe_mul ret (fe_add (fe_sub (fe_sub (fe_of_int 1) g) u) (fe_mul (fe_mul (fe_of_int 2) g) u))))
    (fe_of_int 1).

(** verifier_fast_track.cpp:369-381 *)
Definition generate_randomness (rnd : nat -> fe) (pos size : nat) : list fe * nat :=
  (map (fun i => u512_mod (rnd (pos + i))) (seq 0 size), pos + size).

(** verifier_fast_track.cpp:383-401 *)
Definition V_in (r_0 one_minus_r_0 output_raw : list fe) (r_0_size output_size : nat) : outcome fe :=
  output <- copy_n output_raw output_size ;;
  output <- fold_table (fun x0 o x1 r => fe_add (fe_mul x0 o) (fe_mul x1 r))
              one_minus_r_0 r_0 r_0_size output_size output ;;
  ret <- rd output 0 ;;
  Ok (fix_neg (u512_mod ret)).

(** [one_minus[i] = field_element(1) - r[i]] for [i < n] *)
Definition one_minus (r : list fe) (n : nat) : outcome (list fe) :=
  for_ n 0 (fun i o => x <- rd r i ;; wr o i (fe_sub (fe_of_int 1) x)) (repeat fe_zero n).

(** ** The interactive protocol *)
(** Local variables of [verify] that live across layers, and the prover state. *)
Record vstate (S : Type) := VState {
  s_alpha : fe; s_beta : fe; s_sum : fe;
  s_r0 : list fe; s_r1 : list fe; s_o0 : list fe; s_o1 : list fe;
  s_B : betas; s_pos : nat; s_p : S }.
Arguments VState {S}. Arguments s_alpha {S}. Arguments s_beta {S}. Arguments s_sum {S}.
Arguments s_r0 {S}. Arguments s_r1 {S}. Arguments s_o0 {S}. Arguments s_o1 {S}.
Arguments s_B {S}. Arguments s_pos {S}. Arguments s_p {S}.

(** verifier_fast_track.cpp:480-495: phase 1 rounds. *)
Definition phase1_rounds {S} (I : prover_if S) (n : nat) (r_u : list fe) (sum : fe) (s : S)
  : outcome (fe * fe * S) :=
  for_ n 0 (fun j st =>
    let '(prev, sum, s) := st in
    ' (poly, s) <- if_phase1_update I s prev j ;;
    r <- rd r_u j ;;
    reject_if (fe_ne (fe_add (quadratic_eval poly (fe_of_int 0)) (quadratic_eval poly (fe_of_int 1))) sum) ;;;
    Ok (r, quadratic_eval poly r, s)) (fe_of_int 0, sum, s).

(** verifier_fast_track.cpp:505-521: phase 2 rounds; [zero_rv] is [i == 1]. *)
Definition phase2_rounds {S} (I : prover_if S) (n : nat) (zero_rv : bool) (relay : fe)
    (r_v : list fe) (sum : fe) (s : S) : outcome (fe * fe * list fe * S) :=
  for_ n 0 (fun j st =>
    let '(prev, sum, r_v, s) := st in
    r_v <- (if zero_rv then wr r_v j (fe_of_int 0) else Ok r_v) ;;
    ' (poly, s) <- if_phase2_update I s prev j ;;
    r <- rd r_v j ;;
    reject_if (fe_ne (fe_add (fe_add (quadratic_eval poly (fe_of_int 0)) (quadratic_eval poly (fe_of_int 1)))
                             (fe_mul relay (if_v_u I s))) sum) ;;;
    Ok (r, fe_add (quadratic_eval poly r) (fe_mul relay (if_v_u I s)), r_v, s))
    (fe_of_int 0, sum, r_v, s).

(** verifier_fast_track.cpp:540: the value the verifier computes itself. *)
Definition combine_preds (add_v mult_v not_v minus_v xor_v naab_v sum_v relay_v drv v_u v_v : fe) : fe :=
  fe_add (fe_add (fe_add (fe_add (fe_add (fe_add (fe_add (fe_add
    (fe_mul add_v (fe_add v_u v_v))
    (fe_mul (fe_mul mult_v v_u) v_v))
    (fe_mul drv v_u))
    (fe_mul not_v (fe_sub (fe_of_int 1) v_u)))
    (fe_mul minus_v (fe_sub v_u v_v)))
    (fe_mul xor_v (fe_sub (fe_add v_u v_v) (fe_mul (fe_mul (fe_of_int 2) v_u) v_v))))
    (fe_mul naab_v (fe_sub v_v (fe_mul v_u v_v))))
    (fe_mul sum_v v_u))
    (fe_mul relay_v v_u).

(** verifier_fast_track.cpp:458-568: one iteration of the layer loop. *)
Definition verify_layer {S} (I : prover_if S) (C : layered_circuit) (rnd : nat -> fe) (i : nat)
    (st : vstate S) : outcome (vstate S) :=
  L <- rd (circuit C) i ;;
  Lm <- rd (circuit C) (i - 1) ;;
  let bl := bit_length L in let blm := bit_length Lm in
  s <- if_sumcheck_init I (s_p st) i bl blm blm (s_alpha st) (s_beta st)
         (s_r0 st) (s_r1 st) (s_o0 st) (s_o1 st) ;;
  s <- if_phase1_init I s ;;
  let '(r_u, pos) := generate_randomness rnd (s_pos st) blm in
  let '(r_v, pos) := generate_randomness rnd pos blm in
  d0 <- direct_relay i bl (s_r0 st) r_u ;;
  d1 <- direct_relay i bl (s_r1 st) r_u ;;
  let drv := fe_add (fe_mul (s_alpha st) d0) (fe_mul (s_beta st) d1) in
  o_u <- one_minus r_u blm ;;
  o_v <- one_minus r_v blm ;;
  ' (prev, sum, s) <- phase1_rounds I blm r_u (s_sum st) s ;;
  s <- if_phase2_init I s prev r_u o_u ;;
  ' (prev, sum, r_v, s) <- phase2_rounds I blm (i =? 1) drv r_v sum s ;;
  ' ((v_u, v_v), s) <- if_finalize I s prev ;;
  B <- beta_init bl blm (s_alpha st) (s_beta st) (s_r0 st) (s_r1 st) r_u r_v
         (s_o0 st) (s_o1 st) o_u o_v (s_B st) ;;
  mult_v <- mult_pred L B ;;
  add_v <- add_pred L B ;;
  not_v <- not_pred L B ;;
  minus_v <- minus_pred L B ;;
  xor_v <- xor_pred L B ;;
  naab_v <- NAAB_pred L B ;;
  sum_v <- sum_pred L B ;;
  relay_v <- relay_pred L B ;;
  reject_if (fe_ne sum (combine_preds add_v mult_v not_v minus_v xor_v naab_v sum_v relay_v drv v_u v_v)) ;;;
  let alpha := u512_mod (rnd pos) in
  let beta := u512_mod (rnd (pos + 1)) in
  let sum := if negb (i =? 1) then fe_add (fe_mul alpha v_u) (fe_mul beta v_v) else v_u in
  Ok (VState alpha beta sum r_u r_v o_u o_v B (pos + 2) s).

(** verifier_fast_track.cpp:571-585: the public input vector. *)
Definition input_vector (L0 : layer) : outcome (list fe) :=
  for_ (2 ^ bit_length L0) 0 (fun g input =>
    gt <- rd (gates L0) g ;;
    if (g_ty gt =? 3)%Z then wr input g (fe_of_int (g_u gt))
    else if (g_ty gt =? 2)%Z then wr input g (fe_of_int 0)
    else AssertFail) (repeat fe_zero (2 ^ bit_length L0)).

(** verifier_fast_track.cpp:421-604. [RetFalse] is [return false]. *)
Definition verify_body {S} (I : prover_if S) (C : layered_circuit) (rnd : nat -> fe) (B0 : betas) (s0 : S)
  : outcome bool :=
  let d := total_depth C in
  ' (result, s) <- if_evaluate I s0 ;;
  let alpha := fe_of_int 1 in
  let beta := fe_of_int 0 in
  Lout <- rd (circuit C) (d - 1) ;;
  let blo := bit_length Lout in
  let '(r_0, pos) := generate_randomness rnd 0 blo in
  let '(r_1, pos) := generate_randomness rnd pos blo in
  o_0 <- one_minus r_0 blo ;;
  o_1 <- one_minus r_1 blo ;;
  ' (a_0, s) <- if_V_res I s o_0 r_0 result blo (2 ^ blo) ;;
  let a_0 := fe_mul alpha a_0 in
  (* for(int i = d - 1; i >= 1; --i) *)
  st <- for_ (d - 1) 0 (fun k st => verify_layer I C rnd (d - 1 - k) st)
     (VState alpha beta a_0 r_0 r_1 o_0 o_1 B0 pos s) ;;
  L0 <- rd (circuit C) 0 ;;
  input <- input_vector L0 ;;
  input_0 <- V_in (s_r0 st) (s_o0 st) input (bit_length L0) (2 ^ bit_length L0) ;;
  reject_if (fe_ne (s_sum st) input_0) ;;;
  Ok true.
Definition verify {S} (I : prover_if S) (C : layered_circuit) (rnd : nat -> fe) (B0 : betas) (s0 : S)
  : outcome bool :=
  match verify_body I C rnd B0 s0 with RetFalse => Ok false | o => o end.

(** The tables allocated by the loader (verifier_fast_track.cpp:121-124). *)
Definition init_betas (max_bit_length : nat) : betas :=
  let z := repeat fe_zero (2 ^ max_bit_length) in Betas z z z z.
(** The verifier run against the honest prover on a loaded circuit. *)
Definition max_bit_length (C : layered_circuit) : nat :=
  fold_right Nat.max 0 (map bit_length (circuit C)).
Definition run_fast_track (C : layered_circuit) (rnd : nat -> fe) : outcome bool :=
  verify honest C rnd (init_betas (max_bit_length C)) (init_prover C (max_bit_length C)).
