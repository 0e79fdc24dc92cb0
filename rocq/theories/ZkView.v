(** * What the verifier of the zk protocol sees

    [recording I] answers like the prover [I] and keeps a record of what it sends:
    the numbers (round polynomials, claimed values, opened values and the values
    the verifier reads from the prover object) and the group elements (public keys,
    commitments and witnesses, by their exponents). *)
From Coq Require Import ZArith List Bool Arith.
From Verif Require Import Base Limbs Field Fp MleSpec Poly Circuit SpecGkr Lazy SpecVpd VpdR VpdMask VpdInput SpecZk Transcript SoundProofs
  FastVerifier FastProverProofs FastVerifierProofs ZkProver ZkVerifier ZkIdeal.
Import ListNotations.
Open Scope nat_scope.

Definition vlog : Type := list Z * list F.
Definition say (l : vlog) (ns : list Z) (gs : list F) : vlog := (fst l ++ ns, snd l ++ gs).
Definition num (x : fe) : Z := val512 x.
Definition quad_nums (q : quadratic_poly) : list Z := map num [q_a q; q_b q; q_c q].
Definition quint_nums (q : quintuple_poly) : list Z := map num [p_a q; p_b q; p_c q; p_d q; p_e q; p_f q].

(** The public elements of the keys, which the prover makes. *)
Definition keyR_pub (K : keyR) : list F := kr_pub_g1 K ++ kr_pub_g2 K ++ [kr_g2a K].
Definition keyM_pub (K : keyM) : list F := km_pub_g1 K ++ km_pub_g2 K ++ [km_g2a K].
Definition keyI_pub (K : keyI) : list F := ki_pub_g1 K ++ ki_pub_g2 K ++ [ki_g2a K].
(** The calls that send something: zk_verifier.cpp:846-1224. *)
Definition recording {S} (I : zprover_if S) : zprover_if (S * vlog) := {|
  zi_evaluate := fun st => ' (row, s) <- zi_evaluate I (fst st) ;; Ok (row, (s, say (snd st) (map num row) []));
  zi_commit := fun st n => ' (a, b, c, d, s) <- zi_commit I (fst st) n ;; Ok (a, b, c, d, (s, say (snd st) [] ([a; b; c; d] ++ keyI_pub (zi_kI I s))));
  zi_V_res := fun st o r out n m => ' (x, s) <- zi_V_res I (fst st) o r out n m ;; Ok (x, (s, say (snd st) [num x] []));
  zi_sumcheck_init := fun st i bl b1 b2 al be r0 r1 o0 o1 =>
    ' (d, da, s) <- zi_sumcheck_init I (fst st) i bl b1 b2 al be r0 r1 o0 o1 ;; Ok (d, da, (s, say (snd st) [] ([d; da] ++ keyR_pub (zi_kR I s))));
  zi_pre_rho := fun st n k => ' (d, da, s) <- zi_pre_rho I (fst st) n k ;; Ok (d, da, (s, say (snd st) [] ([d; da] ++ keyM_pub (zi_kM I s))));
  zi_set_rho := fun st rho => (zi_set_rho I (fst st) rho, snd st);
  zi_after_rho := fun st n k => s <- zi_after_rho I (fst st) n k ;; Ok (s, say (snd st) [num (zi_sumc I s)] []);
  zi_sumc := fun st => zi_sumc I (fst st);
  zi_phase1_init := fun st => s <- zi_phase1_init I (fst st) ;; Ok (s, snd st);
  zi_phase1_update := fun st prev j => ' (q, s) <- zi_phase1_update I (fst st) prev j ;; Ok (q, (s, say (snd st) (quad_nums q) []));
  zi_phase1_lastbit := fun st prev j => ' (q, s) <- zi_phase1_lastbit I (fst st) prev j ;; Ok (q, (s, say (snd st) (quint_nums q) []));
  zi_phase2_init := fun st prev ru ou => s <- zi_phase2_init I (fst st) prev ru ou ;; Ok (s, snd st);
  zi_phase2_update := fun st prev j => ' (q, s) <- zi_phase2_update I (fst st) prev j ;; Ok (q, (s, say (snd st) (quad_nums q) []));
  zi_phase2_lastbit := fun st prev j => ' (q, s) <- zi_phase2_lastbit I (fst st) prev j ;; Ok (q, (s, say (snd st) (quint_nums q) []));
  zi_finalize := fun st prev => ' (vs, s) <- zi_finalize I (fst st) prev ;;
    Ok (vs, (s, say (snd st) [num (fst vs); num (snd vs); num (zi_v_u I s)] []));
  zi_finalround := fun st prev n x => ' (q, s) <- zi_finalround I (fst st) prev n x ;; Ok (q, (s, say (snd st) (quad_nums q) []));
  zi_prove_R := fun st r => ' (v, w, wa, s) <- zi_prove_R I (fst st) r ;; Ok (v, w, wa, (s, say (snd st) [v] (w ++ wa)));
  zi_prove_mask := fun st r => ' (v, w, wa, s) <- zi_prove_mask I (fst st) r ;;
    Ok (v, w, wa, (s, say (snd st) (v :: map num [zi_Iuv I s; zi_preZu I s; zi_preZv I s; zi_prepreu1 I s; zi_preprev1 I s]) (w ++ wa)));
  zi_prove_input := fun st r Z => ' (v, w, wa, s) <- zi_prove_input I (fst st) r Z ;;
    Ok (v, w, wa, (s, say (snd st) [num (zi_Zu I s); v] (w ++ wa)));
  zi_v_u := fun st => zi_v_u I (fst st); zi_Iuv := fun st => zi_Iuv I (fst st);
  zi_preZu := fun st => zi_preZu I (fst st); zi_preZv := fun st => zi_preZv I (fst st); zi_Zu := fun st => zi_Zu I (fst st);
  zi_prepreu1 := fun st => zi_prepreu1 I (fst st); zi_preprev1 := fun st => zi_preprev1 I (fst st);
  zi_kR := fun st => zi_kR I (fst st); zi_kM := fun st => zi_kM I (fst st); zi_kI := fun st => zi_kI I (fst st) |}.

(** The run up to the last message: zk_verifier.cpp:846-1197 (the statements of
    [zverify_body] and, at the end, those of [zverify_input] up to the answer). *)
Definition zview {S} (enc : F -> list Z) (rng : list msg -> nat -> outcome (list fe * list msg))
    (I : zprover_if S) (C : layered_circuit) (BB0 : zbetas * zbetas) (s0 : S) : outcome vlog :=
  let J := recording I in
  ' (dI, dI2, st) <- zverify_start enc rng J C BB0 (s0, ([], [])) ;;
  L0 <- rd (circuit C) 0 ;;
  st <- zverify_layers enc rng J C (total_depth C - 1) st ;;
  let n := bit_length L0 in
  r_0 <- gmps (firstn n (t_r0 st)) ;;
  _ <- gmps (firstn n (t_r1 st)) ;;
  let s := t_p st in
  Zu <- gmp (zi_Zu J s) ;;
  ' (ans, w, wa, s) <- zi_prove_input J s r_0 Zu ;;
  Ok (snd s).
(** The view of a verifier whose challenges are [v] in a run of the honest prover
    with the mask coefficients [ms] ([field_element] random values in the order they
    are drawn) and the exponents [zs] drawn with [mpz_class]. *)
Definition honest_view (enc : F -> list Z) (v : list F) (ms : list F) (zs : nat -> Z) (C : layered_circuit) : outcome vlog :=
  let m := max_bit_length C in
  zview enc (tape v) (zhonest (fun k => fe_of (nth k ms 0%F)) zs) C (init_zbetas m, init_zbetas m) (init_zprover C m).

(** ** Circuits that differ in the input only *)
(** Same layers above the input, input layers of the same size. *)
Record twins (C C' : layered_circuit) : Prop := {
  tw_depth : total_depth C = total_depth C';
  tw_bits : bit_length (layer_at C 0) = bit_length (layer_at C' 0);
  tw_layers : forall i, 1 <= i < total_depth C -> layer_at C i = layer_at C' i }.

(** ** The number of mask coefficients and the challenges *)
Definition lbits (C : layered_circuit) (i : nat) : nat := bit_length (layer_at C i).
(** Coefficients drawn in layers [i], ..., 1. *)
Fixpoint layer_masks (C : layered_circuit) (i : nat) : nat :=
  match i with O => 0 | S j => (if i =? 1 then 0 else 6) + (4 * lbits C j + 9) + layer_masks C j end.
Definition mask_count (C : layered_circuit) : nat := 2 + layer_masks C (total_depth C - 1).
(** The challenges of layer [i] when [q] were drawn before: [rho], [r_u], [r_v], [r_c]. *)
Definition at_tape (v : list F) (q n : nat) : list F := map (fun k => nth (q + k) v 0%F) (seq 0 n).
Definition ch_rho (v : list F) (q : nat) : F := nth q v 0%F.
Definition ch_u (v : list F) (q b : nat) : list F := at_tape v (q + 1) b.
Definition ch_v (i : nat) (v : list F) (q b : nat) : list F := if i =? 1 then repeat 0%F b else at_tape v (q + 1 + b) b.
Definition ch_c (i : nat) (v : list F) (q b : nat) : F := if i =? 1 then 0%F else nth (q + 1 + b + b) v 0%F.
(** The challenges of layers [i], ..., 1 are not degenerate. *)
Fixpoint good_layers (C : layered_circuit) (v : list F) (q i : nat) : Prop :=
  match i with
  | O => True
  | S j =>
    let b := lbits C j in let q' := q + (2 * b + 4) in
    ch_rho v q <> 0%F /\ vanishing (ch_u v q b) <> 0%F /\
    (i <> 1 -> vanishing (ch_v i v q b) <> 0%F /\ last (ch_u v q b) 0%F <> last (ch_v i v q b) 0%F /\
               (1 - (ch_c j v q' (lbits C (j - 1)) + ch_c j v q' (lbits C (j - 1))) <> 0)%F) /\
    good_layers C v q' j
  end.
Definition good_challenges (C : layered_circuit) (v : list F) : Prop :=
  good_layers C v (2 * lbits C (total_depth C - 1)) (total_depth C - 1).
