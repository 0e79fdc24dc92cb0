(** * The zk verifier against an arbitrary prover whose announcements are true

    The zk verifier takes several values from the prover: the sum of the mask
    polynomial, the factors [Iuv], [preZu], [preZv], the coordinates at which the
    value mask is opened, and the opened values, which the commitment scheme is
    meant to guarantee.  [true_masks D I] answers these truthfully and leaves all
    other answers (the round polynomials, the claimed values, digests, witnesses
    and keys) to an arbitrary prover [I].
    [D] fixes the masks: the value masks are fixed beforehand, the mask polynomial
    of a layer is a function of the state of [I] at the time it is committed.
    The wrapper sees the challenges only through the calls the verifier makes. *)
From Coq Require Import ZArith List Bool Arith.
From Verif Require Import Base Limbs Field Fp MleSpec Lazy Poly Circuit SpecGkr SpecVpd SpecZk Transcript
  TablesProofs FastProverProofs SoundProofs VpdInput ZkProver ZkVerifier.
Import ListNotations.
Open Scope nat_scope.

(** The number an object of class [field_element] stands for. *)
Definition fld (x : fe) : F := ofZ (val512 x).
Definition flds (l : list fe) : list F := map fld l.

Record masks (S : Type) := Masks {
  md_value : nat -> list F;           (* layer number: the 6 coefficients of the mask of its values *)
  md_poly : S -> nat -> list F }.     (* state after the commitment, layer number: the mask polynomial *)
Arguments md_value {S}. Arguments md_poly {S}.

(** What the wrapper remembers of a layer. *)
Record ghost := Ghost {
  gh_i : nat;                           (* layer *)
  gh_r0 : list fe; gh_r1 : list fe;     (* points of the claim about layer [gh_i] *)
  gh_d : nat; gh_c : list F;            (* mask polynomial: number of variables, coefficients *)
  gh_rho : fe;
  gh_u : list fe; gh_v : list fe }.     (* challenges of the two phases *)
Definition set_uv (g : ghost) (u v : list fe) : ghost :=
  Ghost (gh_i g) (gh_r0 g) (gh_r1 g) (gh_d g) (gh_c g) (gh_rho g) u v.
(** In phase 2 the challenge of round [j - 1] arrives with round [j]. *)
Definition see_v (g : ghost) (prev : fe) (j : nat) : ghost :=
  set_uv g (gh_u g) (if j =? 0 then [] else gh_v g ++ [prev]).

Definition true_masks {S} (D : masks S) (I : zprover_if S) : zprover_if (S * ghost) := {|
  zi_evaluate := fun st => ' (row, s) <- zi_evaluate I (fst st) ;; Ok (row, (s, snd st));
  zi_commit := fun st n => ' (a, b, c, d, s) <- zi_commit I (fst st) n ;; Ok (a, b, c, d, (s, snd st));
  zi_V_res := fun st o r out n m => ' (x, s) <- zi_V_res I (fst st) o r out n m ;; Ok (x, (s, snd st));
  zi_sumcheck_init := fun st i bl b1 b2 al be r0 r1 o0 o1 =>
    ' (d, da, s) <- zi_sumcheck_init I (fst st) i bl b1 b2 al be r0 r1 o0 o1 ;;
    Ok (d, da, (s, Ghost i r0 r1 0 [] fe_zero [] []));
  zi_pre_rho := fun st n k =>
    ' (d, da, s) <- zi_pre_rho I (fst st) n k ;;
    let g := snd st in
    Ok (d, da, (s, Ghost (gh_i g) (gh_r0 g) (gh_r1 g) n (md_poly D s (gh_i g)) (gh_rho g) (gh_u g) (gh_v g)));
  zi_set_rho := fun st rho =>
    let g := snd st in
    (zi_set_rho I (fst st) rho, Ghost (gh_i g) (gh_r0 g) (gh_r1 g) (gh_d g) (gh_c g) rho (gh_u g) (gh_v g));
  zi_after_rho := fun st n k => s <- zi_after_rho I (fst st) n k ;; Ok (s, snd st);
  zi_sumc := fun st =>
    let g := snd st in
    fe_of (fld (gh_rho g) *
      hyper (gh_d g) (fun X => mask_poly (gh_d g) (fun i => nth i (gh_c g) 0) (fun i => nth i X 0)))%F;
  zi_phase1_init := fun st => s <- zi_phase1_init I (fst st) ;; Ok (s, snd st);
  zi_phase1_update := fun st prev j => ' (q, s) <- zi_phase1_update I (fst st) prev j ;; Ok (q, (s, snd st));
  zi_phase1_lastbit := fun st prev j => ' (q, s) <- zi_phase1_lastbit I (fst st) prev j ;; Ok (q, (s, snd st));
  zi_phase2_init := fun st prev ru ou =>
    s <- zi_phase2_init I (fst st) prev ru ou ;; Ok (s, set_uv (snd st) ru []);
  zi_phase2_update := fun st prev j =>
    ' (q, s) <- zi_phase2_update I (fst st) prev j ;; Ok (q, (s, see_v (snd st) prev j));
  zi_phase2_lastbit := fun st prev j =>
    ' (q, s) <- zi_phase2_lastbit I (fst st) prev j ;; Ok (q, (s, see_v (snd st) prev j));
  zi_finalize := fun st prev =>
    ' (vs, s) <- zi_finalize I (fst st) prev ;; Ok (vs, (s, set_uv (snd st) (gh_u (snd st)) (gh_v (snd st) ++ [prev])));
  zi_finalround := fun st prev n x => ' (q, s) <- zi_finalround I (fst st) prev n x ;; Ok (q, (s, snd st));
  zi_prove_R := fun st r =>
    ' (_, w, wa, s) <- zi_prove_R I (fst st) r ;;
    Ok (fz (poly_R (fun i => nth i (md_value D (gh_i (snd st))) 0) (ofZ (nth 0 r 0%Z)) (ofZ (nth 1 r 0%Z)))%F, w, wa, (s, snd st));
  zi_prove_mask := fun st r =>
    ' (_, w, wa, s) <- zi_prove_mask I (fst st) r ;;
    let g := snd st in
    Ok (fz (mask_poly (gh_d g) (fun i => nth i (gh_c g) 0) (fun i => ofZ (nth i r 0%Z)))%F, w, wa, (s, g));
  zi_prove_input := fun st r Z => ' (v, w, wa, s) <- zi_prove_input I (fst st) r Z ;; Ok (v, w, wa, (s, snd st));
  zi_v_u := fun st => zi_v_u I (fst st);
  zi_Iuv := fun st =>
    let R := flds (gh_u (snd st) ++ gh_v (snd st)) in fe_of (prodn (length R) (fun j => 1 - nth j R 0))%F;
  zi_preZu := fun st => fe_of (vanishing (flds (gh_r0 (snd st))));
  zi_preZv := fun st => fe_of (vanishing (flds (gh_r1 (snd st))));
  zi_Zu := fun st => zi_Zu I (fst st);
  zi_prepreu1 := fun st => fe_of (last (flds (gh_r0 (snd st))) 0)%F;
  zi_preprev1 := fun st => fe_of (last (flds (gh_r1 (snd st))) 0)%F;
  zi_kR := fun st => zi_kR I (fst st); zi_kM := fun st => zi_kM I (fst st); zi_kI := fun st => zi_kI I (fst st) |}.

(** Messages are objects of class [field_element] as its operations leave them. *)
Definition reduced_quint (q : quintuple_poly) : Prop :=
  reduced (p_a q) /\ reduced (p_b q) /\ reduced (p_c q) /\ reduced (p_d q) /\ reduced (p_e q) /\ reduced (p_f q).
Record ztyped {S} (I : zprover_if S) : Prop := {
  zt_1 : forall s x j q s', zi_phase1_update I s x j = Ok (q, s') -> reduced_quad q;
  zt_1l : forall s x j q s', zi_phase1_lastbit I s x j = Ok (q, s') -> reduced_quint q;
  zt_2 : forall s x j q s', zi_phase2_update I s x j = Ok (q, s') -> reduced_quad q;
  zt_2l : forall s x j q s', zi_phase2_lastbit I s x j = Ok (q, s') -> reduced_quint q;
  zt_f : forall s x u v s', zi_finalize I s x = Ok ((u, v), s') -> reduced u /\ reduced v;
  zt_r : forall s x n y q s', zi_finalround I s x n y = Ok (q, s') -> reduced_quad q;
  zt_v : forall s, reduced (zi_v_u I s) }.
(** The verifier evaluates the claimed output itself. *)
Definition ztrusted_V_res {S} (I : zprover_if S) : Prop := forall s o r row n k x s',
  zi_V_res I s o r row n k = Ok (x, s') -> zk_V_res o r row n k = Ok x.

(** ** Challenges from a tape *)
Definition is_rand (m : msg) : bool := match m with MRand _ => true | _ => false end.
(** Number of challenges in a transcript. *)
Definition draws (t : list msg) : nat := length (filter is_rand t).
(** The challenges are the elements of [v], whatever the messages are. *)
Definition tape (v : list F) (t : list msg) (n : nat) : outcome (list fe * list msg) :=
  let r := fes (map (fun k => nth (draws t + k) v 0%F) (seq 0 n)) in Ok (r, t ++ map MRand r).

(** ** The claim *)
Section Claim.
Context {S : Type}.
(** The running claim is about the true masked values of layer [i]. *)
Definition ztrue_claim (C : layered_circuit) (mk : list F) (i : nat) (st : zvstate S) : Prop :=
  exists a be R0 R1, rep (t_alpha st) a /\ rep (t_beta st) be /\ reps (t_r0 st) R0 /\ reps (t_r1 st) R1 /\
    rep (t_sum st) (a * masked_value (vals C i) mk R0 + be * masked_value (vals C i) mk R1)%F.
End Claim.

(** The verifier up to (and excluding) the copy layer. *)
Definition zverify_upper {S} (enc : F -> list Z) (rng : list msg -> nat -> outcome (list fe * list msg))
    (I : zprover_if S) (C : layered_circuit) (BB0 : zbetas * zbetas) (s0 : S) : outcome (zvstate S) :=
  ' (_, _, st) <- zverify_start enc rng I C BB0 s0 ;;
  zverify_layers enc rng I C (total_depth C - 2) st.
