(** * Cheating provers and the zk verifier: C44 and C45

    C29 shows that the verifier accepts false outputs because it believes the
    prover's announcements.  C44 shows that these announcements are the only way
    in above the copy layer: against an arbitrary prover whose announcements and
    opened values are true ([true_masks], ZkIdeal.v) a wrong claim survives except
    for few challenges.  C45 lists what an accepted run has passed, for a prover
    that is arbitrary in every respect.
    [few n k E]: at most [k * P ^ (n - 1)] of the [P ^ n] vectors satisfy [E].
    [follows rng pos v]: the challenges from number [pos] on are those in [v]. *)
From Coq Require Import ZArith List Bool Arith Lia Ring.
From Verif Require Import Limbs Field FieldProofs Fp Base ArithProofs MleSpec SpecGkr GkrMath Circuit Poly
  FastProver FastVerifier Lazy TablesProofs FastProverProofs FastVerifierProofs SpecVpd SpecZk SpecTranscript Transcript VpdR VpdMask VpdInput
  Count SoundProofs ZkProver ZkVerifier ZkPredProofs ZkVerifierProofs ZkComplete ZkIdeal ZkSoundProofs ZkSoundTrue ZkSoundUpper ZkAccept
  PropsGkr PropsTranscript PropsZk.
Import ListNotations.
Open Scope nat_scope.

(** ** C44 *)
(** One layer: a wrong claim about the masked values of layer [i] becomes a true
    claim about those of layer [i - 1] for at most [4 b + 9] of [P] challenges. *)
Theorem C44_layer_sound : forall S enc D (I : zprover_if S) C m i st a be R0 R1 w,
  ztyped I -> zcomplete_circuit C -> 1 < i < total_depth C ->
  (forall k, k < total_depth C -> bit_length (layer_at C k) <= m) ->
  zvst C m i st a be R0 R1 -> rep (t_sum st) w ->
  w <> (a * masked_value (vals C i) (md_value D i) R0 + be * masked_value (vals C i) (md_value D i) R1)%F ->
  let b := bit_length (layer_at C (i - 1)) in
  few (1 + ((2 * b + 1) + 2)) (4 * b + 9) (fun v => exists rng st', follows rng (draws (t_tr st)) v /\
    zverify_layer enc rng (true_masks D I) C i st = Ok st' /\ ztrue_claim C (md_value D (i - 1)) (i - 1) st').
Proof. intros S enc D I C m i st a be R0 R1 w TI CC Hi Hm. exact (zlayer_sound enc D I TI C m i CC Hi Hm st a be R0 R1 w). Qed.
Print Assumptions C44_layer_sound.
(** From the output down to the copy layer, for a verifier that evaluates the
    claimed output itself and output values that are not masked. *)
Theorem C44_sound_above_copy_layer : forall S enc D (I : zprover_if S) C m s0 g0 row s1 out BB0,
  ztyped I -> ztrusted_V_res I -> zcomplete_circuit C -> 2 <= total_depth C ->
  (forall k, k < total_depth C -> bit_length (layer_at C k) <= m) -> bsizes m BB0 ->
  (forall j, nth j (md_value D (total_depth C - 1)) 0%F = 0%F) ->
  zi_evaluate I s0 = Ok (row, s1) ->
  let lo := bit_length (layer_at C (total_depth C - 1)) in
  tab (2 ^ lo) row (2 ^ lo) out ->
  (exists x, x < 2 ^ lo /\ out x <> vals C (total_depth C - 1) x) ->
  few (lo + (lo + zn_challenges C (total_depth C - 2))) (lo + zerror C (total_depth C - 2)) (fun v =>
    exists st, zverify_upper enc (tape v) (true_masks D I) C BB0 (s0, g0) = Ok st /\ ztrue_claim C (md_value D 1) 1 st).
Proof. exact zupper_sound. Qed.
Print Assumptions C44_sound_above_copy_layer.
(** Every accepting run passes through that part. *)
Theorem C44_accepting_runs_pass : forall S enc rng (I : zprover_if S) C BB0 s0, 2 <= total_depth C ->
  zverify enc rng I C BB0 s0 = Ok true -> exists st, zverify_upper enc rng I C BB0 s0 = Ok st.
Proof. exact zverify_upper_runs. Qed.
Print Assumptions C44_accepting_runs_pass.

(** A prover that sends nothing but zeros and claims the output 100, 200. *)
Definition zeros : zprover_if unit :=
  let q := QuadraticPoly fe_zero fe_zero fe_zero in
  let p := QuintuplePoly fe_zero fe_zero fe_zero fe_zero fe_zero fe_zero in
  let z := init_zprover zex (max_bit_length zex) in {|
  zi_evaluate := fun s => Ok ([fe_of (ofZ 100); fe_of (ofZ 200)], s);
  zi_commit := fun s _ => Ok (0%F, 0%F, 0%F, 0%F, s);
  zi_V_res := fun s o r out n m => x <- zk_V_res o r out n m ;; Ok (x, s);
  zi_sumcheck_init := fun s _ _ _ _ _ _ _ _ _ _ => Ok (0%F, 0%F, s);
  zi_pre_rho := fun s _ _ => Ok (0%F, 0%F, s);
  zi_set_rho := fun s _ => s;
  zi_after_rho := fun s _ _ => Ok s;
  zi_sumc := fun _ => fe_zero;
  zi_phase1_init := fun s => Ok s;
  zi_phase1_update := fun s _ _ => Ok (q, s); zi_phase1_lastbit := fun s _ _ => Ok (p, s);
  zi_phase2_init := fun s _ _ _ => Ok s;
  zi_phase2_update := fun s _ _ => Ok (q, s); zi_phase2_lastbit := fun s _ _ => Ok (p, s);
  zi_finalize := fun s _ => Ok ((fe_zero, fe_zero), s);
  zi_finalround := fun s _ _ _ => Ok (q, s);
  zi_prove_R := fun s _ => Ok (0%Z, [0%F; 0%F; 0%F], [0%F; 0%F; 0%F], s);
  zi_prove_mask := fun s _ => Ok (0%Z, [], [], s);
  zi_prove_input := fun s _ _ => Ok (0%Z, [], [], s);
  zi_v_u := fun _ => fe_zero; zi_Iuv := fun _ => fe_zero; zi_preZu := fun _ => fe_zero; zi_preZv := fun _ => fe_zero;
  zi_Zu := fun _ => fe_zero; zi_prepreu1 := fun _ => fe_zero; zi_preprev1 := fun _ => fe_zero;
  zi_kR := fun _ => z_kR z; zi_kM := fun _ => z_kM z; zi_kI := fun _ => z_kI z |}.
Example C44_example : let m := max_bit_length zex in let D := Masks unit (fun i => if i =? 3 then [] else [ofZ 7; ofZ 1]) (fun _ i => [ofZ 5; ofZ 6]) in
  ztyped zeros /\ ztrusted_V_res zeros /\ zcomplete_circuit zex /\ 2 <= total_depth zex /\
  (forall k, k < total_depth zex -> bit_length (layer_at zex k) <= m) /\ bsizes m (init_zbetas m, init_zbetas m) /\
  (forall j, nth j (md_value D (total_depth zex - 1)) 0%F = 0%F) /\
  (let out := fun x => if x =? 0 then ofZ 100 else ofZ 200 in
   exists row, zi_evaluate zeros tt = Ok (row, tt) /\ tab 2 row 2 out /\ out 0 <> vals zex 3 0) /\
  (Z.of_nat (1 + zerror zex 2) < P)%Z.
Proof.
  cbv zeta.
  assert (R : reduced fe_zero) by (eapply rep_reduced, rep_0).
  split; [|split; [|split; [exact zex_complete|split; [cbn; lia|split; [|split; [apply init_bsizes|split; [|split]]]]]]].
  - constructor.
    + intros s x j q s' E. apply Ok_inj in E. injection E as <- _. split; [exact R|]. split; exact R.
    + intros s x j q s' E. apply Ok_inj in E. injection E as <- _. split; [exact R|]. split; [exact R|]. split; [exact R|]. split; [exact R|]. split; exact R.
    + intros s x j q s' E. apply Ok_inj in E. injection E as <- _. split; [exact R|]. split; exact R.
    + intros s x j q s' E. apply Ok_inj in E. injection E as <- _. split; [exact R|]. split; [exact R|]. split; [exact R|]. split; [exact R|]. split; exact R.
    + intros s x u v s' E. apply Ok_inj in E. injection E as <- <- _. split; exact R.
    + intros s x n y q s' E. apply Ok_inj in E. injection E as <- _. split; [exact R|]. split; exact R.
    + intros s. exact R.
  - intros s o r row n k x s' E. apply bind_inv in E. destruct E as (y & E1 & E). apply Ok_inj in E. injection E as -> _. exact E1.
  - intros [|[|[|[|k]]]] H; cbn in *; lia.
  - intros [|j]; reflexivity.
  - exists [fe_of (ofZ 100); fe_of (ofZ 200)]. split; [reflexivity|]. split.
    + split; [reflexivity|]. split; [lia|]. intros [|[|k]] Hk; [| |lia]; eexists; (split; [reflexivity|apply rep_fe_of]).
    + intro K. apply (f_equal fz) in K. vm_compute in K. discriminate.
  - vm_compute. reflexivity.
Qed.

(** ** C45 *)
(** The states of an accepted run; in every layer all round checks were
    passed, the two commitments pass their knowledge checks, all three openings are accepted at the verifier's points, and
    the final equation of the layer holds for the opened values; the opened value
    of the input is the last claim. *)
Theorem C45_accepted_run : forall S (I : zprover_if S) enc rng C BB0 s0, zverify enc rng I C BB0 s0 = Ok true ->
  exists dI dI2 (st : nat -> zvstate S) r v s L0,
    zverify_start enc rng I C BB0 s0 = Ok (dI, dI2, st 0) /\
    (forall k, k < total_depth C - 1 -> layer_checked I rng C (total_depth C - 1 - k) (st k) (st (Datatypes.S k))) /\
    rd (circuit C) 0 = Ok L0 /\ gmps (firstn (bit_length L0) (t_r0 (st (total_depth C - 1)))) = Ok r /\
    I_opened I dI dI2 r v s /\ fe_ne (t_sum (st (total_depth C - 1))) (fe_of_mpz v) = false.
Proof. intros S I enc rng C BB0 s0. exact (accepted_run I enc rng C BB0 s0). Qed.
Print Assumptions C45_accepted_run.
(** A run that is accepted ([run_zk] is [zverify] with the prover of zk_prover.cpp). *)
Example C45_example : run_zk enc_ex toy fr_ex zr_ex zex = Ok true.
Proof.
  destruct C28_example as (A & B & Hs & CC & K).
  apply (C28_completeness enc_ex 48); [exact A|lia|exact B|exact Hs|exact CC|exact K].
Qed.
