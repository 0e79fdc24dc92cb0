(** * What a whole run of the zk protocol shows: C53

    Statements; the proofs are in ZkGroup, ZkViewProofs, ZkHideProofs, ZkFull and
    ZkLikely.  The record [honest_view enc v ms zs C] has two parts: the numbers the
    prover sends, and the group elements: public keys, commitments and the witnesses of
    all openings.  [ms] are the prover's mask coefficients, [zs] its exponents: the
    secrets of the keys, the blinding of the commitments and of the openings. *)
From Coq Require Import ZArith List Bool Arith Lia.
From Verif Require Import Limbs Field Fp ArithProofs Base MleSpec SpecGkr Circuit FastVerifier FastProverProofs FastVerifierProofs SpecVpd SpecZk SpecTranscript Count
  SoundProofs ZkVerifierProofs ZkComplete ZkRoundProofs ZkFacts ZkIdeal ZkView ZkHide ZkGroup ZkViewProofs ZkHideProofs ZkFull ZkLikely
  PropsTranscript PropsZk PropsZkHide.
Import ListNotations.
Open Scope nat_scope.

(** The exponents as the stream the prover reads. *)
Definition zstream (zs : list F) : nat -> Z := fun k => fz (expo zs k).
(** The prover's randomness for a run on [C]: enough of it, with the blinding exponent
    of every key not zero. *)
Definition coins (C : layered_circuit) (r : list F * list F) : Prop :=
  length (fst r) = mask_count C /\ length (snd r) = expo_count C /\ good_exponents C (snd r).

(** ** C53 *)
(** Two inputs with the same outputs and the same first value: there is a bijection of
    the prover's randomness under which the two runs have the same record. *)
Theorem C53_view_hides_input : forall enc v C C', zcomplete_circuit C -> zcomplete_circuit C' -> twins C C' ->
  (forall g, g < 2 ^ lbits C (total_depth C - 1) -> vals C (total_depth C - 1) g = vals C' (total_depth C - 1) g) ->
  vals C 0 0 = vals C' 0 0 -> good_challenges C v ->
  exists f g, (forall r, coins C r -> coins C (f r) /\ g (f r) = r) /\ (forall r, coins C r -> coins C (g r) /\ f (g r) = r) /\
    forall r, coins C r -> exists lg, honest_view enc v (fst r) (zstream (snd r)) C = Ok lg /\ honest_view enc v (fst (f r)) (zstream (snd (f r))) C' = Ok lg.
Proof.
  intros enc v C C' CC CC' TW Ho H0 GC.
  assert (TW' : twins C' C).
  { destruct TW as [A B D]. constructor; [symmetry; exact A|symmetry; exact B|]. intros i Hi. symmetry. apply D. lia. }
  assert (MC : mask_count C' = mask_count C).
  { unfold mask_count. rewrite <- (tw_depth _ _ TW). pose proof (zc_pos C CC). rewrite (tw_masks C C' TW) by lia. reflexivity. }
  pose proof (tw_expo_count C C' CC TW) as EC. pose proof (tw_good_exponents C C' CC TW) as GE.
  exists (fun r => let ms' := remasks C C' v (fst r) in (ms', rezs C C' v (fst r) ms' (snd r))),
         (fun r => let ms' := remasks C' C v (fst r) in (ms', rezs C' C v (fst r) ms' (snd r))).
  split; [|split].
  - intros [ms zs] (Lm & Lz & G). cbn [fst snd] in *. cbv zeta. split.
    + split; [apply remasks_length, Lm|]. cbn [fst snd]. split; [rewrite rezs_length; exact Lz|apply (rezs_good C C' CC), G].
    + cbn [fst snd]. rewrite (remasks_back C C' CC TW v ms Lm). f_equal. apply (rezs_back C C' v ms _ zs CC TW).
  - intros [ms zs] (Lm & Lz & G). cbn [fst snd] in *. cbv zeta.
    assert (Lm' : length ms = mask_count C') by (rewrite MC; exact Lm). split.
    + split; [rewrite <- MC; apply remasks_length, Lm'|]. cbn [fst snd]. split; [rewrite rezs_length; exact Lz|].
      apply GE. apply (rezs_good C' C CC'). apply GE, G.
    + cbn [fst snd]. rewrite (remasks_back C' C CC' TW' v ms Lm'). f_equal. apply (rezs_back C' C v ms _ zs CC' TW').
  - intros [ms zs] (Lm & Lz & G). cbn [fst snd] in *. cbv zeta. set (ms' := remasks C C' v ms).
    assert (L1 : length ms' = mask_count C') by (rewrite MC; apply remasks_length, Lm).
    assert (Hz : forall l k, red (zstream l k)) by (intros l k; apply fz_range).
    destruct (honest_view_ok enc v ms (zstream zs) C CC (Hz zs) Lm) as ([n e] & l & E & El & Rl & Eg).
    destruct (honest_view_ok enc v ms' (zstream (rezs C C' v ms ms' zs)) C' CC' (Hz _) L1) as ([n' e'] & l' & E' & El' & Rl' & Eg').
    cbn [fst snd] in *. pose proof (run_nums_same C C' CC CC' TW H0 v ms l l' Lm GC Ho Rl Rl') as EN. rewrite <- EN in Rl', El'.
    exists (n, e). split; [exact E|]. rewrite E'. do 2 f_equal; [rewrite El', El; reflexivity|].
    rewrite Eg, Eg'. symmetry. exact (run_group_same C C' CC TW v ms ms' zs l Lz G Rl Rl').
Qed.
Print Assumptions C53_view_hides_input.

(** The record depends on that much randomness only. *)
Theorem C53_exponents_used : forall enc v C ms zs, zcomplete_circuit C -> length ms = mask_count C -> (forall k, red (zs k)) ->
  honest_view enc v ms zs C = honest_view enc v ms (zstream (map (fun k => ofZ (zs k)) (seq 0 (expo_count C)))) C.
Proof.
  intros enc v C ms zs CC Lm Hz. set (z' := zstream _). assert (Hz' : forall k, red (z' k)) by (intro k; apply fz_range).
  destruct (honest_view_ok enc v ms zs C CC Hz Lm) as ([n e] & l & E & El & Rl & Eg).
  destruct (honest_view_ok enc v ms z' C CC Hz' Lm) as ([n' e'] & l' & E' & El' & Rl' & Eg').
  cbn [fst snd] in *. rewrite E, E'. do 2 f_equal.
  - rewrite El, El'. f_equal. exact (run_nums_fun C v ms l l' Rl Rl').
  - rewrite Eg, Eg'. symmetry. apply run_ext. intros k Hk. unfold z', zstream, expo. rewrite ofZ_fz.
    set (f := fun k => ofZ (zs k)). rewrite (nth_indep _ 0%F (f 0)) by (rewrite map_length, seq_length; exact Hk). rewrite map_nth, seq_nth by exact Hk. reflexivity.
Qed.
Print Assumptions C53_exponents_used.

(** The excluded challenges and exponents are few: a fraction of at most
    [layer_bad C (d - 1)] and [2 d - 1] over the size of the field. *)
Theorem C53_few_bad_challenges : forall C, zcomplete_circuit C -> few (tape_count C) (layer_bad C (total_depth C - 1)) (fun v => ~ good_challenges C v).
Proof. exact challenges_few. Qed.
Print Assumptions C53_few_bad_challenges.
Theorem C53_few_bad_exponents : forall C, few (expo_count C) (2 * (total_depth C - 1) + 1) (fun zs => ~ good_exponents C zs).
Proof. exact exponents_few. Qed.
Print Assumptions C53_few_bad_exponents.

(** The circuits and challenges of C52's example and 70 exponents. *)
Example C53_example : let C := zex_with 2 5 7 in let C' := zex_with 2 5 9 in
  zcomplete_circuit C /\ zcomplete_circuit C' /\ twins C C' /\ good_challenges C tape_ex /\
  (forall g, g < 2 ^ lbits C (total_depth C - 1) -> vals C (total_depth C - 1) g = vals C' (total_depth C - 1) g) /\
  vals C 0 0 = vals C' 0 0 /\ vals C 0 2 <> vals C' 0 2 /\
  coins C (repeat 0%F 61, repeat 1%F 70) /\ tape_count C = 24 /\ layer_bad C 3 = 29.
Proof.
  cbv zeta. split; [apply zex_with_complete|]. split; [apply zex_with_complete|]. split; [apply zex_with_twins|]. split; [apply tape_ex_good|]. split.
  { intros [|[|g]] Hg; [| |cbn in Hg; lia]; apply F_eq; vm_compute; reflexivity. }
  split; [apply F_eq; vm_compute; reflexivity|]. split; [intro E; apply (f_equal fz) in E; vm_compute in E; discriminate|].
  assert (N : (1 <> 0)%F) by exact F1_neq_F0.
  split; [|split; reflexivity]. split; [reflexivity|]. split; [reflexivity|].
  split; [exact N|]. repeat (split; [exact N|]). exact I.
Qed.
