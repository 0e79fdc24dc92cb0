(** * The matrix-multiplication circuit generators (C42) *)
From Coq Require Import ZArith List Bool Arith Lia.
From Verif Require Import Limbs LimbsProofs Field FieldProofs Fp Base Circuit FastProver Lazy TablesProofs FastProverProofs FastVerifier FastVerifierProofs
  Loader SpecLoader LoaderProofs ZkEval ZkEvalProofs LoadedProofs SpecTranscript Transcript ZkProver ZkVerifier ZkPhaseProofs ZkPredProofs
  ZkLinkProofs ZkOpenProofs ZkVerifierProofs ZkComplete SpecZk ZkFacts ZkLoaded Gen SpecGen GenProofs.
Import ListNotations.
Open Scope nat_scope.

(** ** Mode 2 of bin/gen.cpp *)
(** With a meta file of zeros: the file is loaded, its circuit computes the matrix product, and the honest zk run is accepted. *)
Theorem C42_tree_product : forall k rnd, k <= 8 -> let n := 2 ^ k in let A := mat_A n rnd in let B := mat_B n rnd in
  exists ct mt C mx out cv, gen_tree (2 ^ Z.of_nat k) rnd = Ok (ct, mt) /\
    read_circuit ct (repeat 0%Z (5 * (k + 2))) = Ok (C, mx) /\ zevaluate C = Ok (out, cv) /\
    (forall i j, i < n -> j < n -> exists x, nth_error out (i * n + j) = Some x /\ rep x (ofZ (mat_mul n A B i j))) /\
    (forall enc ec1 aes fr zr, (forall x, length (enc x) = ec1) -> 0 < ec1 <= 1000 -> is_cipher aes -> stream_ok fr zr ->
       run_zk enc aes fr zr C = Ok true).
Proof.
  intros k rnd Hk n A B. destruct (mat_digit n rnd) as [HA HB]. destruct (gen_tree_ok k rnd Hk) as (mt & o & E & _). fold n A B in E.
  pose proof (tree_desc_ok k A B ltac:(lia) HA HB) as OK. destruct (tree_accepted k A B Hk HA HB) as [CC MB].
  destruct (evaluated _ CC) as (out & cv & EV & V). destruct (denotes_depth _ OK) as [T _].
  assert (LD : length (d_layers (tree_desc k A B)) = k + 2) by (unfold tree_desc; cbn [d_layers length]; rewrite tree_rows_length; lia).
  eexists _, _, _, _, out, cv. split; [exact E|]. split; [|split; [exact EV|split]].
  - apply read_circuit_iff. exists (tree_desc k A B), [], []. split; [symmetry; apply app_nil_r|]. split; [|split; [exact OK|split; reflexivity]].
    rewrite app_nil_r. symmetry. apply meta_zero.
  - intros i j Hi Hj. rewrite T, LD in V. replace (S (k + 2) - 1) with (k + 2) in V by lia.
    destruct (V (i * n + j)) as (y & Ey & Ry).
    + destruct (denotes_layer _ (k + 2) OK ltac:(lia)) as [_ ->]. apply Nat.lt_le_trans with (n * n); [nia|].
      assert (Q : length (file_row (tree_desc k A B) (k + 2)) = n * n).
      { unfold file_row, tree_desc. cbv zeta. cbn [d_layers]. replace (k + 2 - 1) with (S k) by lia. cbn [nth]. fold n.
        destruct k as [|k]; [reflexivity|]. cbn [nth]. rewrite tree_row_at by lia. replace (S k - 1 - k) with 0 by lia. rewrite row_length. cbn [Nat.pow]. lia. }
      rewrite Q. replace (n * n) with (2 ^ (k + k)) by (unfold n; rewrite Nat.pow_add_r; reflexivity). unfold least_bits. rewrite log2_up_pow2. apply Nat.pow_le_mono_r; lia.
    + exists y. split; [exact Ey|]. pose proof (tree_values k A B ltac:(lia) HA HB i j Hi Hj) as TV. cbv zeta in TV. fold n in TV. rewrite TV in Ry. exact Ry.
  - intros enc ec1 aes fr zr Henc Hec Ha Hst. apply (zk_complete enc ec1); try assumption; try lia. apply MB. lia.
Qed.
Print Assumptions C42_tree_product.

(** The loader refuses the meta file that the generator writes beside it. *)
Theorem C42_tree_meta_refuted : forall k rnd, k <= 8 -> exists ct mt, gen_tree (2 ^ Z.of_nat k) rnd = Ok (ct, mt) /\
  forall x, read_circuit ct mt <> Ok x.
Proof.
  intros k rnd Hk. destruct (gen_tree_ok k rnd Hk) as (mt & o & E & L). eexists _, _. split; [exact E|].
  intros [C mx] H. apply read_circuit_iff in H. destruct H as (D & r1 & r2 & _ & EM & (A0 & _ & LM & FM) & _).
  destruct (d_meta D) as [|m ms] eqn:EMd.
  - destruct (d_layers D); [destruct A0|discriminate LM].
  - cbn [meta_tokens map concat app] in EM. injection EM as E1 _ _ _ E5 _. apply Forall_inv in FM. destruct FM as (_ & _ & _ & _ & _ & FM).
    rewrite <- E1, <- E5 in FM. assert (0 < 2 ^ k) by (pose proof (Nat.pow_nonzero 2 k); lia). lia.
Qed.
Print Assumptions C42_tree_meta_refuted.

(** From size 512 on a counter overflows. *)
Theorem C42_tree_large_refuted : forall k rnd, 9 <= k < 31 -> gen_tree (2 ^ Z.of_nat k) rnd = UB.
Proof. exact gen_tree_ub. Qed.
Print Assumptions C42_tree_large_refuted.

Definition rnd_ex (i : nat) : Z := Z.of_nat (7 * i + 3).
Example C42_tree_example : 1 <= 8 /\ mat_mul 2 (mat_A 2 rnd_ex) (mat_B 2 rnd_ex) 1 0 = 40%Z /\
  gen_tree 2 rnd_ex = Ok ([3; 16; 3;0;3;0; 3;1;0;0; 3;2;7;0; 3;3;8;0; 3;4;3;0; 3;5;4;0; 3;6;7;0; 3;7;2;0;
                            3;8;1;0; 3;9;0;0; 3;10;5;0; 3;11;8;0; 3;12;1;0; 3;13;4;0; 3;14;5;0; 3;15;2;0;
                            8; 1;0;0;1; 1;1;2;3; 1;2;4;5; 1;3;6;7; 1;4;8;9; 1;5;10;11; 1;6;12;13; 1;7;14;15;
                            4; 0;0;0;1; 0;1;2;3; 0;2;4;5; 0;3;6;7]%Z,
                          [4;4;2;2;282; 2;4;1;2;73; 1;4;0;2;35]%Z).
Proof. split; [lia|]. split; [reflexivity|]. vm_compute. reflexivity. Qed.

(** ** Mode 4 of bin/gen.cpp and tests/matmul/gen.cpp *)
(** The output does not depend on the second matrix. *)
Theorem C42_range_output : forall k rnd, k <= 10 -> let n := 2 ^ k in let A := mat_A n rnd in let a x := A (x / n)%nat (x mod n)%nat in
  exists ct mt C mx out cv, gen_range (2 ^ Z.of_nat k) rnd = Ok (ct, mt) /\ read_circuit ct mt = Ok (C, mx) /\ zevaluate C = Ok (out, cv) /\
    forall i j, i < n -> j < n -> exists x, nth_error out (i * n + j) = Some x /\
      rep x (ofZ (sumz n (fun t => a (i * t)%nat * a (t * j)%nat)%Z)).
Proof.
  intros k rnd Hk n A a. destruct (mat_digit n rnd) as [HA HB]. set (B := mat_B n rnd) in *. fold A in HA.
  pose proof (range_desc_ok k A B Hk HA HB) as OK. pose proof (range_complete k A B Hk HA HB) as CC.
  destruct (evaluated _ CC) as (out & cv & EV & V). destruct (denotes_depth _ OK) as [T _]. change (length (d_layers (range_desc k A B))) with 3 in *.
  eexists _, _, _, _, out, cv. split; [apply gen_range_ok; exact Hk|]. split; [|split; [exact EV|]].
  - apply read_circuit_iff. exists (range_desc k A B), [], []. split; [symmetry; apply app_nil_r|]. split; [symmetry; apply app_nil_r|].
    split; [exact OK|split; reflexivity].
  - intros i j Hi Hj. rewrite T in V. cbn [Nat.sub] in V. destruct (V (i * n + j)) as (y & Ey & Ry).
    + destruct (denotes_layer _ 3 OK ltac:(change (length (d_layers (range_desc k A B))) with 3; lia)) as [_ ->].
      apply Nat.lt_le_trans with (n * n); [nia|]. unfold file_row, range_desc. cbv zeta. cbn [d_layers nth Nat.sub]. fold n. rewrite row_length.
      replace (n * n) with (2 ^ (k + k)) by (unfold n; rewrite Nat.pow_add_r; reflexivity). unfold least_bits. rewrite log2_up_pow2. apply Nat.pow_le_mono_r; lia.
    + exists y. split; [exact Ey|]. pose proof (range_values k A B Hk HA HB i j Hi Hj) as TV. cbv zeta in TV. fold n in TV. rewrite TV in Ry. exact Ry.
Qed.
Print Assumptions C42_range_output.

Theorem C42_range_refuted : forall k, k <= 10 -> let n := 2 ^ k in exists rnd, rand_seq rnd /\
  exists ct mt C mx out cv x, gen_range (2 ^ Z.of_nat k) rnd = Ok (ct, mt) /\ read_circuit ct mt = Ok (C, mx) /\ zevaluate C = Ok (out, cv) /\
    nth_error out 0 = Some x /\ ~ rep x (ofZ (mat_mul n (mat_A n rnd) (mat_B n rnd) 0 0)).
Proof.
  intros k Hk n. set (rnd := fun i : nat => if i =? 0 then 1%Z else 0%Z). exists rnd.
  split; [intro i; unfold rnd; destruct (i =? 0); lia|].
  destruct (C42_range_output k rnd Hk) as (ct & mt & C & mx & out & cv & E1 & E2 & E3 & V). fold n in V.
  assert (N0 : 0 < n) by (unfold n; pose proof (Nat.pow_nonzero 2 k); lia).
  destruct (V 0 0 N0 N0) as (x & Ex & Rx). exists ct, mt, C, mx, out, cv, x. repeat (split; [assumption|]). intro R.
  pose proof (rep_fun _ _ _ Rx R) as Q. apply ofZ_eq_inv in Q.
  assert (M0 : mat_mul n (mat_A n rnd) (mat_B n rnd) 0 0 = 0%Z).
  { unfold mat_mul. assert (G : forall m, sumz m (fun t => (mat_A n rnd 0 t * mat_B n rnd t 0)%Z) = 0%Z); [|apply G].
    induction m as [|m IH]; [reflexivity|]. cbn [sumz]. rewrite IH. unfold mat_B, rnd.
    destruct (Nat.eqb_spec (2 * (m * n + 0) + 1) 0); [lia|]. rewrite Z.mod_0_l by lia. lia. }
  rewrite M0, Z.mod_0_l in Q by (intro K; assert (0 < P)%Z by (vm_compute; reflexivity); lia).
  assert (S0 : forall m, sumz m (fun t => (mat_A n rnd ((0 * t) / n) ((0 * t) mod n) * mat_A n rnd ((t * 0) / n) ((t * 0) mod n))%Z) = Z.of_nat m).
  { induction m as [|m IH]; [reflexivity|]. cbn [sumz]. rewrite IH. rewrite Nat.mul_0_r. cbn [Nat.mul]. rewrite Nat.div_0_l, Nat.mod_0_l by lia.
    change (mat_A n rnd 0 0) with (1 mod 10)%Z. change (1 mod 10)%Z with 1%Z. lia. }
  rewrite S0 in Q. rewrite Z.mod_small in Q; [lia|]. unfold n. rewrite LoadedProofs.pow_Z.
  assert (2 ^ Z.of_nat k <= 2 ^ 10)%Z by (apply Z.pow_le_mono_r; lia). assert (2 ^ 10 < P)%Z by (vm_compute; reflexivity). lia.
Qed.
Print Assumptions C42_range_refuted.
Example C42_range_example : rand_seq (fun _ => 5%Z) /\
  gen_range 2 rnd_ex = Ok ([3; 8; 3;0;3;0; 3;1;7;0; 3;2;1;0; 3;3;5;0; 3;4;0;0; 3;5;4;0; 3;6;8;0; 3;7;2;0;
                            8; 1;0;0;0; 1;1;0;0; 1;2;0;0; 1;3;0;1; 1;4;0;0; 1;5;1;0; 1;6;0;0; 1;7;1;1;
                            4; 5;0;0;2; 5;1;2;4; 5;2;4;6; 5;3;6;8]%Z, repeat 0%Z 15).
Proof. split; [intro i; lia|]. vm_compute. reflexivity. Qed.
