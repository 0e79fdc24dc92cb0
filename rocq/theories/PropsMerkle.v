(** * A Merkle tree of SHA-256 blocks (C50)

    The wiring file for 2^n leaves: variable 0 is the constant 0, variables 34 .. 97 are
    the round constants, 98 .. 105 the initial hash value, 298 .. 305 the root, and
    306 + 6928 i .. 306 + 6928 i + 15 leaf number i. *)
From Coq Require Import ZArith List Bool Arith Lia.
From Verif Require Import Limbs LimbsProofs Field FieldProofs Fp Base Circuit FastProver Lazy TablesProofs FastProverProofs FastVerifier FastVerifierProofs
  Loader SpecLoader LoaderProofs ZkEval ZkEvalProofs LoadedProofs SpecTranscript Transcript ZkProver ZkVerifier ZkPhaseProofs ZkPredProofs
  ZkLinkProofs ZkOpenProofs ZkVerifierProofs ZkComplete SpecZk ZkFacts ZkLoaded SpecGen Program SpecCompiler Compiler CompilerProofs
  CompilerDone CompilerEnd PropsCompiler PropsCompilerTotal SpecSha ShaGen ShaMain ShaProgram SpecMerkle MerkleGen MerkleShape MerkleProofs MerkleRuns PropsSha.
Import ListNotations.
Open Scope Z_scope.

(** The generator writes a wiring file for 2^(n+1) runs that meets the conditions of the
    circuit compiler (C48). *)
Theorem C50_wiring : forall n, (1 <= n <= 13)%nat -> exists w, merkle n = Ok w /\ wiring_ok w /\ wiring_regular w /\
  Z.of_nat (length (out_nums w)) = 2 ^ Z.of_nat (n + 1) * 7226 /\ Z.of_nat (length (sources w)) = 13360 * 2 ^ Z.of_nat n - 6134.
Proof.
  intros n Hn. assert (H0 : (0 < n)%nat) by lia. pose proof (T_pos n H0) as TP. pose proof (vend_eq n H0) as VE. exists (merkle_file (inv n) (vend n) (all n)). split; [apply merkle_eq; exact H0|].
  pose proof (w_eq n H0 _ (merkle_eq n H0)) as E. rewrite E. pose proof (all_length n H0) as AL.
  assert (TB : T n <= 2 ^ 13). { unfold T. rewrite Nat2Z.inj_pow. apply Z.pow_le_mono_r; lia. }
  assert (LB : Z.of_nat (length (all n)) = 2 * T n * 7226). { rewrite AL, Nat2Z.inj_mul, Nat2Z.inj_pow. unfold size, T. rewrite Z2Nat.id, Nat2Z.inj_pow, Nat2Z.inj_add, Z.pow_add_r by lia. change (Z.of_nat 2) with 2. change (2 ^ Z.of_nat 1) with 2. ring. }
  assert (AR : forall x, In x (all n) -> 0 <= x < 34 + Z.of_nat (Z.to_nat (vend n - 34))) by (intros x Hx; apply (all_range n H0) in Hx; lia).
  split; [apply file_ok; [exact AR|lia]|]. split; [apply file_regular; [exact AR|lia]|]. rewrite file_nums, file_sources, !range_length, LB.
  unfold T in *. rewrite Nat2Z.inj_pow in *. change (Z.of_nat 2) with 2 in *. rewrite !Nat2Z.inj_add, Z.pow_add_r by lia. change (2 ^ Z.of_nat 1) with 2. lia.
Qed.
Print Assumptions C50_wiring.

(** Generators, compiler, circuit reader, prover and verifier together. *)
Theorem C50_end_to_end : forall n rnd, (1 <= n <= 13)%nat -> rand_seq rnd ->
  exists p w ct mt C mx out cv (layer pos : Z -> nat) (size : nat -> nat), sha_program = Ok p /\ merkle n = Ok w /\
    compile rnd p w = Ok (ct, mt) /\ read_circuit ct mt = Ok (C, mx) /\ zevaluate C = Ok (out, cv) /\
    (forall r, (r < 2 ^ (n + 1))%nat -> exists val, run_of rnd p w r val) /\
    (forall r val t, (r < 2 ^ (n + 1))%nat -> run_of rnd p w r val -> In t (targets p) ->
       exists row x, nth_error cv (layer t) = Some row /\ nth_error row (r * size (layer t) + pos t) = Some x /\ rep x (val t)) /\
    (forall enc ec1 aes fr zr, (forall x, length (enc x) = ec1) -> (0 < ec1 <= 1000)%nat -> is_cipher aes -> stream_ok fr zr ->
       Z.of_nat (zmessages C * msize ec1 + 512) < 2 ^ 31 -> run_zk enc aes fr zr C = Ok true).
Proof.
  intros n rnd Hn RND. destruct C49_program as (p & lev & EP & PO & OR & LV & RG & IN & GC & DP). destruct (C50_wiring n Hn) as (w & EW & WO & WR & ON & SR).
  assert (PB : 2 ^ Z.of_nat n <= 2 ^ 13) by (apply Z.pow_le_mono_r; lia). assert (PN : 2 ^ Z.of_nat (n + 1) = 2 * 2 ^ Z.of_nat n) by (rewrite Nat2Z.inj_add, Z.pow_add_r by lia; change (2 ^ Z.of_nat 1) with 2; lia).
  assert (LI : length (inputs p) = Z.to_nat 7226) by (rewrite IN, map_length, seq_length; reflexivity).
  destruct (C48_end_to_end rnd p w lev (n + 1) RND PO OR LV RG) as (ct & mt & C & mx & out & cv & layer & pos & sz & E1 & E2 & E3 & E4 & E5 & E6 & E7).
  - intros Q. rewrite Q in LI. change (length (@nil Z)) with 0%nat in LI. lia.
  - exact WO.
  - exact WR.
  - rewrite LI. apply Nat2Z.inj. rewrite ON, Nat2Z.inj_mul, Nat2Z.inj_pow, Z2Nat.id by lia. reflexivity.
  - rewrite GC, PN. lia.
  - rewrite SR. lia.
  - intros t _. specialize (DP t). lia.
  - exists p, w, ct, mt, C, mx, out, cv, layer, pos, sz. auto 12.
Qed.
Print Assumptions C50_end_to_end.

(** Whatever the values of the variables: if all outputs of all runs are zero, the root is
    the Merkle root of the leaves. *)
Theorem C50_sound : forall n p w src vals, (0 < n)%nat -> sha_program = Ok p -> merkle n = Ok w ->
  (forall r, (r < 2 ^ (n + 1) - 1)%nat -> wired src p w r (vals r) /\ all_zero p (vals r)) ->
  src 0 = 0%F -> Forall word (numbers src 34 64) -> word (fz (src 101)) -> word (fz (src 105)) ->
  (forall i, (i < 2 ^ n)%nat -> word (fz (src (306 + 6928 * Z.of_nat i)))) ->
  let leaves := map (fun i => numbers src (306 + 6928 * Z.of_nat i) 16) (seq 0 (2 ^ n)) in
  Forall (Forall word) leaves /\ numbers src 298 8 = merkle_root (numbers src 34 64) (numbers src 98 8) n leaves.
Proof. intros n p w src vals Hn EP EW HR S0 KW H3 H7 LW. exact (root_sound n Hn p w EP EW src vals (fun r Hr => proj1 (HR r Hr)) (fun r Hr => proj2 (HR r Hr)) S0 KW H3 H7 LW). Qed.
Print Assumptions C50_sound.

Lemma complete_0 : forall n p w K H leaves e, (0 < n)%nat -> sha_program = Ok p -> merkle n = Ok w -> length K = 64%nat -> length H = 8%nat -> length leaves = (2 ^ n)%nat -> Forall (fun l => length l = 16%nat) leaves ->
  Forall word K -> Forall word H -> Forall (Forall word) leaves -> 0 <= e <= 1 -> (e = 0 \/ hsum (nth 0 leaves []) e 16 < 2 ^ 34) ->
  exists src vals, constants src w /\ (forall r, (r < 2 ^ (n + 1))%nat -> wired src p w r (vals r) /\ all_zero p (vals r)) /\
  numbers src 34 64 = K /\ numbers src 98 8 = H /\ (forall i, (i < 2 ^ n)%nat -> numbers src (306 + 6928 * Z.of_nat i) 16 = (nth 0 (nth i leaves []) 0 + er e (Z.of_nat i) * 2 ^ 32) :: tl (nth i leaves [])) /\
  numbers src 298 8 = compress K H (msg n K H leaves (nb n - 1)).
Proof.
  intros n p w K H leaves e Hn EP EW LK LH LL L16 WK WH WL He Hf. apply complete; try assumption. destruct Hf as [->|Hf]; [|exact Hf].
  pose proof (Nat.pow_nonzero 2 n ltac:(lia)) as PN. assert (I0 : In (nth 0 leaves []) leaves) by (apply nth_In; lia). rewrite Forall_forall in L16, WL. pose proof (L16 _ I0) as LM. pose proof (WL _ I0) as WM. set (M := nth 0 leaves []) in *.
  assert (W : forall i, (i < 64)%nat -> word (hw M i)) by (intros i Hi; exact (hw_word K H M LK LH LM WM i Hi)).
  unfold hsum. rewrite (hw'_pos K H M 0 LK LH LM (16 - 7)) by lia. unfold hw' at 1. change (16 - 16)%nat with 0%nat. cbv iota.
  pose proof (W 0%nat ltac:(lia)) as A. pose proof (W (16 - 7)%nat ltac:(lia)) as B. pose proof (ShaBits.sigma0_word _ (W (16 - 15)%nat ltac:(lia))) as C. pose proof (ShaBits.sigma1_word _ (W (16 - 2)%nat ltac:(lia))) as D.
  unfold word in *. change (2 ^ 34) with (4 * 2 ^ 32). lia.
Qed.
Lemma nth_word : forall f a k i, Forall word (numbers f a k) -> (i < k)%nat -> word (fz (f (a + Z.of_nat i))).
Proof. intros f a k i HF Hi. rewrite Forall_forall in HF. apply HF. unfold numbers. apply (in_map (fun i => fz (f (a + Z.of_nat i)))). apply in_seq. lia. Qed.

(** For all words there are such values and runs. *)
Theorem C50_complete : forall n p w K H leaves, (0 < n)%nat -> sha_program = Ok p -> merkle n = Ok w ->
  length K = 64%nat -> length H = 8%nat -> length leaves = (2 ^ n)%nat -> Forall (fun l => length l = 16%nat) leaves -> Forall word K -> Forall word H -> Forall (Forall word) leaves ->
  exists src vals, constants src w /\ (forall r, (r < 2 ^ (n + 1))%nat -> wired src p w r (vals r) /\ all_zero p (vals r)) /\
    numbers src 34 64 = K /\ numbers src 98 8 = H /\ map (fun i => numbers src (306 + 6928 * Z.of_nat i) 16) (seq 0 (2 ^ n)) = leaves /\ numbers src 298 8 = merkle_root K H n leaves.
Proof.
  intros n p w K H leaves Hn EP EW LK LH LL L16 WK WH WL. destruct (complete_0 n p w K H leaves 0 Hn EP EW LK LH LL L16 WK WH WL ltac:(lia) (or_introl eq_refl)) as (src & vals & R1 & R2 & R3 & R4 & R5 & _).
  assert (ELF : map (fun i => numbers src (306 + 6928 * Z.of_nat i) 16) (seq 0 (2 ^ n)) = leaves).
  { apply nth_ext with (d := numbers src (306 + 6928 * Z.of_nat 0) 16) (d' := []); [rewrite map_length, seq_length; symmetry; exact LL|]. intros i Hi. rewrite map_length, seq_length in Hi.
    rewrite (map_nth (fun i => numbers src (306 + 6928 * Z.of_nat i) 16)), seq_nth, Nat.add_0_l, R5 by exact Hi. assert (LI : length (nth i leaves []) = 16%nat) by (rewrite Forall_forall in L16; apply L16, nth_In; lia).
    destruct (nth i leaves []) as [|x l]; [discriminate LI|]. cbn [nth tl]. f_equal. unfold er. destruct (Z.of_nat i =? 0); lia. }
  exists src, vals. split; [exact R1|]. split; [exact R2|]. split; [exact R3|]. split; [exact R4|]. split; [exact ELF|].
  assert (C0 : src 0 = 0%F). { rewrite (R1 0 0); [reflexivity|]. rewrite (w_eq n Hn w EW). left. reflexivity. }
  destruct (C50_sound n p w src vals Hn EP EW) as (_ & Q).
  - intros r Hr. apply R2. lia.
  - exact C0.
  - rewrite R3. exact WK.
  - rewrite <- R4 in WH. exact (nth_word src 98 8 3 WH ltac:(lia)).
  - rewrite <- R4 in WH. exact (nth_word src 98 8 7 WH ltac:(lia)).
  - intros i Hi. assert (WI : Forall word (numbers src (306 + 6928 * Z.of_nat i) 16)). { rewrite <- ELF in WL. rewrite Forall_forall in WL. apply WL. apply (in_map (fun i => numbers src (306 + 6928 * Z.of_nat i) 16)). apply in_seq. lia. }
    pose proof (nth_word src _ 16 0 WI ltac:(lia)) as Q. rewrite Z.add_0_r in Q. exact Q.
  - rewrite Q, R3, R4, ELF. reflexivity.
Qed.
Print Assumptions C50_complete.

Lemma words_check : forall l, forallb (fun x => (0 <=? x) && (x <? 2 ^ 32)) l = true -> Forall word l.
Proof. intros l Hl. rewrite forallb_forall in Hl. apply Forall_forall. intros x Hx. specialize (Hl x Hx). apply andb_true_iff in Hl. destruct Hl as (H1 & H2). apply Z.leb_le in H1. apply Z.ltb_lt in H2. unfold word. lia. Qed.
Lemma K_words : Forall word sha_K. Proof. apply words_check. vm_compute. reflexivity. Qed.
Lemma H_words : Forall word sha_H0. Proof. apply words_check. vm_compute. reflexivity. Qed.
(** Two leaves, the message "abc" and zeros. *)
Example C50_example : exists p w src vals, sha_program = Ok p /\ merkle 1 = Ok w /\ (forall r, (r < 2 ^ (1 + 1) - 1)%nat -> wired src p w r (vals r) /\ all_zero p (vals r)) /\
  src 0 = 0%F /\ numbers src 34 64 = sha_K /\ numbers src 98 8 = sha_H0 /\ word (fz (src 101)) /\ word (fz (src 105)) /\ (forall i, (i < 2 ^ 1)%nat -> word (fz (src (306 + 6928 * Z.of_nat i)))) /\
  numbers src 306 16 = [0x61626380; 0; 0; 0; 0; 0; 0; 0; 0; 0; 0; 0; 0; 0; 0; 24] /\ numbers src 7234 16 = repeat 0 16 /\
  numbers src 298 8 = compress sha_K sha_H0 (compress sha_K sha_H0 [0x61626380; 0; 0; 0; 0; 0; 0; 0; 0; 0; 0; 0; 0; 0; 0; 24] ++ compress sha_K sha_H0 (repeat 0 16)).
Proof.
  destruct C49_program as (p & _ & EP & _). destruct (C50_wiring 1 ltac:(lia)) as (w & EW & _).
  destruct (C50_complete 1 p w sha_K sha_H0 [[0x61626380; 0; 0; 0; 0; 0; 0; 0; 0; 0; 0; 0; 0; 0; 0; 24]; repeat 0 16] ltac:(lia) EP EW eq_refl eq_refl eq_refl) as (src & vals & R1 & R2 & R3 & R4 & R5 & R6).
  - repeat constructor.
  - exact K_words.
  - exact H_words.
  - constructor; [apply words_check; vm_compute; reflexivity|]. constructor; [apply words_check; vm_compute; reflexivity|constructor].
  - assert (E0 : numbers src 306 16 = [0x61626380; 0; 0; 0; 0; 0; 0; 0; 0; 0; 0; 0; 0; 0; 0; 24]) by exact (f_equal (fun l => nth 0 l []) R5). assert (E1 : numbers src 7234 16 = repeat 0 16) by exact (f_equal (fun l => nth 1 l []) R5).
    exists p, w, src, vals. split; [exact EP|]. split; [exact EW|]. split; [intros r Hr; apply R2; lia|]. split; [rewrite (R1 0 0); [reflexivity|]; rewrite (w_eq 1 ltac:(lia) w EW); left; reflexivity|]. split; [exact R3|]. split; [exact R4|].
    pose proof H_words as HW. rewrite <- R4 in HW. split; [exact (nth_word src 98 8 3 HW ltac:(lia))|]. split; [exact (nth_word src 98 8 7 HW ltac:(lia))|].
    split; [|split; [exact E0|split; [exact E1|exact R6]]].
    intros i Hi. destruct i as [|[|i]]; [| |cbn in Hi; lia].
    + assert (Q : fz (src (306 + 6928 * Z.of_nat 0)) = 0x61626380) by exact (f_equal (fun l => nth 0 l 0) E0). rewrite Q. unfold word. lia.
    + assert (Q : fz (src (306 + 6928 * Z.of_nat 1)) = 0) by exact (f_equal (fun l => nth 0 l 0) E1). rewrite Q. unfold word. lia.
Qed.

(** The first word of a leaf is not checked to be a word: two different lists of leaves
    have the same root. *)
Theorem C50_word_refuted : forall n, (0 < n)%nat -> exists p w src src' vals vals', sha_program = Ok p /\ merkle n = Ok w /\ constants src w /\ constants src' w /\
  (forall r, (r < 2 ^ (n + 1))%nat -> wired src p w r (vals r) /\ all_zero p (vals r) /\ wired src' p w r (vals' r) /\ all_zero p (vals' r)) /\
  numbers src 34 64 = sha_K /\ numbers src' 34 64 = sha_K /\ numbers src 98 8 = sha_H0 /\ numbers src' 98 8 = sha_H0 /\
  (forall i, (i < 2 ^ n)%nat -> numbers src (306 + 6928 * Z.of_nat i) 16 = repeat 0 16 /\ numbers src' (306 + 6928 * Z.of_nat i) 16 = (if (i =? 0)%nat then 2 ^ 32 else 0) :: repeat 0 15) /\
  numbers src 298 8 = numbers src' 298 8.
Proof.
  intros n Hn. destruct C49_program as (p & _ & EP & _). pose proof (merkle_eq n Hn) as EW. set (w := merkle_file _ _ _) in EW.
  assert (LL : length (repeat (repeat 0 16) (2 ^ n)) = (2 ^ n)%nat) by apply repeat_length.
  assert (NI : forall i, (i < 2 ^ n)%nat -> nth i (repeat (repeat 0 16) (2 ^ n)) [] = repeat 0 16) by (intros i Hi; apply repeat_spec with (n := (2 ^ n)%nat), nth_In; rewrite LL; exact Hi).
  assert (L16 : Forall (fun l => length l = 16%nat) (repeat (repeat 0 16) (2 ^ n))) by (apply Forall_forall; intros x Hx; apply repeat_spec in Hx; subst x; reflexivity).
  assert (WL : Forall (Forall word) (repeat (repeat 0 16) (2 ^ n))) by (apply Forall_forall; intros x Hx; apply repeat_spec in Hx; subst x; apply words_check; vm_compute; reflexivity).
  pose proof (Nat.pow_nonzero 2 n ltac:(lia)) as PN.
  destruct (complete_0 n p w sha_K sha_H0 (repeat (repeat 0 16) (2 ^ n)) 0 Hn EP EW eq_refl eq_refl LL L16 K_words H_words WL ltac:(lia) (or_introl eq_refl)) as (src & vals & R1 & R2 & R3 & R4 & R5 & R6).
  destruct (complete_0 n p w sha_K sha_H0 (repeat (repeat 0 16) (2 ^ n)) 1 Hn EP EW eq_refl eq_refl LL L16 K_words H_words WL ltac:(lia)) as (src' & vals' & R1' & R2' & R3' & R4' & R5' & R6').
  { right. rewrite NI by lia. vm_compute. reflexivity. }
  exists p, w, src, src', vals, vals'. split; [exact EP|]. split; [exact EW|]. split; [exact R1|]. split; [exact R1'|]. split; [intros r Hr; destruct (R2 r Hr), (R2' r Hr); auto|].
  split; [exact R3|]. split; [exact R3'|]. split; [exact R4|]. split; [exact R4'|]. split; [|rewrite R6, R6'; reflexivity].
  intros i Hi. rewrite R5, R5', NI by exact Hi. unfold er. destruct i as [|i]; [split; reflexivity|]. change (Z.of_nat (S i) =? 0) with false. cbv iota. split; reflexivity.
Qed.
Print Assumptions C50_word_refuted.

(** The runs of the compiled circuit are runs with random numbers for all inputs. *)
Theorem C50_runs : forall n rnd p w r val, (0 < n)%nat -> sha_program = Ok p -> merkle n = Ok w -> (run_of rnd p w r val <-> wired (fun s => ofZ (stored (given rnd s))) p w r val).
Proof. intros n rnd p w r val Hn EP EW. exact (run_wired n Hn p w EW rnd r val). Qed.
Print Assumptions C50_runs.

(** So the round constants are never those of SHA-256: they would not fit. *)
Theorem C50_constants_refuted : forall n rnd p w r val, (0 < n)%nat -> rand_seq rnd -> sha_program = Ok p -> merkle n = Ok w -> (r < 2 ^ (n + 1))%nat -> run_of rnd p w r val ->
  numbers val 2210 64 <> sha_K /\ numbers val 2274 8 <> sha_H0.
Proof.
  intros n rnd p w r val Hn RND EP EW Hr HR.
  assert (B : forall t, 34 <= t < 7226 -> fz (val t) < 2 ^ 31).
  { intros t Ht. destruct (run_input n Hn p w EP EW rnd r val t Hr HR Ht) as (j & ->). specialize (RND j). rewrite stored_small by exact RND. rewrite fz_ofZ_small; [lia|]. pose proof P_40. lia. }
  split; intros Q.
  - assert (E : fz (val 2212) = 0xb5c0fbcf) by exact (f_equal (fun l => nth 2 l 0) Q). specialize (B 2212 ltac:(lia)). rewrite E in B. discriminate B.
  - assert (E : fz (val 2275) = 0xbb67ae85) by exact (f_equal (fun l => nth 1 l 0) Q). specialize (B 2275 ltac:(lia)). rewrite E in B. discriminate B.
Qed.
Print Assumptions C50_constants_refuted.

Lemma numbers_const : forall f a k x, (forall t, a <= t < a + Z.of_nat k -> fz (f t) = x) -> numbers f a k = repeat x k.
Proof.
  intros f a k x H. unfold numbers. assert (Q : forall b m, (forall i, (b <= i < b + m)%nat -> fz (f (a + Z.of_nat i)) = x) -> map (fun i => fz (f (a + Z.of_nat i))) (seq b m) = repeat x m).
  { intros b m. revert b. induction m as [|m IH]; intros b Hb; [reflexivity|]. cbn [seq map repeat]. rewrite Hb by lia. f_equal. apply IH. intros i Hi. apply Hb. lia. }
  apply Q. intros i Hi. apply H. lia.
Qed.
(** Nothing checks that the outputs are zero: for some random numbers they are not, in all
    runs, and the verifier accepts. *)
Theorem C50_unchecked_refuted : exists rnd, rand_seq rnd /\ forall n, (1 <= n <= 13)%nat -> exists p w ct mt C mx, sha_program = Ok p /\ merkle n = Ok w /\ compile rnd p w = Ok (ct, mt) /\ read_circuit ct mt = Ok (C, mx) /\
  (forall enc ec1 aes fr zr, (forall x, length (enc x) = ec1) -> (0 < ec1 <= 1000)%nat -> is_cipher aes -> stream_ok fr zr ->
     Z.of_nat (zmessages C * msize ec1 + 512) < 2 ^ 31 -> run_zk enc aes fr zr C = Ok true) /\
  forall r, (r < 2 ^ (n + 1))%nat -> exists val, run_of rnd p w r val /\ ~ all_zero p val.
Proof.
  exists rnd_one. split; [exact rnd_one_ok|]. intros n Hn. destruct (C50_end_to_end n rnd_one Hn rnd_one_ok) as (p & w & ct & mt & C & mx & out & cv & layer & pos & size & EP & EW & E1 & E2 & _ & E4 & _ & E7).
  exists p, w, ct, mt, C, mx. split; [exact EP|]. split; [exact EW|]. split; [exact E1|]. split; [exact E2|]. split; [exact E7|].
  intros r Hr. destruct (E4 r Hr) as (val & HR). exists val. split; [exact HR|]. intros HZ.
  assert (H0 : (0 < n)%nat) by lia. assert (B : forall t, 34 <= t < 7226 -> fz (val t) = 1).
  { intros t Ht. destruct (run_input n H0 p w EP EW rnd_one r val t Hr HR Ht) as (j & ->). unfold rnd_one. rewrite stored_small by lia. apply fz_ofZ_small. pose proof P_40. lia. }
  destruct (sha_sound p val EP (proj1 HR) (run_zero n H0 p w EP EW rnd_one r val Hr HR) HZ) as (_ & _ & Q).
  - rewrite (numbers_const val 2210 64 1) by (intros t Ht; apply B; lia). apply words_check. vm_compute. reflexivity.
  - rewrite B by lia. unfold word. lia.
  - rewrite B by lia. unfold word. lia.
  - rewrite B by lia. unfold word. lia.
  - rewrite !(numbers_const val _ _ 1) in Q by (intros t Ht; apply B; lia). vm_compute in Q. discriminate Q.
Qed.
Print Assumptions C50_unchecked_refuted.
