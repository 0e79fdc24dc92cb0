(** * The Lanczos filter test (C51)

    Image of np x np pixels, reduced by the ratio r; the window of 4r x 4r pixels moves in
    steps of r, so there are (np / r - 3)^2 runs. *)
From Coq Require Import ZArith List Bool Arith Lia Ring.
From Verif Require Import Limbs LimbsProofs Field FieldProofs Fp ArithProofs Base Circuit FastProver Lazy TablesProofs FastProverProofs FastVerifier FastVerifierProofs
  Loader SpecLoader LoaderProofs ZkEval ZkEvalProofs LoadedProofs SpecTranscript Transcript ZkProver ZkVerifier ZkPhaseProofs ZkPredProofs
  ZkLinkProofs ZkOpenProofs ZkVerifierProofs ZkComplete SpecZk ZkFacts ZkLoaded SpecGen Program SpecCompiler Compiler CompilerProofs
  CompilerDone CompilerEnd CompilerOutputs PropsCompiler SpecLanczos ShaGen ShaMain ShaProgram MerkleShape LanczosGen LanczosProgram LanczosWiring.
Import ListNotations.
Open Scope Z_scope.

(** The generator writes both files exactly for these arguments. *)
Theorem C51_generates : forall r np cs, (exists p w, lanczos_files r np cs = Ok (p, w)) <-> (0 < r)%nat /\ (4 * r <= np)%nat /\ (np mod r = 0)%nat /\ length cs = (2 * r)%nat.
Proof.
  intros r np cs. split.
  - intros (p & w & E). destruct (files_inv _ _ _ _ _ E) as (Hr & _ & _ & LC & m & Hm & ->). split; [exact Hr|]. split; [nia|]. split; [|exact LC]. rewrite Nat.mul_comm. apply Nat.mod_mul. lia.
  - intros (Hr & L & M & LC). unfold lanczos_files. rewrite (proj2 (Nat.ltb_ge _ _) L), (proj2 (Nat.eqb_neq _ _)), (proj2 (Nat.eqb_eq _ _) M) by lia. cbn [negb].
    destruct (program_shape r Hr) as (l & t & -> & _). cbn [bind]. apply Nat.mod_divides in M; [|lia]. destruct M as (c & ->). replace (r * c)%nat with (r * ((c - 3) + 3))%nat by nia.
    rewrite wiring_eq; [|exact Hr|nia|exact LC]. cbn [bind]. eexists _, _. reflexivity.
Qed.
Print Assumptions C51_generates.

(** The output of the program is the filter of its inputs, for any values that satisfy it. *)
Theorem C51_filter : forall r p val o t, (0 < r)%nat -> lanczos_program r = Ok p -> (forall s, In s p -> holds val s) -> In (SOut o t) p ->
  val t = lanczos (map val (zrange (Z.of_nat (16 * r ^ 2)) (2 * r))) (fun y x => val (Z.of_nat (4 * r * y + x))).
Proof. intros r p val o t Hr EP HV HO. exact (program_value r Hr p val o t EP HV HO). Qed.
Print Assumptions C51_filter.

(** Program and wiring meet the conditions of the compiler, and the only output is on the highest level. *)
Theorem C51_accepted : forall r np cs p w, lanczos_files r np cs = Ok (p, w) -> Forall is_ll cs -> Z.of_nat ((np / r - 3) ^ 2 * (16 * r ^ 2 + 2 * r)) <= 2 ^ 27 ->
  exists lev t, prog_ok p /\ ordered p /\ levels_of p lev /\ regular p lev /\ inputs p = zrange 0 (16 * r ^ 2 + 2 * r) /\
    (exists o, In (SOut o t) p /\ forall o' a, In (SOut o' a) p -> o' = o /\ a = t) /\ In t (targets p) /\ (forall a, In a (targets p) -> (lev a <= lev t)%nat) /\ lev t = (2 + 2 * Nat.log2_up (4 * r))%nat /\
    (forall s, In s p -> match s with Sum _ _ _ | Op OBit _ _ _ | Op ONot _ _ _ => False | _ => True end) /\ (gate_count p lev <= 5 * (16 * r ^ 2 + 2 * r))%nat /\
    wiring_ok w /\ wiring_regular w /\ length (out_nums w) = ((np / r - 3) ^ 2 * (16 * r ^ 2 + 2 * r))%nat /\ length (sources w) = (np ^ 2 + 2 * r)%nat.
Proof.
  intros r np cs p w E HC HB. destruct (files_inv _ _ _ _ _ E) as (Hr & EP & EW & LC & m & Hm & ->). clear E. assert (EM : (r * (m + 3) / r - 3 = m)%nat) by (rewrite Nat.mul_comm, Nat.div_mul by lia; lia). rewrite EM in *.
  rewrite wiring_eq in EW by assumption. apply Ok_inj in EW. subst w. assert (M2 : (1 <= m ^ 2)%nat) by (cbn [Nat.pow]; nia).
  assert (NB : Z.of_nat (16 * r ^ 2 + 2 * r) <= 2 ^ 27) by (revert HB; rewrite Nat2Z.inj_mul; nia).
  destruct (program_levels r Hr NB) as (p' & lev & t & EP' & A1 & A2 & A3 & A4 & A5 & A6 & A7 & A8 & A9 & A10 & A11 & A12). rewrite EP in EP'. apply Ok_inj in EP'. subst p'.
  pose proof (lall_length r m Hr Hm) as LL. pose proof (lall_range r m Hr Hm) as LR. rewrite <- LC in LR.
  assert (BV : Z.of_nat ((r * (m + 3)) ^ 2 + length cs) + 2 * Z.of_nat (length (lall r m)) <= 1061109567).
  { rewrite LC, LL. assert (QQ : ((r * (m + 3)) ^ 2 <= m ^ 2 * (16 * r ^ 2))%nat). { cbn [Nat.pow]. rewrite !Nat.mul_1_r. assert (m + 3 <= 4 * m)%nat by lia. assert (Q3 : (r * (m + 3) <= r * (4 * m))%nat) by nia. nia. }
    rewrite Nat.mul_add_distr_l in HB. assert (RR : (r <= m ^ 2 * r)%nat) by nia. lia. }
  exists lev, t. split; [exact A1|]. split; [exact A2|]. split; [exact A3|]. split; [exact A4|]. split; [exact A5|]. split; [exists (pend r); split; [exact A6|exact A7]|]. split; [exact A8|]. split; [exact A12|]. split; [exact A11|].
  split. { intros s Hs. specialize (A9 s Hs). destruct s as [o a b c| | | |]; try exact I; try contradiction. destruct o; try exact I; try contradiction.
    destruct (program_shape r Hr) as (l & t' & EQ & G & _). rewrite EQ in EP. apply Ok_inj in EP. subst p. apply shape_in in Hs. destruct Hs as [(i & Q & _)|[Q|Q]]; try discriminate Q. destruct G as (_ & _ & G3). destruct (G3 _ Q) as (? & ? & ? & ? & Q' & [-> | ->] & _); discriminate Q'. }
  split; [exact A10|]. split; [apply lfile_ok; assumption|]. split; [apply lfile_regular; assumption|]. split; [rewrite lfile_nums, range_length, LL; apply Nat.mul_comm|]. rewrite lfile_sources, range_length, LC. reflexivity.
Qed.
Print Assumptions C51_accepted.

(** Run number y + (np / r - 3) x filters the window at row r y and column r x of the random
    image, with the coefficients as the compiler stores them. *)
Theorem C51_runs : forall r np cs p w rnd val x y o t, lanczos_files r np cs = Ok (p, w) -> rand_seq rnd -> (x < np / r - 3)%nat -> (y < np / r - 3)%nat ->
  run_of rnd p w (y + (np / r - 3) * x) val -> In (SOut o t) p ->
  val t = lanczos (map (fun c => ofZ (stored c)) cs) (fun j i => ofZ (rnd (np * (r * y + j) + (r * x + i))%nat)).
Proof.
  intros r np cs p w rnd val x y o t E RND Hx Hy (HV & HI) HO. destruct (files_inv _ _ _ _ _ E) as (Hr & EP & EW & LC & m & Hm & ->). clear E. assert (EM : (r * (m + 3) / r - 3 = m)%nat) by (rewrite Nat.mul_comm, Nat.div_mul by lia; lia). rewrite EM in *.
  rewrite wiring_eq in EW by assumption. apply Ok_inj in EW. subst w. rewrite (program_value r Hr p val o t EP HV HO).
  destruct (program_shape r Hr) as (l & t' & EQ & G & HT & _). rewrite EQ in EP. apply Ok_inj in EP. clear HO HV EQ.
  assert (IN : inputs p = zrange 0 (16 * r ^ 2 + 2 * r)) by (subst p; exact (shape_inputs _ _ _ _ _ G)).
  assert (V : forall q s, (q < 16 * r ^ 2 + 2 * r)%nat -> nth_error (lanczos_block r (r * (m + 3)) x y) q = Some s -> val (Z.of_nat q) = ofZ (stored (lgiven ((r * (m + 3)) ^ 2) cs rnd s))).
  { intros q s Hq Hs. apply (HI (Z.of_nat q) (Z.of_nat q)); [subst p; apply shape_in; left; exists (Z.of_nat q); split; [reflexivity|lia]|]. unfold rank. rewrite IN, range_length, rank_range by lia. rewrite Z.sub_0_r, Nat2Z.id.
    assert (HA := lall_at r m Hr Hm x y q Hx Hy Hq). rewrite Hs in HA. apply (lfile_feeds _ cs (lall r m)) with (s := s); [rewrite LC; apply (lall_range r m Hr Hm)|apply nth_error_Some; rewrite HA; discriminate|exact HA|reflexivity]. }
  assert (K : map val (zrange (Z.of_nat (16 * r ^ 2)) (2 * r)) = map (fun c => ofZ (stored c)) cs).
  { apply nth_ext with (d := 0%F) (d' := ofZ (stored 0)); [rewrite !map_length, range_length; symmetry; exact LC|]. intros j Hj. rewrite map_length, range_length in Hj. rewrite nth_map_range by exact Hj. rewrite (map_nth (fun c => ofZ (stored c))), <- Nat2Z.inj_add.
    rewrite (V (16 * r ^ 2 + j)%nat _ ltac:(lia) (block_coeff r m Hr Hm x y j Hj)). unfold lgiven. rewrite (proj2 (Z.ltb_ge _ _)) by lia. do 2 f_equal. f_equal. lia. }
  rewrite K. unfold lanczos. cbv zeta. rewrite app_length, rev_length, map_length, LC. apply sumn_ext. intros j Hj. f_equal. apply sumn_ext. intros i Hi. f_equal.
  rewrite (V (4 * r * j + i)%nat _ ltac:(cbn [Nat.pow]; nia) (block_pixel r m Hr Hm x y j i ltac:(lia) ltac:(lia))). unfold lgiven. assert (B : (r * (m + 3) * (r * y + j) + (r * x + i) < (r * (m + 3)) ^ 2)%nat).
  { assert (J : (r * y + j + 1 <= r * (m + 3))%nat) by nia. assert (X : (r * x + i < r * (m + 3))%nat) by nia. cbn [Nat.pow]. rewrite Nat.mul_1_r. generalize dependent (r * (m + 3))%nat. clear. intros; nia. }
  rewrite (proj2 (Z.ltb_lt _ _)) by lia. rewrite Nat2Z.id. rewrite stored_small by apply RND. reflexivity.
Qed.
Print Assumptions C51_runs.

Lemma lanczos_reads : forall rnd p w, (forall s, In s p -> match s with Sum _ _ _ | Op OBit _ _ _ | Op ONot _ _ _ => False | _ => True end) -> compile_lanczos rnd p w = compile_with 0 read_prog rnd p w.
Proof.
  intros rnd p w H. unfold compile_lanczos, compile_with, read_prog. assert (E : forall st, each read_stmt_lanczos p st = each read_stmt p st).
  { induction p as [|s p IH]; intros st; [reflexivity|]. cbn [each]. assert (Q : read_stmt_lanczos s st = read_stmt s st) by (specialize (H s (or_introl eq_refl)); destruct s as [[]| | | |]; try reflexivity; contradiction). rewrite Q.
    destruct (read_stmt s st); cbn [bind]; try reflexivity. apply IH. intros s' Hs'. apply H. right. exact Hs'. }
  rewrite E. reflexivity.
Qed.
(** Generators, compiler, circuit reader, prover and verifier together: if the number of runs
    is a power of two, the outputs of the circuit are the filtered image. *)
Theorem C51_end_to_end : forall r np cs k rnd, (0 < r)%nat -> (4 * r <= np)%nat -> (np mod r = 0)%nat -> length cs = (2 * r)%nat -> Forall is_ll cs -> rand_seq rnd ->
  ((np / r - 3) ^ 2 = 2 ^ k)%nat -> Z.of_nat ((np / r - 3) ^ 2 * (16 * r ^ 2 + 2 * r)) <= 2 ^ 27 ->
  exists p w ct mt C mx out cv (pos size : nat), lanczos_files r np cs = Ok (p, w) /\ compile_lanczos rnd p w = Ok (ct, mt) /\ read_circuit ct mt = Ok (C, mx) /\ zevaluate C = Ok (out, cv) /\
    (forall x y, (x < np / r - 3)%nat -> (y < np / r - 3)%nat -> exists z, nth_error out ((y + (np / r - 3) * x) * size + pos) = Some z /\
       rep z (lanczos (map (fun c => ofZ (stored c)) cs) (fun j i => ofZ (rnd (np * (r * y + j) + (r * x + i))%nat)))) /\
    (forall enc ec1 aes fr zr, (forall x, length (enc x) = ec1) -> (0 < ec1 <= 1000)%nat -> is_cipher aes -> stream_ok fr zr ->
       Z.of_nat (zmessages C * msize ec1 + 512) < 2 ^ 31 -> run_zk enc aes fr zr C = Ok true).
Proof.
  intros r np cs k rnd Hr HL HM LC HC RND HK HB. destruct (proj2 (C51_generates r np cs) (conj Hr (conj HL (conj HM LC)))) as (p & w & E).
  destruct (C51_accepted r np cs p w E HC HB) as (lev & t & A1 & A2 & A3 & A4 & A5 & (o & A6 & _) & A7 & A8 & A9 & A10 & A11 & A12 & A13 & A14 & A15).
  assert (NP : np = (r * ((np / r - 3) + 3))%nat). { apply Nat.mod_divides in HM; [|lia]. destruct HM as (c & ->). rewrite (Nat.mul_comm r c), Nat.div_mul by lia. nia. }
  set (m := (np / r - 3)%nat) in *. assert (M1 : (1 <= m)%nat) by nia. set (nin := (16 * r ^ 2 + 2 * r)%nat) in *. rewrite Nat2Z.inj_mul in HB. assert (M2 : 1 <= Z.of_nat (m ^ 2)) by (cbn [Nat.pow]; nia).
  assert (LI : length (inputs p) = nin) by (rewrite A5; apply range_length). assert (N1 : (1 <= nin)%nat) by (unfold nin; lia).
  destruct (compiled_outputs 0 rnd p w lev k RND ltac:(unfold is_int; lia) A1 A2 A3 A4) as (ct & mt & C & mx & out & cv & pos & size & R1 & R2 & R3 & R4 & R5 & R6).
  - intros Q. rewrite Q in LI. cbn in LI. lia.
  - exact A12.
  - exact A13.
  - rewrite A14, LI, HK. reflexivity.
  - assert (PK : 2 ^ Z.of_nat k = Z.of_nat (m ^ 2)) by (rewrite HK, Nat2Z.inj_pow; reflexivity). rewrite PK. nia.
  - rewrite A15. assert (QQ : (np ^ 2 <= m ^ 2 * (16 * r ^ 2))%nat). { rewrite NP. cbn [Nat.pow]. rewrite !Nat.mul_1_r. assert (m + 3 <= 4 * m)%nat by lia. assert (Q3 : (r * (m + 3) <= r * (4 * m))%nat) by nia. nia. }
    assert (NN : nin = (16 * r ^ 2 + 2 * r)%nat) by reflexivity. nia.
  - intros a Ha. specialize (A8 a Ha). rewrite A9 in A8. pose proof (log2_up_r r Hr) as LD. assert (R2' : Z.of_nat r < 100000). { assert (Q1 : Z.of_nat nin <= 2 ^ 27) by nia. assert (Q2 : 16 * (Z.of_nat r * Z.of_nat r) <= 2 ^ 27) by (unfold nin in Q1; cbn [Nat.pow] in Q1; lia). clear -Q2. nia. } lia.
  - intros t' a b Q. destruct (A10 _ Q).
  - exists p, w, ct, mt, C, mx, out, cv, (pos t), size. split; [exact E|]. split; [rewrite lanczos_reads by exact A10; exact R1|]. split; [exact R2|]. split; [exact R3|]. split; [|exact R6].
    intros x y Hx Hy. assert (HR : (y + m * x < 2 ^ k)%nat) by (rewrite <- HK; cbn [Nat.pow]; nia). destruct (R4 _ HR) as (val & HV). destruct (R5 t A7 A8 _ val HR HV) as (z & Z1 & Z2). exists z. split; [exact Z1|].
    rewrite <- (C51_runs r np cs p w rnd val x y o t E RND Hx Hy HV A6). exact Z2.
Qed.
Print Assumptions C51_end_to_end.

(** The coefficients of the test: images of the five sizes of build.sh *)
Lemma size_check : forall np k, In (np, k) [(112, 4); (176, 6); (304, 8); (560, 10); (1072, 12)]%nat ->
  (4 * 16 <= np)%nat /\ (np mod 16 = 0)%nat /\ ((np / 16 - 3) ^ 2 = 2 ^ k)%nat /\ Z.of_nat ((np / 16 - 3) ^ 2 * (16 * 16 ^ 2 + 2 * 16)) <= 2 ^ 27.
Proof.
  intros np k H. assert (A : (4 * 16 <= np)%nat /\ (np mod 16 = 0)%nat /\ ((np / 16 - 3) ^ 2 = 2 ^ k)%nat /\ (np / 16 - 3 <= 64)%nat).
  { cbn [In] in H. repeat (destruct H as [H|H]; [injection H as <- <-; split; [lia|]; split; [reflexivity|]; split; [reflexivity|]; apply Nat.leb_le; reflexivity|]). contradiction. }
  destruct A as (A1 & A2 & A3 & A4). split; [exact A1|]. split; [exact A2|]. split; [exact A3|]. rewrite Nat2Z.inj_mul, Nat2Z.inj_add, !Nat2Z.inj_mul, !Nat2Z.inj_pow. generalize dependent (np / 16 - 3)%nat. intros m _ Hm. change (Z.of_nat 2) with 2. change (Z.of_nat 16) with 16. nia.
Qed.
Lemma coeffs_ll : Forall is_ll coeffs_16.
Proof. unfold coeffs_16. repeat (constructor; [unfold is_ll; lia|]). constructor. Qed.
Example C51_example : rand_seq rnd_one /\ Forall is_ll coeffs_16 /\ length coeffs_16 = (2 * 16)%nat /\ (0 < 16)%nat /\ (4 * 16 <= 112)%nat /\ (112 mod 16 = 0)%nat /\ ((112 / 16 - 3) ^ 2 = 2 ^ 4)%nat /\
  Z.of_nat ((112 / 16 - 3) ^ 2 * (16 * 16 ^ 2 + 2 * 16)) <= 2 ^ 27.
Proof.
  split; [exact rnd_one_ok|]. split; [exact coeffs_ll|]. split; [reflexivity|]. split; [lia|]. apply size_check. left. reflexivity.
Qed.

(** ** Coefficients that are negative or do not fit are changed *)
Lemma sumn_point : forall n a f g, (a < n)%nat -> (forall i, (i < n)%nat -> f i = if (i =? a)%nat then g else 0%F) -> sumn n f = g.
Proof. intros n a f g Ha H. rewrite (sumn_ext n f (fun i => ind (i =? a)%nat * g)%F) by (intros i Hi; rewrite H by exact Hi; destruct (i =? a)%nat; cbn [ind]; ring). apply (sumn_ind n a (fun _ => g) Ha). Qed.
Lemma lanczos_point : forall k pix a, (a < length (rev k ++ k))%nat -> (forall y x, (y < length (rev k ++ k))%nat -> (x < length (rev k ++ k))%nat -> pix y x = ind ((y =? a) && (x =? a))%nat) ->
  lanczos k pix = (nth a (rev k ++ k) 0 * nth a (rev k ++ k) 0)%F.
Proof.
  intros k pix a Ha H. unfold lanczos. cbv zeta. set (w := rev k ++ k) in *. apply (sumn_point _ a); [exact Ha|]. intros y Hy. rewrite (sumn_point _ a _ (if (y =? a)%nat then nth a w 0%F else 0%F) Ha).
  - destruct (Nat.eqb_spec y a) as [->|]; ring.
  - intros x Hx. rewrite H by assumption. destruct (Nat.eqb_spec x a) as [->|]; destruct (y =? a)%nat; cbn [andb ind]; ring.
Qed.
Lemma stored_square : forall c, is_ll c -> stored c <> c -> (ofZ (stored c) * ofZ (stored c) <> ofZ c * ofZ c)%F.
Proof.
  intros c HC HS E. assert (B : 0 <= stored c < 2 ^ 64) by (unfold stored; apply Z.mod_pos_bound; lia). assert (PB : 2 ^ 66 < P) by (vm_compute; reflexivity).
  assert (Q : (ofZ (stored c - c) * ofZ (stored c + c) = 0)%F) by (rewrite ofZ_sub, ofZ_add; transitivity (ofZ (stored c) * ofZ (stored c) - ofZ c * ofZ c)%F; [ring|rewrite E; ring]).
  assert (Z0 : forall z, Z.abs z < P -> ofZ z = 0%F -> z = 0).
  { intros z Hz Ez. change 0%F with (ofZ 0) in Ez. apply ofZ_eq_inv in Ez. rewrite Z.mod_0_l in Ez by apply P_nz. apply Z.mod_divide in Ez; [|apply P_nz]. destruct Ez as (q & ->). destruct (Z.eq_dec q 0) as [->|]; [reflexivity|]. nia. }
  unfold is_ll in HC. apply F_integral in Q. destruct Q as [Q|Q]; apply Z0 in Q; try lia.
  assert (C0 : - 2 ^ 63 <= c <= 0) by lia. destruct (Z.eq_dec c 0) as [->|C1]; [apply HS; reflexivity|].
  assert (S1 : stored c = - c) by lia. unfold stored in S1. assert (IB : - 2 ^ 31 <= int32 c < 2 ^ 31) by (unfold int32; pose proof (Z.mod_pos_bound c (2 ^ 32) ltac:(lia)); destruct (Z.ltb_spec (c mod 2 ^ 32) (2 ^ 31)); lia).
  destruct (Z.ltb_spec (int32 c) 0) as [N|N].
  - rewrite <- (Z.mod_add _ 1 (2 ^ 64)), Z.mod_small in S1 by lia. lia.
  - rewrite Z.mod_small in S1 by lia. assert (CS : - 2 ^ 31 < c < 0) by lia. unfold int32 in S1. rewrite <- (Z.mod_add c 1 (2 ^ 32)), Z.mod_small in S1 by lia. destruct (Z.ltb_spec (c + 1 * 2 ^ 32) (2 ^ 31)); lia.
Qed.
Theorem C51_coefficients_refuted : forall r np cs k c, (0 < r)%nat -> (4 * r <= np)%nat -> (np mod r = 0)%nat -> length cs = (2 * r)%nat -> Forall is_ll cs ->
  ((np / r - 3) ^ 2 = 2 ^ k)%nat -> Z.of_nat ((np / r - 3) ^ 2 * (16 * r ^ 2 + 2 * r)) <= 2 ^ 27 -> In c cs -> stored c <> c ->
  exists rnd p w ct mt C mx out cv (pos size : nat) z a, (forall i, rnd i = 0 \/ rnd i = 1) /\ lanczos_files r np cs = Ok (p, w) /\ compile_lanczos rnd p w = Ok (ct, mt) /\ read_circuit ct mt = Ok (C, mx) /\ zevaluate C = Ok (out, cv) /\
    (forall x y, (x < np / r - 3)%nat -> (y < np / r - 3)%nat -> exists z, nth_error out ((y + (np / r - 3) * x) * size + pos) = Some z /\
       rep z (lanczos (map (fun c => ofZ (stored c)) cs) (fun j i => ofZ (rnd (np * (r * y + j) + (r * x + i))%nat)))) /\
    nth_error out pos = Some z /\ rep z a /\ a <> lanczos (map ofZ cs) (fun j i => ofZ (rnd (np * j + i)%nat)) /\
    (forall enc ec1 aes fr zr, (forall x, length (enc x) = ec1) -> (0 < ec1 <= 1000)%nat -> is_cipher aes -> stream_ok fr zr ->
       Z.of_nat (zmessages C * msize ec1 + 512) < 2 ^ 31 -> run_zk enc aes fr zr C = Ok true).
Proof.
  intros r np cs k c Hr HL HM LC HC HK HB HI HS. apply In_nth_error in HI. destruct HI as (j & HJ). assert (J : (j < 2 * r)%nat) by (rewrite <- LC; apply nth_error_Some; rewrite HJ; discriminate).
  set (a := (2 * r + j)%nat). set (rnd := fun i => if (i =? np * a + a)%nat then 1 else 0). assert (RND : rand_seq rnd) by (intros i; unfold rnd; destruct (i =? np * a + a)%nat; lia).
  destruct (C51_end_to_end r np cs k rnd Hr HL HM LC HC RND HK HB) as (p & w & ct & mt & C & mx & out & cv & pos & size & E1 & E2 & E3 & E4 & E5 & E6).
  assert (M1 : (0 < np / r - 3)%nat) by (destruct (np / r - 3)%nat; [cbn in HK; pose proof (Nat.pow_nonzero 2 k); lia|lia]). destruct (E5 0%nat 0%nat M1 M1) as (z & Z1 & Z2).
  replace ((0 + (np / r - 3) * 0) * size + pos)%nat with pos in Z1 by lia.
  exists rnd, p, w, ct, mt, C, mx, out, cv, pos, size, z. eexists. split; [intros i; unfold rnd; destruct (i =? np * a + a)%nat; auto|]. split; [exact E1|]. split; [exact E2|]. split; [exact E3|]. split; [exact E4|]. split; [exact E5|]. split; [exact Z1|]. split; [exact Z2|]. split; [|exact E6].
  assert (W : forall f : Z -> F, length (rev (map f cs) ++ map f cs) = (4 * r)%nat) by (intros f; rewrite app_length, rev_length, map_length, LC; lia).
  assert (PT : forall f : Z -> F, nth a (rev (map f cs) ++ map f cs) 0%F = f c).
  { intros f. rewrite app_nth2; rewrite rev_length, map_length, LC; unfold a; [|lia]. replace (2 * r + j - 2 * r)%nat with j by lia. apply nth_error_nth. rewrite nth_error_map, HJ. reflexivity. }
  assert (PX : forall y x, (y < 4 * r)%nat -> (x < 4 * r)%nat -> ofZ (rnd (np * y + x)%nat) = ind ((y =? a) && (x =? a))%nat).
  { intros y x Hy Hx. unfold rnd. destruct (Nat.eqb_spec (np * y + x) (np * a + a)) as [Q|Q].
    - assert (y = a /\ x = a) as (-> & ->). { unfold a in *. clear -Q HL J Hx Hy. assert (y = 2 * r + j)%nat by nia. nia. } rewrite Nat.eqb_refl. reflexivity.
    - destruct (Nat.eqb_spec y a) as [->|]; [|reflexivity]. destruct (Nat.eqb_spec x a) as [->|]; [lia|reflexivity]. }
  rewrite (lanczos_point _ _ a); [|rewrite W; unfold a; lia|intros y x; rewrite W; intros Hy Hx; replace (np * (r * 0 + y) + (r * 0 + x))%nat with (np * y + x)%nat by lia; exact (PX y x Hy Hx)].
  rewrite (lanczos_point _ _ a); [|rewrite W; unfold a; lia|intros y x; rewrite W; exact (PX y x)]. rewrite !PT. apply stored_square; [|exact HS]. rewrite Forall_forall in HC. apply HC. exact (nth_error_In _ _ HJ).
Qed.
Print Assumptions C51_coefficients_refuted.

(** So none of the five circuits of the test filters every image with the intended coefficients. *)
Theorem C51_test_refuted : forall np k, In (np, k) [(112, 4); (176, 6); (304, 8); (560, 10); (1072, 12)]%nat ->
  exists rnd p w ct mt C mx out cv (pos size : nat), (forall i, rnd i = 0 \/ rnd i = 1) /\ lanczos_files 16 np coeffs_16 = Ok (p, w) /\ compile_lanczos rnd p w = Ok (ct, mt) /\ read_circuit ct mt = Ok (C, mx) /\ zevaluate C = Ok (out, cv) /\
    exists z a, nth_error out pos = Some z /\ rep z a /\ a = lanczos (map (fun c => ofZ (stored c)) coeffs_16) (fun j i => ofZ (rnd (np * j + i)%nat)) /\ a <> lanczos (map ofZ coeffs_16) (fun j i => ofZ (rnd (np * j + i)%nat)).
Proof.
  intros np k H. destruct (size_check np k H) as (A1 & A2 & A3 & A4).
  destruct (C51_coefficients_refuted 16 np coeffs_16 k 4286316544 ltac:(lia) A1 A2 eq_refl coeffs_ll A3 A4 (or_introl eq_refl) ltac:(discriminate)) as (rnd & p & w & ct & mt & C & mx & out & cv & pos & size & z & a & R0 & E1 & E2 & E3 & E4 & E5 & Z1 & Z2 & Z3 & _).
  exists rnd, p, w, ct, mt, C, mx, out, cv, pos, size. split; [exact R0|]. split; [exact E1|]. split; [exact E2|]. split; [exact E3|]. split; [exact E4|]. exists z, a. split; [exact Z1|]. split; [exact Z2|]. split; [|exact Z3].
  assert (M1 : (0 < np / 16 - 3)%nat) by (destruct (np / 16 - 3)%nat; [cbn in A3; pose proof (Nat.pow_nonzero 2 k); lia|lia]). destruct (E5 0%nat 0%nat M1 M1) as (z' & X1 & X2). replace ((0 + (np / 16 - 3) * 0) * size + pos)%nat with pos in X1 by lia.
  rewrite Z1 in X1. injection X1 as <-. rewrite (rep_fun _ _ _ Z2 X2). reflexivity.
Qed.
Print Assumptions C51_test_refuted.
