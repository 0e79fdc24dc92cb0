(** C75: the direct Lanczos circuit generator (bin/gen_lanczos.py). *)
From Coq Require Import ZArith List Bool Arith Lia.
From Verif Require Import Limbs LimbsProofs Field FieldProofs Fp Base Circuit FastVerifier FastVerifierProofs Loader SpecLoader ZkEval SpecTranscript Transcript ZkProver ZkVerifier
  ZkOpenProofs ZkComplete SpecZk ZkLoaded SpecCompiler SpecLanczos LanczosPrint LanczosPrintProofs.
Import ListNotations.
Open Scope nat_scope.

(** What the pixel at column [c] of a window is multiplied by in the written circuit: the
    coefficients forwards, then backwards without repeating the last, then a pixel. *)
Definition row_weight (r np : nat) (cs : list Z) (image : nat -> Z) (c : nat) : F :=
  if c <? 2 * r then ofZ (stored (nth c cs 0%Z))
  else if c =? 4 * r - 1 then ofZ (image (np * np - 1)) else ofZ (stored (nth (4 * r - 2 - c) cs 0%Z)).

(** The generator ends normally exactly on the arguments its usage text allows, with [2 r] coefficients. *)
Theorem C75_generates : forall r np cs image, (exists f, gen_lanczos r np cs image = Ok f) <->
  1 <= r /\ 4 * r <= np /\ np mod r = 0 /\ length cs = 2 * r.
Proof.
  intros r np cs image. unfold gen_lanczos. split.
  - intros [f E]. destruct (Nat.ltb_spec np (4 * r)); [discriminate|]. destruct (Nat.eqb_spec r 0); [discriminate|].
    destruct (Nat.eqb_spec (np mod r) 0); [|discriminate]. cbn [orb negb] in E. unfold print_circuit in E. cbv zeta in E. rewrite sub_padded in E by lia.
    destruct (Nat.eqb_spec (length cs) (2 * r)); [lia|discriminate].
  - intros (H1 & H2 & H3 & H4). replace (np <? 4 * r) with false by (symmetry; apply Nat.ltb_ge; lia).
    replace (r =? 0) with false by (symmetry; apply Nat.eqb_neq; lia). rewrite H3. cbn [Nat.eqb orb negb]. unfold print_circuit. cbv zeta.
    rewrite sub_padded, H4, Nat.eqb_refl by lia. eexists. reflexivity.
Qed.
Print Assumptions C75_generates.

(** The file loads; its outputs are sums over the window, and the honest run on it is accepted. *)
Theorem C75_outputs : forall r k image cs np, np = (2 ^ k + 3) * r -> 1 <= r -> length cs = 2 * r -> (forall c, In c cs -> is_ll c) -> (forall i, (0 <= image i <= 256)%Z) ->
  np * np + 2 * r < 2 ^ 30 -> 2 ^ k * 2 ^ k * (4 * r * (4 * r)) < 2 ^ 30 ->
  exists f C mx out cv, gen_lanczos r np cs image = Ok f /\ read_circuit f (repeat 0%Z 20) = Ok (C, mx) /\ zevaluate C = Ok (out, cv) /\
  (forall x y, x < 2 ^ k -> y < 2 ^ k -> exists v, nth_error out (x * 2 ^ k + y) = Some v /\
     rep v (sumn (4 * r) (fun i => sumn (4 * r) (fun c => ofZ (image (np * (r * y + i) + (r * x + c))%nat) * row_weight r np cs image c)))%F) /\
  (forall enc ec1 aes fr zr, (forall x, length (enc x) = ec1) -> 0 < ec1 <= 1000 -> is_cipher aes -> stream_ok fr zr -> run_zk enc aes fr zr C = Ok true).
Proof.
  intros r k image cs np -> Hr HL Hll Him B1 B2.
  assert (Hn : 1 <= 2 ^ k) by (pose proof (Nat.pow_nonzero 2 k); lia).
  destruct (pdesc_run r (2 ^ k) image cs Hr Hn HL Hll Him B1 B2 k eq_refl) as (mx & out & cv & H1 & H2 & H3 & H4).
  exists (circuit_tokens (d_layers (pdesc r (2 ^ k) image cs))), (denotes (pdesc r (2 ^ k) image cs)), mx, out, cv.
  split; [apply gen_ok; assumption|]. split; [exact H1|]. split; [exact H2|]. split; [exact H3|exact H4].
Qed.
Print Assumptions C75_outputs.

(** Another number of windows per side is allowed and loads, but evaluating the circuit is undefined. *)
Theorem C75_other_sizes : forall r np image cs, 1 <= r -> 4 * r <= np -> np mod r = 0 -> (forall k, np / r - 3 <> 2 ^ k) -> length cs = 2 * r ->
  (forall c, In c cs -> is_ll c) -> (forall i, (0 <= image i <= 256)%Z) -> np * np + 2 * r < 2 ^ 30 -> (np / r - 3) * (np / r - 3) * (4 * r * (4 * r)) < 2 ^ 30 ->
  exists f C mx, gen_lanczos r np cs image = Ok f /\ read_circuit f (repeat 0%Z 20) = Ok (C, mx) /\ zevaluate C = UB.
Proof.
  intros r np image cs Hr H4 HM HN HL Hll Him. set (n := np / r - 3) in *.
  assert (Q : 4 <= np / r) by (apply Nat.div_le_lower_bound; lia).
  assert (E : np = (n + 3) * r) by (unfold n; pose proof (Nat.div_mod np r); rewrite HM in *; rewrite Nat.sub_add by lia; lia).
  assert (Hn : 1 <= n) by (unfold n; lia). clearbody n. subst np. intros B1 B2.
  destruct (pdesc_other r n image cs Hr Hn HL Hll Him B1 B2 HN) as (mx & H1 & H2).
  exists (circuit_tokens (d_layers (pdesc r n image cs))), (denotes (pdesc r n image cs)), mx. split; [apply gen_ok; assumption|]. split; [exact H1|exact H2].
Qed.
Print Assumptions C75_other_sizes.

(** Not the filter: for every size, on the image of ones and with all coefficients zero the
    filter is zero and every output is [4 r]. *)
Theorem C75_filter_refuted : forall r k, 1 <= r -> ((2 ^ k + 3) * r) * ((2 ^ k + 3) * r) + 2 * r < 2 ^ 30 -> 2 ^ k * 2 ^ k * (4 * r * (4 * r)) < 2 ^ 30 ->
  exists image cs f C mx out cv, length cs = 2 * r /\ (forall c, In c cs -> is_ll c) /\ (forall i, (0 <= image i <= 256)%Z) /\
  gen_lanczos r ((2 ^ k + 3) * r) cs image = Ok f /\ read_circuit f (repeat 0%Z 20) = Ok (C, mx) /\ zevaluate C = Ok (out, cv) /\
  forall x y, x < 2 ^ k -> y < 2 ^ k -> exists v, nth_error out (x * 2 ^ k + y) = Some v /\ rep v (ofZ (Z.of_nat (4 * r))) /\
    ~ rep v (lanczos (map (fun c => ofZ (stored c)) cs) (fun i c => ofZ (image ((2 ^ k + 3) * r * (r * y + i) + (r * x + c))))).
Proof.
  intros r k Hr B1 B2. set (image := fun _ : nat => 1%Z). set (cs := repeat 0%Z (2 * r)).
  assert (HL : length cs = 2 * r) by apply repeat_length.
  assert (Hll : forall c, In c cs -> is_ll c) by (intros c H; apply repeat_spec in H; subst c; unfold is_ll; lia).
  assert (Him : forall i, (0 <= image i <= 256)%Z) by (intro; unfold image; lia).
  destruct (C75_outputs r k image cs _ eq_refl Hr HL Hll Him B1 B2) as (f & C & mx & out & cv & H1 & H2 & H3 & H4 & _).
  exists image, cs, f, C, mx, out, cv. split; [exact HL|]. split; [exact Hll|]. split; [exact Him|]. split; [exact H1|]. split; [exact H2|]. split; [exact H3|].
  intros x y Hx Hy. destruct (H4 x y Hx Hy) as (v & E & Rv). exists v. split; [exact E|].
  assert (NZ : forall c, nth c cs 0%Z = 0%Z) by (intro c; unfold cs; apply nth_repeat).
  assert (ZS : stored 0 = 0%Z) by reflexivity.
  assert (RW : forall c, c < 4 * r -> row_weight r ((2 ^ k + 3) * r) cs image c = ind (c =? 4 * r - 1)).
  { intros c Hc. unfold row_weight. rewrite !NZ, ZS. destruct (Nat.ltb_spec c (2 * r)), (Nat.eqb_spec c (4 * r - 1)); try lia; reflexivity. }
  assert (S : sumn (4 * r) (fun i => sumn (4 * r) (fun c => ofZ (image ((2 ^ k + 3) * r * (r * y + i) + (r * x + c))%nat) * row_weight r ((2 ^ k + 3) * r) cs image c))%F = ofZ (Z.of_nat (4 * r))).
  { transitivity (sumn (4 * r) (fun _ => 1%F)).
    - apply sumn_ext. intros i _. transitivity (sumn (4 * r) (fun c => ind (c =? 4 * r - 1) * (fun _ => 1%F) c)%F).
      + apply sumn_ext. intros c Hc. rewrite (RW c Hc). unfold image. change (ofZ 1) with 1%F. ring.
      + apply sumn_ind. lia.
    - generalize (4 * r). intro m. induction m as [|m IH]; [reflexivity|]. cbn [sumn]. rewrite IH, Nat2Z.inj_succ. unfold Z.succ. rewrite ofZ_add.
      change (ofZ 1) with 1%F. ring. }
  rewrite S in Rv. split; [exact Rv|]. intro Q.
  assert (LZ : lanczos (map (fun c => ofZ (stored c)) cs) (fun i c => ofZ (image ((2 ^ k + 3) * r * (r * y + i) + (r * x + c)))) = ofZ 0).
  { unfold lanczos. cbv zeta. apply sumn_zero'. intros i _. set (w := rev _ ++ _).
    assert (W : forall j, nth j w 0%F = 0%F).
    { intro j. destruct (nth_in_or_default j w 0%F) as [I|D]; [|exact D]. revert I. generalize (nth j w 0%F). intros a I. unfold w in I.
      apply in_app_or in I. destruct I as [I|I]; [apply in_rev in I|]; apply in_map_iff in I; destruct I as (c & <- & I); apply repeat_spec in I; subst c; rewrite ZS; reflexivity. }
    rewrite W. ring. }
  rewrite LZ in Q. destruct Rv as [_ R1]. destruct Q as [_ R2].
  assert (X : fz (ofZ (Z.of_nat (4 * r))) = fz (ofZ 0)) by congruence.
  assert (Y : ofZ (Z.of_nat (4 * r)) = ofZ 0) by (apply F_eq; exact X).
  apply ofZ_eq_inv in Y. rewrite Zmod_0_l in Y. rewrite Z.mod_small in Y; [lia|].
  assert (4 * r < 2 ^ 30). { assert (1 <= 2 ^ k) by (pose proof (Nat.pow_nonzero 2 k); lia). nia. }
  apply inj_lt in H. rewrite Nat2Z.inj_pow in H. change (Z.of_nat 2 ^ Z.of_nat 30)%Z with 1073741824%Z in H.
  assert (1073741824 < P)%Z by reflexivity. lia.
Qed.
Print Assumptions C75_filter_refuted.

(** The smallest circuit: one window of four by four pixels, coefficients 10 and 20, pixels their own numbers. *)
Example C75_example : exists f, gen_lanczos 1 4 [10; 20]%Z (fun i => Z.of_nat (Nat.min i 256)) = Ok f /\
  firstn 6 f = [4; 32; 3; 0; 0; 0]%Z /\ skipn (length f - 5) f = [1; 5; 0; 0; 4]%Z /\
  firstn 16 (skipn (2 + 4 * 32 + 1) f) = [1;0;0;16; 1;1;1;17; 1;2;2;16; 1;3;3;15]%Z.
Proof. eexists. split; [vm_compute; reflexivity|]. vm_compute. repeat split. Qed.
Example C75_outputs_example : 4 = (2 ^ 0 + 3) * 1 /\ length [10; 20]%Z = 2 * 1 /\ (forall c, In c [10; 20]%Z -> is_ll c) /\
  (forall i, (0 <= Z.of_nat (Nat.min i 256) <= 256)%Z) /\ 4 * 4 + 2 * 1 < 2 ^ 30 /\ 2 ^ 0 * 2 ^ 0 * (4 * 1 * (4 * 1)) < 2 ^ 30.
Proof.
  assert (1024 <= 2 ^ 30) by (change 1024 with (2 ^ 10); apply Nat.pow_le_mono_r; lia).
  split; [reflexivity|]. split; [reflexivity|]. split; [intros c [<-|[<-|[]]]; unfold is_ll; lia|]. split; [intro; lia|].
  change (2 ^ 0) with 1. lia.
Qed.
Example C75_refuted_example : 1 <= 2 /\ ((2 ^ 2 + 3) * 2) * ((2 ^ 2 + 3) * 2) + 2 * 2 < 2 ^ 30 /\ 2 ^ 2 * 2 ^ 2 * (4 * 2 * (4 * 2)) < 2 ^ 30.
Proof.
  assert (2048 <= 2 ^ 30) by (change 2048 with (2 ^ 11); apply Nat.pow_le_mono_r; lia). change (2 ^ 2) with 4. lia.
Qed.
Example C75_other_example : 4 * 2 <= 12 /\ 12 mod 2 = 0 /\ (forall k, 12 / 2 - 3 <> 2 ^ k) /\ 12 * 12 + 2 * 2 < 2 ^ 30 /\ (12 / 2 - 3) * (12 / 2 - 3) * (4 * 2 * (4 * 2)) < 2 ^ 30.
Proof.
  assert (1024 <= 2 ^ 30) by (change 1024 with (2 ^ 10); apply Nat.pow_le_mono_r; lia). change (12 / 2 - 3) with 3.
  split; [lia|]. split; [reflexivity|]. split; [|lia]. intros [|[|k]]; [discriminate|discriminate|]. rewrite !Nat.pow_succ_r'. lia.
Qed.
