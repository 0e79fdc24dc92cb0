(** * The SHA-256 program (C49)

    The inputs of the program are the variables 0 .. 7225, among them 34 .. 49 for the
    block, 2210 .. 2273 for the round constants, 2274 .. 2281 for the hash value before
    the block, and 2282 .. 2289 for the hash value after it. *)
From Coq Require Import ZArith List Bool Arith Lia.
From Verif Require Import Base Fp SpecLoader Program SpecCompiler Compiler SpecSha ShaGen ShaCheck ShaProgram CompilerDone.
Import ListNotations.
Open Scope Z_scope.

(** The generator writes a program that meets the conditions of the circuit compiler
    (C48), with ten levels. *)
Theorem C49_program : exists p lev, sha_program = Ok p /\ prog_ok p /\ ordered p /\ levels_of p lev /\ regular p lev /\
  inputs p = map Z.of_nat (seq 0 (Z.to_nat 7226)) /\ Z.of_nat (gate_count p lev) = 58034 /\ (forall t, (lev t <= 9)%nat).
Proof.
  destruct sha_shape as (p & m & _ & _ & _ & _ & EP & [_ OK ORD LEV REG CNT DEP] & IN & _). exists p, (lev_of m). split; [exact EP|]. split; [exact OK|]. split; [exact ORD|]. split; [exact LEV|]. split; [exact REG|].
  split; [|split; [exact CNT|exact DEP]]. rewrite IN, range_map. apply map_ext. intros j. apply Z.add_0_l.
Qed.
Print Assumptions C49_program.

(** Every run of the program in which all outputs are zero, and constant 0 is zero, the
    round constants are words, and so are W_0, H_3 and H_7: the block and the hash value
    are words, and the new hash value is the one of SHA-256. *)
Theorem C49_sound : forall p val, sha_program = Ok p -> (forall s, In s p -> holds val s) -> val 0 = 0%F -> (forall o t, In (SOut o t) p -> val t = 0%F) ->
  Forall word (numbers val 2210 64) -> word (fz (val 34)) -> word (fz (val 2277)) -> word (fz (val 2281)) ->
  Forall word (numbers val 34 16) /\ Forall word (numbers val 2274 8) /\ numbers val 2282 8 = compress (numbers val 2210 64) (numbers val 2274 8) (numbers val 34 16).
Proof. exact sha_sound. Qed.
Print Assumptions C49_sound.

(** For all words there is such a run. *)
Theorem C49_complete : forall p K H M, sha_program = Ok p -> length K = 64%nat -> length H = 8%nat -> length M = 16%nat -> Forall word K -> Forall word H -> Forall word M ->
  exists val, (forall s, In s p -> holds val s) /\ val 0 = 0%F /\ (forall o t, In (SOut o t) p -> val t = 0%F) /\
    numbers val 2210 64 = K /\ numbers val 2274 8 = H /\ numbers val 34 16 = M /\ numbers val 2282 8 = compress K H M.
Proof.
  intros p K H M EP LK LH LM WK WH WM. destruct (honest_run K H M 0 LK LH LM WK WH WM ltac:(lia)) with (p := p) as (val & R1 & R2 & R3 & R4 & R5 & R6 & R7); [|exact EP|].
  - assert (W : forall i, (i < 64)%nat -> word (hw M i)) by (intros i Hi; exact (hw_word K H M LK LH LM WM i Hi)).
    unfold hsum. rewrite (hw'_pos K H M 0 LK LH LM (16 - 7)) by lia. unfold hw' at 1. change (16 - 16)%nat with 0%nat. cbv iota.
    pose proof (W 0%nat ltac:(lia)) as A. pose proof (W (16 - 7)%nat ltac:(lia)) as B. pose proof (ShaBits.sigma0_word _ (W (16 - 15)%nat ltac:(lia))) as C. pose proof (ShaBits.sigma1_word _ (W (16 - 2)%nat ltac:(lia))) as D.
    unfold word in *. change (2 ^ 34) with (4 * 2 ^ 32). lia.
  - exists val. split; [exact R1|]. split; [exact R2|]. split; [exact R3|]. split; [exact R4|]. split; [exact R5|]. split; [|exact R7]. rewrite R6. destruct M as [|x M]; [discriminate LM|]. cbn [nth tl]. f_equal. lia.
Qed.
Print Assumptions C49_complete.

(** The run for the test vector of the standard. *)
Example C49_example : exists p val, sha_program = Ok p /\ (forall s, In s p -> holds val s) /\ val 0 = 0%F /\ (forall o t, In (SOut o t) p -> val t = 0%F) /\
  Forall word (numbers val 2210 64) /\ word (fz (val 34)) /\ word (fz (val 2277)) /\ word (fz (val 2281)) /\
  numbers val 34 16 = [0x61626380; 0; 0; 0; 0; 0; 0; 0; 0; 0; 0; 0; 0; 0; 0; 24] /\
  numbers val 2282 8 = [0xba7816bf; 0x8f01cfea; 0x414140de; 0x5dae2223; 0xb00361a3; 0x96177a9c; 0xb410ff61; 0xf20015ad].
Proof.
  destruct C49_program as (p & _ & EP & _). assert (B : forall l, forallb (fun x => (0 <=? x) && (x <? 2 ^ 32)) l = true -> Forall word l).
  { intros l Hl. rewrite forallb_forall in Hl. apply Forall_forall. intros x Hx. specialize (Hl x Hx). apply andb_true_iff in Hl. destruct Hl as (H1 & H2). apply Z.leb_le in H1. apply Z.ltb_lt in H2. unfold word. lia. }
  assert (BK : Forall word sha_K) by (apply B; vm_compute; reflexivity). assert (BH : Forall word sha_H0) by (apply B; vm_compute; reflexivity).
  destruct (C49_complete p sha_K sha_H0 [0x61626380; 0; 0; 0; 0; 0; 0; 0; 0; 0; 0; 0; 0; 0; 0; 24] EP) as (val & R1 & R2 & R3 & R4 & R5 & R6 & R7); [reflexivity|reflexivity|reflexivity|exact BK|exact BH|apply B; vm_compute; reflexivity|].
  exists p, val. split; [exact EP|]. split; [exact R1|]. split; [exact R2|]. split; [exact R3|]. split; [rewrite R4; exact BK|].
  assert (E34 : fz (val 34) = 0x61626380) by exact (f_equal (fun l => nth 0 l 0) R6). assert (E2277 : fz (val 2277) = 0xa54ff53a) by exact (f_equal (fun l => nth 3 l 0) R5).
  assert (E2281 : fz (val 2281) = 0x5be0cd19) by exact (f_equal (fun l => nth 7 l 0) R5). rewrite E34, E2277, E2281. split; [unfold word; lia|]. split; [unfold word; lia|]. split; [unfold word; lia|]. split; [exact R6|].
  rewrite R7. exact sha256_abc.
Qed.

(** The first word of the block is not checked to be a word: two different inputs give
    the same hash value. *)
Theorem C49_word_refuted : exists p val val', sha_program = Ok p /\ (forall s, In s p -> holds val s) /\ (forall s, In s p -> holds val' s) /\ val 0 = 0%F /\ val' 0 = 0%F /\
  (forall o t, In (SOut o t) p -> val t = 0%F /\ val' t = 0%F) /\ numbers val 2210 64 = sha_K /\ numbers val' 2210 64 = sha_K /\ numbers val 2274 8 = sha_H0 /\ numbers val' 2274 8 = sha_H0 /\
  numbers val 34 16 = repeat 0 16 /\ numbers val' 34 16 = 2 ^ 32 :: repeat 0 15 /\ numbers val 2282 8 = numbers val' 2282 8.
Proof.
  destruct C49_program as (p & _ & EP & _). assert (B : forall l, forallb (fun x => (0 <=? x) && (x <? 2 ^ 32)) l = true -> Forall word l).
  { intros l Hl. rewrite forallb_forall in Hl. apply Forall_forall. intros x Hx. specialize (Hl x Hx). apply andb_true_iff in Hl. destruct Hl as (H1 & H2). apply Z.leb_le in H1. apply Z.ltb_lt in H2. unfold word. lia. }
  assert (BK : Forall word sha_K) by (apply B; vm_compute; reflexivity). assert (BH : Forall word sha_H0) by (apply B; vm_compute; reflexivity). assert (BM : Forall word (repeat 0 16)) by (apply B; vm_compute; reflexivity).
  destruct (honest_run sha_K sha_H0 (repeat 0 16) 0 eq_refl eq_refl eq_refl BK BH BM ltac:(lia) ltac:(vm_compute; reflexivity) p EP) as (val & R1 & R2 & R3 & R4 & R5 & R6 & R7).
  destruct (honest_run sha_K sha_H0 (repeat 0 16) 1 eq_refl eq_refl eq_refl BK BH BM ltac:(lia) ltac:(vm_compute; reflexivity) p EP) as (val' & R1' & R2' & R3' & R4' & R5' & R6' & R7').
  exists p, val, val'. split; [exact EP|]. split; [exact R1|]. split; [exact R1'|]. split; [exact R2|]. split; [exact R2'|]. split; [intros o t Ho; split; [exact (R3 o t Ho)|exact (R3' o t Ho)]|].
  split; [exact R4|]. split; [exact R4'|]. split; [exact R5|]. split; [exact R5'|]. split; [exact R6|]. split; [exact R6'|]. rewrite R7, R7'. reflexivity.
Qed.
Print Assumptions C49_word_refuted.
