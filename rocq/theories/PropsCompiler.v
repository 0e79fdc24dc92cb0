(** * The circuit compiler of the SHA-256 test (C47) *)
From Coq Require Import ZArith List Bool Arith Lia.
From Verif Require Import Limbs LimbsProofs Field FieldProofs Fp Base Circuit FastProver Lazy TablesProofs FastProverProofs FastVerifier FastVerifierProofs
  Loader SpecLoader LoaderProofs ZkEval ZkEvalProofs LoadedProofs SpecTranscript Transcript ZkProver ZkVerifier ZkPhaseProofs ZkPredProofs
  ZkLinkProofs ZkOpenProofs ZkVerifierProofs ZkComplete SpecZk ZkFacts ZkLoaded SpecGen Program SpecCompiler Compiler CompilerProofs.
Import ListNotations.
Open Scope Z_scope.

(** If the compiler writes files and their wiring is for [2 ^ k] runs, the loader takes
    them, each run of the program exists, every variable [t] of every run [r] has a place
    in the circuit that carries its value, and the honest zk run is accepted. *)
Theorem C47_compile : forall rnd p w ct mt k, rand_seq rnd -> prog_ok p -> wiring_ok w -> compile rnd p w = Ok (ct, mt) ->
  length (out_nums w) = (2 ^ k * length (inputs p))%nat -> hd 0 ct < 999999 ->
  exists C mx out cv (lev pos : Z -> nat) (size : nat -> nat), read_circuit ct mt = Ok (C, mx) /\ zevaluate C = Ok (out, cv) /\
    (forall t, In t (targets p) -> (lev t < total_depth C)%nat /\ (pos t < size (lev t))%nat /\ (2 ^ k * size (lev t) = 2 ^ bit_length (layer_at C (lev t)))%nat) /\
    (forall r t i, (r < 2 ^ k)%nat -> In (SIn t i) p -> exists x, feeds rnd w (Z.of_nat (r * length (inputs p) + rank p t)) x) /\
    (forall r, (r < 2 ^ k)%nat -> exists val, run_of rnd p w r val) /\
    (forall r val t, (r < 2 ^ k)%nat -> run_of rnd p w r val -> In t (targets p) ->
       exists row x, nth_error cv (lev t) = Some row /\ nth_error row (r * size (lev t) + pos t) = Some x /\ rep x (val t)) /\
    (forall enc ec1 aes fr zr, (forall x, length (enc x) = ec1) -> (0 < ec1 <= 1000)%nat -> is_cipher aes -> stream_ok fr zr ->
       Z.of_nat (zmessages C * msize ec1 + 512) < 2 ^ 31 -> run_zk enc aes fr zr C = Ok true).
Proof.
  intros rnd p w ct mt k RND POK WOK E OUT DEP. destruct (compiled 1 rnd p w ct mt k RND POK WOK ltac:(unfold is_int; lia) E OUT DEP) as (C & mx & out & cv & lev & pos & size & RC & CC & EV & A1 & A2 & A3 & A4 & _).
  exists C, mx, out, cv, lev, pos, size. split; [exact RC|]. split; [exact EV|]. split; [exact A1|]. split; [exact A2|]. split; [exact A3|]. split; [exact A4|].
  intros enc ec1 aes fr zr Henc Hec Ha Hst MB. apply (zk_complete enc ec1); try assumption; lia.
Qed.
Print Assumptions C47_compile.

Ltac prog_fits := split; [repeat constructor; cbn; lia|]; let s := fresh in let H := fresh in intros s H; cbn in H; unfold is_int; repeat (destruct H as [<-|H]; [cbn; lia|]); contradiction.
Ltac wiring_fits := split; [repeat constructor; cbn; lia|]; split; [repeat constructor; cbn; lia|]; split; [repeat constructor; cbn; lia|];
  let s := fresh in let H := fresh in intros s H; cbn in H; unfold is_int, is_ll; repeat (destruct H as [<-|H]; [cbn; lia|]); contradiction.
Ltac fed o v s := exists 0, o, v, s, s; split; [split; [cbn; tauto|let y := fresh in let H := fresh in intros y H; cbn in H; lia]|]; split; [cbn; tauto|]; split; [reflexivity|]; split; [cbn; tauto|left].

Definition prog_ex : list stmt := [SIn 1 0; SIn 2 1; Op OXor 3 1 2; Op OMul 4 3 1; Op OBit 5 2 2; SOut 0 4; Sum 6 1 2; SOut 1 5].
Definition wire_ex : list rstmt := [RConst 10 7; RIn 11 0; RPass 20 10 10; RPass 21 11 11; RPass 22 11 11; RPass 23 10 10; ROut 0 20; ROut 1 21; ROut 2 22; ROut 3 23].
Definition rnd_one (i : nat) : Z := 1.
Lemma rnd_one_ok : rand_seq rnd_one. Proof. intros i. unfold rnd_one. lia. Qed.
(** Two runs, on 7, 1 and on 1, 7. *)
Example C47_example : rand_seq rnd_one /\ prog_ok prog_ex /\ wiring_ok wire_ex /\ length (out_nums wire_ex) = (2 ^ 1 * length (inputs prog_ex))%nat /\
  (exists ct mt, compile rnd_one prog_ex wire_ex = Ok (ct, mt) /\ hd 0 ct < 999999) /\ feeds rnd_one wire_ex 3 7.
Proof.
  split; [exact rnd_one_ok|]. split; [prog_fits|]. split; [wiring_fits|]. split; [reflexivity|]. split; [eexists _, _; split; [vm_compute; reflexivity|vm_compute; reflexivity]|].
  fed 3 23 10. exists [], (tl wire_ex). reflexivity.
Qed.

Lemma stored_small : forall x, 0 <= x < 2 ^ 31 -> stored x = x.
Proof. intros x H. unfold stored. rewrite int32_small by exact H. apply Z.mod_small. lia. Qed.
(** ** What the compiler does not guarantee *)
(** Outputs of the program below its last level are not among the outputs of the circuit. *)
Definition prog_low : list stmt := [SIn 1 0; SIn 2 1; Op OMul 3 1 2; Op OMul 4 3 3; SOut 0 3; SOut 1 4].
Definition wire_low : list rstmt := [RConst 10 2; RConst 11 3; RPass 20 10 10; RPass 21 11 11; ROut 0 20; ROut 1 21].
Lemma low_1 : feeds rnd_one wire_low 0 2. Proof. fed 0 20 10. exists [], (tl wire_low). reflexivity. Qed.
Lemma low_2 : feeds rnd_one wire_low 1 3. Proof. fed 1 21 11. exists [RConst 10 2], (tl (tl wire_low)). reflexivity. Qed.
Lemma small_value : forall z, 0 <= z < 1000 -> fz (ofZ z) = z.
Proof. intros z H. apply fz_ofZ_small. assert (1000 < P) by reflexivity. lia. Qed.
Theorem C47_outputs_refuted : exists rnd p w ct mt C mx out cv o t, rand_seq rnd /\ prog_ok p /\ wiring_ok w /\ compile rnd p w = Ok (ct, mt) /\
  length (out_nums w) = length (inputs p) /\ read_circuit ct mt = Ok (C, mx) /\ zevaluate C = Ok (out, cv) /\ In (SOut o t) p /\ In t (targets p) /\
  forall val x, run_of rnd p w 0 val -> In x out -> ~ rep x (val t).
Proof.
  eexists rnd_one, prog_low, wire_low, _, _, _, _, _, _, 0, 3.
  split; [exact rnd_one_ok|]. split; [prog_fits|]. split; [wiring_fits|].
  split; [vm_compute; reflexivity|]. split; [reflexivity|]. split; [vm_compute; reflexivity|]. split; [vm_compute; reflexivity|]. split; [cbn; tauto|]. split; [cbn; tauto|].
  intros val x [H1 H2] Hx [_ R]. rewrite (H1 (Op OMul 3 1 2)) in R by (cbn; tauto). cbn [op_val] in R.
  rewrite (H2 1 0 2) in R; [|cbn; tauto|exact low_1]. rewrite (H2 2 1 3) in R; [|cbn; tauto|exact low_2]. rewrite !stored_small in R by lia. rewrite <- ofZ_mul, small_value in R by lia.
  repeat (destruct Hx as [<-|Hx]; [vm_compute in R; discriminate R|]). contradiction.
Qed.
Print Assumptions C47_outputs_refuted.

(** Variables that are not numbered in the order of their use: an access out of bounds. *)
Theorem C47_order_refuted : exists rnd p w val, rand_seq rnd /\ prog_ok p /\ wiring_ok w /\ length (out_nums w) = length (inputs p) /\
  run_of rnd p w 0 val /\ compile rnd p w = UB.
Proof.
  exists rnd_one, [SIn 1 0; SIn 2 1; Op OMul 5 1 2; Op OMul 4 5 5; Op OMul 3 4 4], wire_low, (fun t => if t =? 1 then ofZ 2 else if t =? 2 then ofZ 3 else if t =? 5 then ofZ 6 else if t =? 4 then ofZ 36 else ofZ 1296).
  split; [exact rnd_one_ok|]. split; [prog_fits|]. split; [wiring_fits|]. split; [reflexivity|]. split; [|vm_compute; reflexivity]. split.
  - intros s Hs. cbn in Hs. repeat (destruct Hs as [<-|Hs]; [cbn [holds op_val Z.eqb Pos.eqb]; rewrite <- ?ofZ_mul; try exact I; reflexivity|]). contradiction.
  - intros t i x Ht Hf. cbn in Ht. destruct Ht as [Ht|[Ht|Ht]]; [injection Ht as <- <-|injection Ht as <- <-|exfalso; repeat (destruct Ht as [Ht|Ht]; [discriminate Ht|]); contradiction];
      cbn [Z.eqb Pos.eqb]; [rewrite <- (stored_small 2) by lia|rewrite <- (stored_small 3) by lia]; do 2 f_equal; refine (CompilerWiring.feeds_fun _ _ _ _ _ _ _ Hf); try exact low_1; try exact low_2; wiring_fits.
Qed.
Print Assumptions C47_order_refuted.

(** EXPSUM over variables of different levels: refused. *)
Theorem C47_expsum_refuted : exists rnd p w val, rand_seq rnd /\ prog_ok p /\ wiring_ok w /\ length (out_nums w) = length (inputs p) /\
  run_of rnd p w 0 val /\ compile rnd p w = AssertFail.
Proof.
  exists rnd_one, [SIn 1 0; SIn 2 1; Op OMul 3 1 2; Sum 4 2 3], wire_low, (fun t => if t =? 1 then ofZ 2 else if t =? 2 then ofZ 3 else if t =? 3 then ofZ 6 else ofZ 15).
  split; [exact rnd_one_ok|]. split; [prog_fits|]. split; [wiring_fits|]. split; [reflexivity|]. split; [|vm_compute; reflexivity]. split.
  - intros s Hs. cbn in Hs. destruct Hs as [<-|[<-|[<-|[<-|[]]]]]; try exact I; cbn [holds op_val Z.eqb Pos.eqb]; [rewrite <- ofZ_mul; reflexivity|].
    change (Z.to_nat (3 + 1 - 2)) with 2%nat. cbn -[Fmul Fadd]. change (1%F) with (ofZ 1). change (0%F) with (ofZ 0). rewrite <- ?ofZ_add, <- ?ofZ_mul, <- ?ofZ_add. reflexivity.
  - intros t i x Ht Hf. cbn in Ht. destruct Ht as [Ht|[Ht|Ht]]; [injection Ht as <- <-|injection Ht as <- <-|exfalso; repeat (destruct Ht as [Ht|Ht]; [discriminate Ht|]); contradiction];
      cbn [Z.eqb Pos.eqb]; [rewrite <- (stored_small 2) by lia|rewrite <- (stored_small 3) by lia]; do 2 f_equal; refine (CompilerWiring.feeds_fun _ _ _ _ _ _ _ Hf); try exact low_1; try exact low_2; wiring_fits.
Qed.
Print Assumptions C47_expsum_refuted.

(** The numbers of the inputs are not used: an input is the next one in the order of the variables. *)
Theorem C47_input_index_refuted : exists rnd p w ct mt C mx out cv o t, rand_seq rnd /\ prog_ok p /\ wiring_ok w /\ compile rnd p w = Ok (ct, mt) /\
  length (out_nums w) = length (inputs p) /\ read_circuit ct mt = Ok (C, mx) /\ zevaluate C = Ok (out, cv) /\
  (forall j, (exists t, In (SIn t j) p) <-> 0 <= j < Z.of_nat (length (inputs p))) /\ In (SOut o t) p /\
  forall val y, (forall s, In s p -> holds val s) -> (forall t i x, In (SIn t i) p -> feeds rnd w i x -> val t = ofZ (stored x)) -> In y out -> ~ rep y (val t).
Proof.
  eexists rnd_one, [SIn 1 1; SIn 2 0; Op OMinus 3 1 2; SOut 0 3], wire_low, _, _, _, _, _, _, 0, 3.
  split; [exact rnd_one_ok|]. split; [prog_fits|]. split; [wiring_fits|].
  split; [vm_compute; reflexivity|]. split; [reflexivity|]. split; [vm_compute; reflexivity|]. split; [vm_compute; reflexivity|].
  split. { intros j. cbn [inputs input_var flat_map app length]. split.
    - intros [t [H|[H|[H|[H|[]]]]]]; try discriminate H; injection H as <- <-; lia.
    - intros H. assert (j = 0 \/ j = 1) as [-> | ->] by lia; [exists 2|exists 1]; cbn; tauto. }
  split; [cbn; tauto|]. intros val y H1 H2 Hy [_ R]. rewrite (H1 (Op OMinus 3 1 2)) in R by (cbn; tauto). cbn [op_val] in R.
  rewrite (H2 1 1 3) in R; [|cbn; tauto|exact low_2]. rewrite (H2 2 0 2) in R; [|cbn; tauto|exact low_1]. rewrite !stored_small in R by lia. rewrite <- ofZ_sub, small_value in R by lia.
  repeat (destruct Hy as [<-|Hy]; [vm_compute in R; discriminate R|]). contradiction.
Qed.
Print Assumptions C47_input_index_refuted.

(** A passed variable that is itself passed on: the next gate reads another constant. *)
Definition wire_pass : list rstmt := [RConst 10 2; RConst 11 3; RPass 20 11 11; RPass 21 20 20; ROut 0 20; ROut 1 21].
Theorem C47_pass_refuted : exists rnd p w ct mt C mx out cv, rand_seq rnd /\ prog_ok p /\ compile rnd p w = Ok (ct, mt) /\ w = wire_pass /\
  read_circuit ct mt = Ok (C, mx) /\ zevaluate C = Ok (out, cv) /\ p = [SIn 1 0; SIn 2 1; Op OMul 3 1 2] /\
  forall pv val x, (forall t c, In (RConst t c) w -> pv t = c) -> (forall t a b, In (RPass t a b) w -> pv t = pv a) ->
    val 1 = ofZ (pv 20) -> val 2 = ofZ (pv 21) -> (forall s, In s p -> holds val s) -> In x out -> ~ rep x (val 3).
Proof.
  eexists rnd_one, [SIn 1 0; SIn 2 1; Op OMul 3 1 2], wire_pass, _, _, _, _, _, _. split; [exact rnd_one_ok|]. split; [prog_fits|].
  split; [vm_compute; reflexivity|]. split; [reflexivity|]. split; [vm_compute; reflexivity|]. split; [vm_compute; reflexivity|]. split; [reflexivity|].
  intros pv val x HC HP V1 V2 H Hx [_ R]. rewrite (H (Op OMul 3 1 2)) in R by (cbn; tauto). cbn [op_val] in R. rewrite V1, V2, (HP 21 20 20), (HP 20 11 11), (HC 11 3), <- ofZ_mul, small_value in R by (cbn; tauto || lia).
  repeat (destruct Hx as [<-|Hx]; [vm_compute in R; discriminate R|]). contradiction.
Qed.
Print Assumptions C47_pass_refuted.

(** Numbers of operands lose their high bits: an undefined variable is read as another. *)
Theorem C47_wrap_refuted : exists rnd p w ct mt o t a b, rand_seq rnd /\ NoDup (targets p) /\ wiring_ok w /\ length (out_nums w) = length (inputs p) /\
  In (Op o t a b) p /\ ~ In a (targets p) /\ compile rnd p w = Ok (ct, mt).
Proof.
  eexists rnd_one, [SIn 1 0; SIn 2 1; Op OMul 3 4294967297 2], wire_low, _, _, OMul, 3, 4294967297, 2.
  split; [exact rnd_one_ok|]. split; [repeat constructor; cbn; lia|]. split; [wiring_fits|]. split; [reflexivity|]. split; [cbn; tauto|]. split; [cbn; lia|]. vm_compute. reflexivity.
Qed.
Print Assumptions C47_wrap_refuted.

(** A variable assigned twice: compiled, though no run satisfies both lines. *)
Theorem C47_twice_refuted : exists rnd p w ct mt, rand_seq rnd /\ wiring_ok w /\ length (out_nums w) = length (inputs p) /\
  (forall val, ~ run_of rnd p w 0 val) /\ compile rnd p w = Ok (ct, mt).
Proof.
  eexists rnd_one, [SIn 1 0; SIn 2 1; Op OMul 3 1 2; Op OAdd 3 1 2], wire_low, _, _.
  split; [exact rnd_one_ok|]. split; [wiring_fits|]. split; [reflexivity|]. split; [|vm_compute; reflexivity].
  intros val [H1 H2]. pose proof (H1 (Op OMul 3 1 2) ltac:(cbn; tauto)) as Q. cbn [holds op_val] in Q. rewrite (H1 (Op OAdd 3 1 2)) in Q by (cbn; tauto). cbn [op_val] in Q.
  rewrite (H2 1 0 2) in Q; [|cbn; tauto|exact low_1]. rewrite (H2 2 1 3) in Q; [|cbn; tauto|exact low_2]. rewrite !stored_small in Q by lia. rewrite <- ofZ_mul, <- ofZ_add in Q.
  apply (f_equal fz) in Q. rewrite !small_value in Q by lia. discriminate Q.
Qed.
Print Assumptions C47_twice_refuted.

(** A number of runs that is no power of two: the loader refuses the files. *)
Definition wire_3 : list rstmt := [RConst 10 2; RPass 20 10 10; RPass 21 10 10; RPass 22 10 10; ROut 0 20; ROut 1 21; ROut 2 22].
Theorem C47_repeat_refuted : exists rnd p w ct mt, rand_seq rnd /\ prog_ok p /\ wiring_ok w /\ length (out_nums w) = (3 * length (inputs p))%nat /\
  compile rnd p w = Ok (ct, mt) /\ read_circuit ct mt = AssertFail.
Proof.
  eexists rnd_one, [SIn 1 0; Op OMul 3 1 1], wire_3, _, _. split; [exact rnd_one_ok|]. split; [prog_fits|]. split; [wiring_fits|]. split; [reflexivity|].
  split; [vm_compute; reflexivity|]. vm_compute. reflexivity.
Qed.
Print Assumptions C47_repeat_refuted.

(** A constant of 32 bits or more: the circuit computes with another number. *)
Definition wire_wide : list rstmt := [RConst 10 4294967296; RConst 11 2147483648; RPass 20 10 10; RPass 21 11 11; ROut 0 20; ROut 1 21].
Theorem C47_constant_refuted : exists rnd p w ct mt C mx out cv, rand_seq rnd /\ prog_ok p /\ wiring_ok w /\ compile rnd p w = Ok (ct, mt) /\
  length (out_nums w) = length (inputs p) /\ read_circuit ct mt = Ok (C, mx) /\ zevaluate C = Ok (out, cv) /\ p = [SIn 1 0; SIn 2 1; Op OAdd 3 1 2] /\ w = wire_wide /\
  forall val x, val 1 = ofZ 4294967296 -> val 2 = ofZ 2147483648 -> (forall s, In s p -> holds val s) -> In x out -> ~ rep x (val 3).
Proof.
  eexists rnd_one, [SIn 1 0; SIn 2 1; Op OAdd 3 1 2], wire_wide, _, _, _, _, _, _. split; [exact rnd_one_ok|]. split; [prog_fits|]. split; [wiring_fits|].
  split; [vm_compute; reflexivity|]. split; [reflexivity|]. split; [vm_compute; reflexivity|]. split; [vm_compute; reflexivity|]. split; [reflexivity|]. split; [reflexivity|].
  intros val x V1 V2 H Hx [_ R]. rewrite (H (Op OAdd 3 1 2)) in R by (cbn; tauto). cbn [op_val] in R. rewrite V1, V2, <- ofZ_add in R. rewrite fz_ofZ_small in R by (assert (6442450944 < P) by reflexivity; lia).
  repeat (destruct Hx as [<-|Hx]; [vm_compute in R; discriminate R|]). contradiction.
Qed.
Print Assumptions C47_constant_refuted.
