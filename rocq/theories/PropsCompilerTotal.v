(** * Which programs the circuit compiler takes (C48) *)
From Coq Require Import ZArith List Bool Arith Lia.
From Verif Require Import Limbs LimbsProofs Field FieldProofs Fp Base Circuit FastProver Lazy TablesProofs FastProverProofs FastVerifier FastVerifierProofs
  Loader SpecLoader LoaderProofs ZkEval ZkEvalProofs LoadedProofs SpecTranscript Transcript ZkProver ZkVerifier ZkPhaseProofs ZkPredProofs
  ZkLinkProofs ZkOpenProofs ZkVerifierProofs ZkComplete SpecZk ZkFacts ZkLoaded SpecGen Program SpecCompiler Compiler CompilerProofs
  CompilerDone CompilerEnd CompilerOutputs PropsCompiler.
Import ListNotations.
Open Scope Z_scope.

(** Every ordered program has exactly one assignment of levels. *)
Theorem C48_levels : forall p, prog_ok p -> ordered p -> exists lev, levels_of p lev /\ forall lev', levels_of p lev' -> forall t, In t (targets p) -> lev' t = lev t.
Proof. intros p [ND _] OR. destruct (levels_exist p ND OR) as (lev & L). exists lev. split; [exact L|]. intros lev' L'. exact (levels_unique p lev' lev OR L' L). Qed.
Print Assumptions C48_levels.

(** The compiler finishes on every ordered, regular program and wiring, and the circuit
    has the depth of the program and three more layers. *)
Theorem C48_compiles : forall rnd p w lev k, prog_ok p -> ordered p -> levels_of p lev -> regular p lev -> inputs p <> [] ->
  wiring_ok w -> wiring_regular w -> length (out_nums w) = (2 ^ k * length (inputs p))%nat ->
  2 * Z.of_nat (gate_count p lev) * 2 ^ Z.of_nat k < 2 ^ 31 -> Z.of_nat (length (sources w)) < 2 ^ 30 ->
  exists ct mt, compile rnd p w = Ok (ct, mt) /\ exists t, In t (targets p) /\ hd 0 ct = Z.of_nat (lev t) + 3.
Proof. exact (compile_total 1). Qed.
Print Assumptions C48_compiles.

(** From the program to the proof: the files are written and loaded, every run appears
    in the circuit, and the honest zk run is accepted. *)
Theorem C48_end_to_end : forall rnd p w lev k, rand_seq rnd -> prog_ok p -> ordered p -> levels_of p lev -> regular p lev -> inputs p <> [] ->
  wiring_ok w -> wiring_regular w -> length (out_nums w) = (2 ^ k * length (inputs p))%nat ->
  2 * Z.of_nat (gate_count p lev) * 2 ^ Z.of_nat k < 2 ^ 31 -> Z.of_nat (length (sources w)) < 2 ^ 30 -> (forall t, In t (targets p) -> Z.of_nat (lev t) < 999996) ->
  exists ct mt C mx out cv (layer pos : Z -> nat) (size : nat -> nat), compile rnd p w = Ok (ct, mt) /\ read_circuit ct mt = Ok (C, mx) /\ zevaluate C = Ok (out, cv) /\
    (forall r, (r < 2 ^ k)%nat -> exists val, run_of rnd p w r val) /\
    (forall t, In t (targets p) -> (layer t < total_depth C)%nat /\ (pos t < size (layer t))%nat) /\
    (forall r val t, (r < 2 ^ k)%nat -> run_of rnd p w r val -> In t (targets p) ->
       exists row x, nth_error cv (layer t) = Some row /\ nth_error row (r * size (layer t) + pos t) = Some x /\ rep x (val t)) /\
    (forall enc ec1 aes fr zr, (forall x, length (enc x) = ec1) -> (0 < ec1 <= 1000)%nat -> is_cipher aes -> stream_ok fr zr ->
       Z.of_nat (zmessages C * msize ec1 + 512) < 2 ^ 31 -> run_zk enc aes fr zr C = Ok true).
Proof.
  intros rnd p w lev k RND PO OR LV RG NI WO WR OUT SZ SRC DEP. destruct (compile_total 1 rnd p w lev k PO OR LV RG NI WO WR OUT SZ SRC) as (ct & mt & E & t & Ht & HD).
  specialize (DEP t Ht). destruct (C47_compile rnd p w ct mt k RND PO WO E OUT) as (C & mx & out & cv & layer & pos & size & R1 & R2 & R3 & _ & R5 & R6 & R7); [lia|].
  exists ct, mt, C, mx, out, cv, layer, pos, size. split; [exact E|]. split; [exact R1|]. split; [exact R2|]. split; [exact R5|]. split; [intros t' Ht'; destruct (R3 t' Ht') as (A & B & _); split; assumption|]. split; [exact R6|exact R7].
Qed.
Print Assumptions C48_end_to_end.

(** Variables on the highest level are outputs of the circuit (others need not be: C47). *)
Theorem C48_outputs : forall rnd p w lev k, rand_seq rnd -> prog_ok p -> ordered p -> levels_of p lev -> regular p lev -> inputs p <> [] ->
  wiring_ok w -> wiring_regular w -> length (out_nums w) = (2 ^ k * length (inputs p))%nat ->
  2 * Z.of_nat (gate_count p lev) * 2 ^ Z.of_nat k < 2 ^ 31 -> Z.of_nat (length (sources w)) < 2 ^ 30 -> (forall t, In t (targets p) -> Z.of_nat (lev t) < 999996) ->
  (forall t a b, In (Op ONot t a b) p -> a = b) ->
  exists ct mt C mx out cv (pos : Z -> nat) (size : nat), compile rnd p w = Ok (ct, mt) /\ read_circuit ct mt = Ok (C, mx) /\ zevaluate C = Ok (out, cv) /\
    forall t, In t (targets p) -> (forall a, In a (targets p) -> (lev a <= lev t)%nat) -> forall r val, (r < 2 ^ k)%nat -> run_of rnd p w r val ->
      exists x, nth_error out (r * size + pos t) = Some x /\ rep x (val t).
Proof.
  intros rnd p w lev k H1 H2 H3 H4 H5 H6 H7 H8 H9 H10 H11 H12 H13. destruct (compiled_outputs 1 rnd p w lev k H1 ltac:(unfold is_int; lia) H2 H3 H4 H5 H6 H7 H8 H9 H10 H11 H12 H13) as (ct & mt & C & mx & out & cv & pos & size & R1 & R2 & R3 & _ & R5 & _).
  exists ct, mt, C, mx, out, cv, pos, size. split; [exact R1|]. split; [exact R2|]. split; [exact R3|exact R5].
Qed.
Print Assumptions C48_outputs.

Lemma split_app : forall (A : Type) (l : list A) p1 s p2, l = p1 ++ s :: p2 -> nth_error l (length p1) = Some s /\ p1 = firstn (length p1) l.
Proof. intros A l p1 s p2 ->. split; [rewrite nth_error_app2, Nat.sub_diag by lia; reflexivity|]. rewrite firstn_app, firstn_all, Nat.sub_diag. cbn. rewrite app_nil_r. reflexivity. Qed.
Ltac prog_ordered := let p1 := fresh in let s := fresh in let p2 := fresh in let E := fresh in let E1 := fresh in let E2 := fresh in let n := fresh in
  intros p1 s p2 E; destruct (split_app _ _ _ _ _ E) as [E1 E2]; clear E; rewrite E2; clear E2; generalize dependent (length p1); intros n E1;
  do 12 (try (destruct n as [|n])); try discriminate E1; injection E1 as <-;
  (split; [let a := fresh in let Ha := fresh in let t := fresh in let Ht := fresh in intros a Ha; cbn in Ha; split; [cbn; try tauto; lia|intros t Ht; cbn in Ht; try discriminate Ht; try contradiction; injection Ht as <-; lia]|let Ho := fresh in intros ? ? Ho; try discriminate Ho; injection Ho as <- <-; cbn; tauto]).
Definition lev_ex (t : Z) : nat := if t <? 3 then 0%nat else if t =? 4 then 2%nat else 1%nat.
Ltac one_of H := cbn in H; repeat (destruct H as [<-|H]); [..|contradiction].
Example C48_example : rand_seq rnd_one /\ prog_ok prog_ex /\ ordered prog_ex /\ levels_of prog_ex lev_ex /\ regular prog_ex lev_ex /\ inputs prog_ex <> [] /\
  wiring_ok wire_ex /\ wiring_regular wire_ex /\ length (out_nums wire_ex) = (2 ^ 1 * length (inputs prog_ex))%nat /\
  2 * Z.of_nat (gate_count prog_ex lev_ex) * 2 ^ Z.of_nat 1 < 2 ^ 31 /\ Z.of_nat (length (sources wire_ex)) < 2 ^ 30 /\ (forall t, In t (targets prog_ex) -> Z.of_nat (lev_ex t) < 999996) /\
  gate_count prog_ex lev_ex = 7%nat.
Proof.
  split; [exact rnd_one_ok|]. split; [prog_fits|]. split; [prog_ordered|]. split.
  { intros s t H E. one_of H; try discriminate E; injection E as <-; (split; [intros a Ha; cbn in Ha|]).
    all: try contradiction. all: try (left; reflexivity).
    - destruct Ha as [-> | ->]; cbn; lia.
    - right. exists 1. split; [cbn; tauto|reflexivity].
    - destruct Ha as [-> | ->]; cbn; lia.
    - right. exists 3. split; [cbn; tauto|reflexivity].
    - destruct Ha as [-> | ->]; cbn; lia.
    - right. exists 2. split; [cbn; tauto|reflexivity].
    - assert (a = 1 \/ a = 2) as [-> | ->] by lia; cbn; lia.
    - right. exists 1. split; [cbn; lia|reflexivity]. }
  split. { intros s H. one_of H; cbn; unfold is_int; repeat split; try lia; try discriminate; try reflexivity. intros i Hi. assert (i = 1 \/ i = 2) as [-> | ->] by lia; reflexivity. }
  split; [discriminate|]. split; [wiring_fits|]. split.
  { split; [intros x y Hx Hy; cbn in Hx, Hy |- *; lia|]. intros s H. one_of H; cbn; unfold is_int; try lia; eexists _, _; tauto. }
  split; [reflexivity|]. split; [reflexivity|]. split; [reflexivity|]. split; [intros t Ht; cbn in Ht; repeat (destruct Ht as [<-|Ht]; [cbn; lia|]); contradiction|reflexivity].
Qed.

(** ** The hypotheses are needed *)
(** BIT of two different variables: refused when the circuit is written. *)
Theorem C48_bit_refuted : exists rnd p w lev val, rand_seq rnd /\ prog_ok p /\ ordered p /\ levels_of p lev /\ inputs p <> [] /\
  wiring_ok w /\ wiring_regular w /\ length (out_nums w) = length (inputs p) /\ run_of rnd p w 0 val /\ compile rnd p w = AssertFail.
Proof.
  exists rnd_one, [SIn 1 0; SIn 2 1; Op OBit 3 1 2], wire_low, (fun t => if t <? 3 then 0%nat else 1%nat), (fun t => if t =? 1 then ofZ 2 else if t =? 2 then ofZ 3 else (ofZ 2 * (1 - ofZ 3))%F).
  split; [exact rnd_one_ok|]. split; [prog_fits|]. split; [prog_ordered|]. split.
  { intros s t H E. one_of H; injection E as <-; (split; [intros a Ha; cbn in Ha|]); try contradiction; try (left; reflexivity); [destruct Ha as [-> | ->]; cbn; lia|right; exists 1; split; [cbn; tauto|reflexivity]]. }
  split; [discriminate|]. split; [wiring_fits|]. split.
  { split; [intros x y Hx Hy; cbn in Hx, Hy |- *; lia|]. intros s H. one_of H; cbn; unfold is_int; try lia; eexists _, _; tauto. }
  split; [reflexivity|]. split; [|vm_compute; reflexivity]. split.
  - intros s H. one_of H; try exact I. reflexivity.
  - intros t i x Ht Hf. cbn in Ht. destruct Ht as [Ht|[Ht|[Ht|[]]]]; [injection Ht as <- <-|injection Ht as <- <-|discriminate Ht];
      cbn [Z.eqb Pos.eqb]; [rewrite <- (stored_small 2) by lia|rewrite <- (stored_small 3) by lia]; do 2 f_equal; refine (CompilerWiring.feeds_fun _ _ _ _ _ _ _ Hf); try exact low_1; try exact low_2; wiring_fits.
Qed.
Print Assumptions C48_bit_refuted.
