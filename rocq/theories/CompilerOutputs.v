(** * The variables on the highest level are the outputs of the circuit *)
From Coq Require Import ZArith List Bool Arith Lia.
From Verif Require Import Limbs LimbsProofs Field FieldProofs Fp Base Circuit FastProver Lazy TablesProofs FastProverProofs FastVerifier FastVerifierProofs
  Loader SpecLoader LoaderProofs ZkEval ZkEvalProofs LoadedProofs SpecTranscript Transcript ZkProver ZkVerifier ZkPhaseProofs ZkPredProofs
  ZkLinkProofs ZkOpenProofs ZkVerifierProofs ZkComplete SpecZk ZkFacts ZkLoaded SpecGen Program SpecCompiler Compiler CompilerProofs CompilerOrder
  CompilerDone CompilerEnd.
Import ListNotations.
Open Scope Z_scope.

Lemma compiled_outputs : forall r0 rnd p w lev k, rand_seq rnd -> is_int r0 -> prog_ok p -> ordered p -> levels_of p lev -> regular p lev -> inputs p <> [] ->
  wiring_ok w -> wiring_regular w -> length (out_nums w) = (2 ^ k * length (inputs p))%nat ->
  2 * Z.of_nat (gate_count p lev) * 2 ^ Z.of_nat k < 2 ^ 31 -> Z.of_nat (length (sources w)) < 2 ^ 30 -> (forall t, In t (targets p) -> Z.of_nat (lev t) < 999996) ->
  (forall t a b, In (Op ONot t a b) p -> a = b) ->
  exists ct mt C mx out cv (pos : Z -> nat) (size : nat), compile_with r0 read_prog rnd p w = Ok (ct, mt) /\ read_circuit ct mt = Ok (C, mx) /\ zevaluate C = Ok (out, cv) /\
    (forall r, (r < 2 ^ k)%nat -> exists val, run_of rnd p w r val) /\
    (forall t, In t (targets p) -> (forall a, In a (targets p) -> (lev a <= lev t)%nat) -> forall r val, (r < 2 ^ k)%nat -> run_of rnd p w r val ->
       exists x, nth_error out (r * size + pos t) = Some x /\ rep x (val t)) /\
    (forall enc ec1 aes fr zr, (forall x, length (enc x) = ec1) -> (0 < ec1 <= 1000)%nat -> is_cipher aes -> stream_ok fr zr ->
       Z.of_nat (zmessages C * msize ec1 + 512) < 2 ^ 31 -> run_zk enc aes fr zr C = Ok true).
Proof.
  intros r0 rnd p w lev k RND R0 PO OR LV RG NI WO WR OUT SZ SRC DEP NOT. destruct (compile_total r0 rnd p w lev k PO OR LV RG NI WO WR OUT SZ SRC) as (ct & mt & E & u & Hu & HD).
  pose proof (DEP u Hu) as DU. destruct (compiled r0 rnd p w ct mt k RND PO WO R0 E OUT) as (C & mx & out & cv & layer & pos & size & RC & CC & EV & A1 & A2 & A3 & A4 & A5 & A6 & A7 & A8); [lia|].
  assert (LL : forall n t, (lev t <= n)%nat -> In t (targets p) -> (3 + lev t <= layer t)%nat).
  { induction n as [|n IH]; intros t Hn Ht; [specialize (A7 t); lia|]. apply in_flat_map in Ht. destruct Ht as (s & Hs & Ht). assert (TG : target s = [t]) by (destruct s; cbn [target In] in Ht |- *; intuition congruence).
    destruct (LV s t Hs TG) as (LA & [L0|(a & Ha & LS)]); [specialize (A7 t); lia|]. pose proof (order_uses p s a OR Hs Ha) as (TA & _). pose proof (IH a ltac:(lia) TA) as Q.
    assert (B : (layer a < layer t)%nat). { apply (A8 s t a Hs TG Ha). destruct s as [o t' x y| | | |]; try exact I. destruct o; try exact I. pose proof (NOT _ _ _ Hs) as ->. cbn [uses] in Ha. destruct Ha; assumption. }
    lia. }
  exists ct, mt, C, mx, out, cv, pos, (size (total_depth C - 1)%nat). split; [exact E|]. split; [exact RC|]. split; [exact EV|]. split; [exact A3|]. split.
  - intros t Ht TOP r val Hr HR. destruct (A1 t Ht) as (B1 & _). specialize (TOP u Hu). specialize (LL _ t (le_n _) Ht). assert (EL : layer t = (total_depth C - 1)%nat) by lia.
    destruct (A4 r val t Hr HR Ht) as (row & x & X1 & X2 & X3). rewrite EL in X1, X2. rewrite A6 in X1. injection X1 as <-. exists x. split; [exact X2|exact X3].
  - intros enc ec1 aes fr zr Henc Hec Ha Hst MB. apply (zk_complete enc ec1); try assumption; lia.
Qed.
