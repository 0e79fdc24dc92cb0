(** * The circuit loader of the fast track: C46 *)
From Coq Require Import ZArith List Bool Arith Lia Permutation.
From Verif Require Import Limbs Field FieldProofs Fp Base Circuit FastProver FastProverProofs PhaseProofs FastVerifier FastVerifierProofs
  Loader SpecLoader FastLoader SpecFastLoader FastLoaderProofs FastLoadedProofs PropsGkr.
Import ListNotations.
Open Scope nat_scope.

(** ** C46 *)
(** Exactly which files load, and as what. *)
Theorem C46_loader_iff : forall t C mx, fread_circuit t = Ok (C, mx) <->
  exists L r, t = fcircuit_tokens L ++ r /\ file_ok L /\ fdenotes L C /\ mx = Z.of_nat (fmax_bits L).
Proof. exact fread_circuit_iff. Qed.
Print Assumptions C46_loader_iff.
(** A file in order loads as its gates, with the least sufficient bit lengths. *)
Theorem C46_in_order : forall l L r,
  Forall (fun x => 1 <= length x /\ (Z.of_nat (length x) <= 2 ^ 30)%Z /\
     Forall (fun f => is_int (f_ty f) /\ is_ll (f_u f) /\ is_ll (f_v f)) x) (l :: L) ->
  Forall (fun f => f_ty f = 2 \/ f_ty f = 3)%Z l -> (Z.of_nat (S (length L)) + 1 < 2 ^ 31)%Z ->
  fread_circuit (fcircuit_tokens (in_order (l :: L)) ++ r) = Ok (fast_circuit (l :: L), Z.of_nat (fast_bits (l :: L))).
Proof.
  intros l L r F T H. inversion F as [|? ? (A & B & D) F']; subst. apply in_order_loads; [| |exact H].
  - split; [exact A|]. split; [exact B|]. rewrite Forall_forall in *. intros f I. destruct (D f I) as (X & Y & W).
    unfold entry_ok. cbn [snd]. split; [exact X|]. split; [exact Y|]. split; [exact W|]. intros _. apply T, I.
  - eapply Forall_impl; [|exact F']. intros x (A' & B' & D'). split; [exact A'|]. split; [exact B'|].
    eapply Forall_impl; [|exact D']. intros f (X & Y & W). unfold entry_ok. cbn [snd]. split; [exact X|]. split; [exact Y|]. split; [exact W|discriminate].
Qed.
Print Assumptions C46_in_order.
(** From the file to the verdict. *)
Theorem C46_end_to_end : forall L r rnd, fast_file L -> (forall k, reduced (rnd k)) ->
  fast_main (fcircuit_tokens (in_order L) ++ r) rnd = Ok true.
Proof.
  intros L r rnd H R. destruct (fast_end_to_end L r H) as (E & CC & _). unfold fast_main. rewrite E. cbn [bind].
  apply C25_completeness; assumption.
Qed.
Print Assumptions C46_end_to_end.
(** The tables are allocated for the longest layer. *)
Theorem C46_tables : forall L r, fast_file L -> exists C, fread_circuit (fcircuit_tokens (in_order L) ++ r) = Ok (C, Z.of_nat (max_bit_length C)) /\
  complete_circuit C.
Proof.
  intros L r H. destruct (fast_end_to_end L r H) as (E & CC & M). exists (fast_circuit L). rewrite M. split; assumption.
Qed.
Print Assumptions C46_tables.
Definition ex_fast : list (list fgate) :=
  [[FGate 3 3 0; FGate 3 4 0]; [FGate 0 0 1; FGate 1 0 1; FGate 5 0 2; FGate 6 1 7]; [FGate 8 0 3; FGate 10 2 0]]%Z.
Example C46_example : fast_file ex_fast /\
  fcircuit_tokens (in_order ex_fast) = [3; 2; 3;0;3;0; 3;1;4;0; 4; 0;0;0;1; 1;1;0;1; 5;2;0;2; 6;3;1;7; 2; 8;0;0;3; 10;1;2;0]%Z.
Proof.
  split; [|reflexivity]. split; [|cbn; lia]. cbn [ex_fast fast_upper length positions].
  split; [exists 1; reflexivity|]. split; [cbn; lia|]. split.
  { repeat constructor; unfold is_ll; cbn [f_u f_v f_ty]; try lia. }
  split; [exists 2; reflexivity|]. split; [cbn; lia|]. split.
  { repeat constructor; unfold is_ll; cbn [f_u f_v f_ty In]; try lia; cbn; lia. }
  split; [exists 1; reflexivity|]. split; [cbn; lia|]. split; [|exact Logic.I].
  repeat constructor; unfold is_ll; cbn [f_u f_v f_ty In]; try lia; cbn; lia.
Qed.

(** The intended claims about other files are false.
    Order: two files that list the same gates under the same numbers load as circuits with a different
    number of outputs, and the runs of both are accepted. *)
Theorem C46_order_refuted : exists L L' C C' mx mx', Forall2 (fun l l' => Permutation l l') L L' /\
  fread_circuit (fcircuit_tokens L) = Ok (C, mx) /\ fread_circuit (fcircuit_tokens L') = Ok (C', mx') /\
  (forall i, gates (layer_at C i) = gates (layer_at C' i)) /\
  bit_length (layer_at C 2) = 1 /\ bit_length (layer_at C' 2) = 0 /\
  (forall rnd, (forall k, reduced (rnd k)) -> fast_main (fcircuit_tokens L) rnd = Ok true /\ fast_main (fcircuit_tokens L') rnd = Ok true).
Proof.
  set (ins := [(0, FGate 3 3 0); (1, FGate 3 4 0)] : list entry). set (a := (0, FGate 0 0 1) : entry). set (b := (1, FGate 1 0 1) : entry).
  assert (E : exists C mx, fread_circuit (fcircuit_tokens [ins; [a; b]]) = Ok (C, mx)) by (eexists; eexists; vm_compute; reflexivity).
  assert (E' : exists C mx, fread_circuit (fcircuit_tokens [ins; [b; a]]) = Ok (C, mx)) by (eexists; eexists; vm_compute; reflexivity).
  destruct E as (C & mx & E). destruct E' as (C' & mx' & E').
  exists [ins; [a; b]], [ins; [b; a]], C, C', mx, mx'. split; [repeat constructor|]. split; [exact E|]. split; [exact E'|].
  assert (X : C = Circuit [plain_layer [Gate 3 3 0; Gate 3 4 0] 1; plain_layer [Gate 4 0 0; Gate 4 1 0] 1; plain_layer [Gate 0 0 1; Gate 1 0 1] 1]%Z 3).
  { vm_compute in E. injection E as <- _. reflexivity. }
  assert (X' : C' = Circuit [plain_layer [Gate 3 3 0; Gate 3 4 0] 1; plain_layer [Gate 4 0 0; Gate 4 1 0] 1; plain_layer [Gate 0 0 1; Gate 1 0 1] 0]%Z 3).
  { vm_compute in E'. injection E' as <- _. reflexivity. }
  split; [|split; [|split]].
  - rewrite X, X'. intros [|[|[|i]]]; reflexivity.
  - rewrite X. reflexivity.
  - rewrite X'. reflexivity.
  - assert (CC : forall m, m <= 1 -> complete_circuit (Circuit [plain_layer [Gate 3 3 0; Gate 3 4 0] 1; plain_layer [Gate 4 0 0; Gate 4 1 0] 1; plain_layer [Gate 0 0 1; Gate 1 0 1] m]%Z 3)).
    { intros m Hm. assert (P2 : 2 ^ m <= 2) by (destruct m as [|[|]]; cbn; lia). constructor; try reflexivity.
      - cbn [total_depth]. lia.
      - cbn [total_depth]. intros [|[|[|i]]] Hi; try lia; cbn; [lia|lia|exact P2].
      - intros [|[|g]] Hg; left; try reflexivity. cbn in Hg. lia.
      - intros _. split; [reflexivity|]. intros [|[|g]] Hg; try reflexivity. cbn in Hg. lia.
      - cbn [total_depth]. intros [|[|[|i]]] [|[|g]] Hi Hg; try lia; try (cbn; lia). cbn [layer_at circuit nth plain_layer bit_length] in Hg. lia. }
    intros rnd R. unfold fast_main. rewrite E, E'. cbn [bind]. rewrite X, X'. split; apply C25_completeness; auto.
Qed.
Print Assumptions C46_order_refuted.
(** Wires: a file with a wire past the layer below loads, and running it reads out of bounds; the zk loader stops at it. *)
Theorem C46_wires_refuted : exists t C mx, fread_circuit t = Ok (C, mx) /\ (forall rnd, fast_main t rnd = UB) /\
  (forall mt, read_circuit t mt = AssertFail).
Proof.
  set (t := [2; 2; 3;0;3;0; 3;1;4;0; 2; 0;0;0;5; 1;1;0;1]%Z).
  assert (E : exists C mx, fread_circuit t = Ok (C, mx)) by (eexists; eexists; vm_compute; reflexivity).
  destruct E as (C & mx & E). exists t, C, mx. split; [exact E|]. split.
  - intro rnd. vm_compute. reflexivity.
  - intro mt. vm_compute. reflexivity.
Qed.
Print Assumptions C46_wires_refuted.
(** Sizes: a layer of three gates loads, and evaluating it reads out of bounds. *)
Theorem C46_sizes_refuted : exists t C mx, fread_circuit t = Ok (C, mx) /\ forall rnd, fast_main t rnd = UB.
Proof.
  set (t := [2; 3; 3;0;3;0; 3;1;4;0; 3;2;5;0; 2; 0;0;0;1; 1;1;0;1]%Z).
  assert (E : exists C mx, fread_circuit t = Ok (C, mx)) by (eexists; eexists; vm_compute; reflexivity).
  destruct E as (C & mx & E). exists t, C, mx. split; [exact E|]. intro rnd. vm_compute. reflexivity.
Qed.
Print Assumptions C46_sizes_refuted.
