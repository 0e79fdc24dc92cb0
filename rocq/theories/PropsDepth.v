(** * The gate counter and depth computation (C73) *)
From Coq Require Import ZArith List Bool Arith Lia.
From Verif Require Import Base Depth SpecDepth DepthProofs DepthChain.
Import ListNotations.
Open Scope Z_scope.

(** For files of two-operand, constant, input and output lines, cyclic or not: the program ends, counts the gates, and the depth it prints is that
    of some path from an input; it is the depth of the circuit if the circuit is layered. *)
Theorem C73_depth : forall L f, Forall plain_line L -> Z.of_nat (length L) < 1500000 -> (2 * length L < f)%nat -> exists mx,
  depth_main f L = Ok (mx, Z.of_nat (length L), Z.of_nat (length (filter quadratic L))) /\
  ((forall a, ~ is_input L a) /\ mx = 0 \/ has_depth L mx) /\
  (layered L -> forall n, has_depth L n -> n <= mx).
Proof.
  intros L f HF HN Hf. destruct (main_ok L f HF HN) as (mx & E & R).
  - apply Nat.le_lt_trans with (2 * length L)%nat; [|exact Hf]. unfold targets. rewrite app_length, map_length. clear.
    induction L as [|l L IH]; [cbn; lia|]. cbn [flat_map length]. rewrite !app_length. destruct l; cbn [edges_of inputs_of length]; lia.
  - exists mx. split; [|exact R]. rewrite E. do 2 f_equal. clear. induction L as [|l L IH]; [reflexivity|]. cbn [total fold_right filter].
    change (fold_right (fun l a => deg2_of l + a) 0 L) with (total deg2_of L). rewrite IH.
    destruct l as [op t a b|t c a|t c|t i|o a|t a b|t a b]; cbn [quadratic deg2_of]; try lia. destruct op; cbn [quadratic deg2 length]; lia.
Qed.
Print Assumptions C73_depth.

Ltac step b l := apply path_cons with b; [exists l; split; [cbn; tauto|cbn; tauto]|].
(** The search does not follow a gate twice, so the depth of a circuit of two-operand gates can be too small. *)
Theorem C73_depth_refuted : exists L mx n, Forall plain_line L /\ ordered [] L /\ has_depth L n /\ mx < n /\
  forall f, (2 * length L < f)%nat -> depth_main f L = Ok (mx, Z.of_nat (length L), Z.of_nat (length (filter quadratic L))).
Proof.
  exists [LInput 0 0; LBin OpAdd 1 0 0; LBin OpAdd 2 0 1; LBin OpAdd 3 0 2; LBin OpMul 4 0 3], 3, 6. split; [|split; [|split; [|split]]].
  - repeat constructor; cbn; lia.
  - cbn. intuition lia.
  - exists (NI 0), 5%nat, (NV 4). split; [exists 0, 0; split; [left; reflexivity|reflexivity]|]. split; [|reflexivity].
    step (NV 0) (LInput 0 0). step (NV 1) (LBin OpAdd 1 0 0). step (NV 2) (LBin OpAdd 2 0 1). step (NV 3) (LBin OpAdd 3 0 2). step (NV 4) (LBin OpMul 4 0 3). constructor.
  - lia.
  - intros f Hf. cbn [length] in Hf. do 11 (destruct f as [|f]; [lia|]). reflexivity.
Qed.
Print Assumptions C73_depth_refuted.

(** The error has no bound: there are circuits of additions of every depth (below half a million) for which 3 is printed. *)
Theorem C73_depth_stuck_refuted : forall m, (1 <= m)%nat -> Z.of_nat m < 499999 -> exists L, length L = S m /\ Forall plain_line L /\ ordered [] L /\ has_depth L (Z.of_nat m + 2) /\
  forall f, (2 * length L < f)%nat -> depth_main f L = Ok (3, Z.of_nat (length L), 0).
Proof.
  intros m H1 Hm. exists (chain_file m). split; [apply chain_length|]. split; [apply chain_plain; exact Hm|]. split; [apply chain_ordered|]. split; [apply chain_depth|].
  rewrite chain_length. intros f Hf. apply chain_printed; [exact H1|exact Hm|lia].
Qed.
Print Assumptions C73_depth_stuck_refuted.
Example C73_stuck_example : (1 <= 4)%nat /\ Z.of_nat 4 < 499999 /\
  chain_file 4 = [LInput 0 0; LBin OpAdd 1 0 0; LBin OpAdd 2 0 1; LBin OpAdd 3 0 2; LBin OpAdd 4 0 3] /\ depth_main 11 (chain_file 4) = Ok (3, 5, 0).
Proof. split; [lia|]. split; [lia|]. split; reflexivity. Qed.

(** Lines that multiply with a constant, pass or sum are read wrongly: each of them alone makes the depth of a layered circuit too small. *)
Theorem C73_lines_refuted : forall k, In k [LMulConst 6 3 5; LPass 6 5 5; LSum 6 5 5] ->
  let L := [LInput 5 0; k; LBin OpAdd 7 6 6] in ordered [] L /\ layered L /\ has_depth L 4 /\
  exists mx, mx < 4 /\ forall f, (10 < f)%nat -> depth_main f L = Ok (mx, 3, 0).
Proof.
  intros k Hk L.
  assert (W : forall a b, wire L a b -> a = NI 0 /\ b = NV 5 \/ a = NV 5 /\ b = NV 6 \/ a = NV 6 /\ b = NV 7).
  { intros a b (l & Hl & HW). cbn [L In] in Hl. destruct Hl as [<-|[<-|[<-|[]]]]; cbn [wire_of] in HW; [tauto| |destruct HW as [? [?|?]]; tauto].
    destruct Hk as [<-|[<-|[<-|[]]]]; cbn [wire_of] in HW; [tauto|tauto|]. destruct HW as [-> (v & Hv & ->)]. replace v with 5 by lia. tauto. }
  split; [|split; [|split]].
  - destruct Hk as [<-|[<-|[<-|[]]]]; cbn; intuition lia.
  - assert (I : forall a, is_input L a -> a = NI 0).
    { intros a (t & i & Hl & ->). cbn [L In] in Hl. destruct Hl as [E|[E|[E|[]]]]; [injection E as <- <-; reflexivity| |discriminate E].
      destruct Hk as [<-|[<-|[<-|[]]]]; discriminate E. }
    set (rank := fun a => match a with NI _ => 0%nat | NV 5 => 1%nat | NV 6 => 2%nat | _ => 3%nat end).
    assert (R : forall a k b, path (wire L) a k b -> rank b = (rank a + k)%nat).
    { intros a n b HP. induction HP as [a|a b n c HW HP IH]; [lia|]. rewrite IH. destruct (W a b HW) as [[-> ->]|[[-> ->]|[-> ->]]]; cbn [rank]; lia. }
    intros a a' n n' b Ha Ha' HP HP'. apply R in HP, HP'. rewrite (I a Ha) in HP. rewrite (I a' Ha') in HP'. lia.
  - exists (NI 0), 3%nat, (NV 7). split; [exists 5, 0; split; [left; reflexivity|reflexivity]|]. split; [|reflexivity].
    apply path_cons with (NV 5); [exists (LInput 5 0); split; [left; reflexivity|split; reflexivity]|].
    apply path_cons with (NV 6); [exists k; split; [right; left; reflexivity|]|].
    { destruct Hk as [<-|[<-|[<-|[]]]]; cbn [wire_of]; try (split; reflexivity). split; [reflexivity|]. exists 5. split; [lia|reflexivity]. }
    apply path_cons with (NV 7); [exists (LBin OpAdd 7 6 6); split; [right; right; left; reflexivity|split; [reflexivity|left; reflexivity]]|constructor].
  - destruct Hk as [<-|[<-|[<-|[]]]].
    + exists 2. split; [lia|]. intros f Hf. do 11 (destruct f as [|f]; [lia|]). reflexivity.
    + exists 3. split; [lia|]. intros f Hf. do 11 (destruct f as [|f]; [lia|]). reflexivity.
    + exists 2. split; [lia|]. intros f Hf. do 11 (destruct f as [|f]; [lia|]). reflexivity.
Qed.
Print Assumptions C73_lines_refuted.

(** A layered circuit read right. *)
Example C73_example : let L := [LInput 0 0; LInput 1 1; LBin OpXor 2 0 1; LBin OpAdd 3 2 2; LOutput 0 3] in
  Forall plain_line L /\ ordered [] L /\ has_depth L 5 /\ depth_main 11 L = Ok (5, 5, 1).
Proof.
  intro L. split; [repeat constructor; cbn; lia|]. split; [cbn; intuition lia|]. split; [|vm_compute; reflexivity].
  exists (NI 1), 4%nat, (NO 0). split; [exists 1, 1; split; [right; left; reflexivity|reflexivity]|]. split; [|reflexivity].
  unfold L. step (NV 1) (LInput 1 1). step (NV 2) (LBin OpXor 2 0 1). step (NV 3) (LBin OpAdd 3 2 2). step (NO 0) (LOutput 0 3). constructor.
Qed.
