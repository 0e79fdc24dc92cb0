(** Evaluation of a loaded circuit with a layer whose size is not a power of two is undefined. *)
From Coq Require Import ZArith List Bool Arith Lia.
From Verif Require Import Base Limbs Field Circuit FastProver FastProverProofs Loader SpecLoader LoaderProofs ZkEval ZkEvalProofs LoadedProofs.
Import ListNotations.
Open Scope nat_scope.

(** A value or undefined behaviour. *)
Definition okub {A} (m : outcome A) : Prop := (exists a, m = Ok a) \/ m = UB.
Lemma okub_ok : forall A (a : A), okub (Ok a).
Proof. intros. left. eexists. reflexivity. Qed.
Lemma okub_bind : forall A B (m : outcome A) (k : A -> outcome B), okub m -> (forall a, m = Ok a -> okub (k a)) -> okub (bind m k).
Proof. intros A B m k [[a ->]| ->] H; [rewrite bind_ok; apply H; reflexivity|right; reflexivity]. Qed.
Lemma okub_rd : forall A (l : list A) i, okub (rd l i).
Proof. intros. unfold rd. destruct (nth_error l i); [apply okub_ok|right; reflexivity]. Qed.
Lemma okub_wr : forall A (l : list A) i x, okub (wr l i x).
Proof. intros. unfold wr. destruct (i <? length l); [apply okub_ok|right; reflexivity]. Qed.
Lemma okub_idx : forall z, okub (idx z).
Proof. intros. unfold idx. destruct (z <? 0)%Z; [right; reflexivity|apply okub_ok]. Qed.
Lemma okub_int : forall z, okub (int_op z).
Proof. intros. unfold int_op. destruct (in_int z); [apply okub_ok|right; reflexivity]. Qed.
Lemma okub_for : forall S n st (body : nat -> S -> outcome S) s, (forall i s, st <= i < st + n -> okub (body i s)) -> okub (for_ n st body s).
Proof.
  intros S0 n. induction n as [|n IH]; intros st body s H; [apply okub_ok|]. rewrite for_S. apply okub_bind; [apply H; lia|].
  intros s' _. apply IH. intros i t Hi. apply H. lia.
Qed.
Lemma okub_rdi : forall A (prev : list A) B u (k : A -> outcome B), (forall a, okub (k a)) -> okub (iu <- idx u ;; x <- rd prev iu ;; k x).
Proof. intros A prev B u k H. apply okub_bind; [apply okub_idx|]. intros iu _. apply okub_bind; [apply okub_rd|]. intros x _. apply H. Qed.
Lemma okub_gate : forall prev g, supported g -> (g_ty g = 13%Z -> g_u g = g_v g) -> okub (zgate_value prev (g_ty g) (g_u g) (g_v g)).
Proof.
  intros prev [ty u v] S E. unfold supported in S. cbn [g_ty g_u g_v In] in *. destruct S as [S|[-> S]].
  - destruct S as [<-|[<-|[<-|[<-|[<-|[<-|[<-|[<-|[<-|[<-|[<-|[<-|[]]]]]]]]]]]]]; unfold zgate_value, gate_value;
      try apply okub_ok; try (apply okub_rdi; intro; apply okub_ok); try (apply okub_rdi; intro; apply okub_rdi; intro; apply okub_ok).
    + apply okub_bind; [apply okub_idx|]. intros; apply okub_rd.
    + unfold forz. apply okub_for. intros. apply okub_rdi. intro. apply okub_ok.
    + apply okub_bind; [apply okub_idx|]. intros; apply okub_rd.
    + rewrite (E eq_refl), Z.eqb_refl. apply okub_bind; [apply okub_ok|]. intros _ _. apply okub_rdi. intro. apply okub_rdi. intro. apply okub_ok.
  - unfold zgate_value. apply okub_bind; [apply okub_int|]. intros d Hd. apply okub_bind; [apply okub_int|]. intros d' Hd'.
    unfold int_op in Hd, Hd'. destruct (in_int (v - u)); [|discriminate]. injection Hd as <-. destruct (in_int (v - u + 1)); [|discriminate]. injection Hd' as <-.
    replace (v - u + 1 <=? 63)%Z with true by (symmetry; apply Z.leb_le; lia). apply okub_bind; [apply okub_ok|]. intros _ _.
    unfold forz. apply okub_for. intros. apply okub_rdi. intro. apply okub_ok.
Qed.
Lemma okub_layer : forall L prev, (forall g, In g (gates L) -> supported g /\ (g_ty g = 13%Z -> g_u g = g_v g)) -> okub (zlayer_values L prev).
Proof.
  intros L prev H. unfold zlayer_values. apply okub_for. intros i row _. apply okub_bind; [apply okub_rd|]. intros g Eg.
  apply rd_inv, nth_error_In in Eg. destruct (H g Eg). apply okub_bind; [apply okub_gate; assumption|]. intros; apply okub_wr.
Qed.
Lemma okub_input : forall L, (forall g, In g (gates L) -> g_ty g = 3%Z \/ g_ty g = 2%Z) -> okub (input_values L).
Proof.
  intros L H. unfold input_values. apply okub_for. intros i row _. apply okub_bind; [apply okub_rd|]. intros g Eg.
  apply rd_inv, nth_error_In in Eg. destruct (H g Eg) as [-> | ->]; (apply okub_bind; [apply okub_ok|]; intros; apply okub_wr).
Qed.
Lemma loaded_other_ub : forall D, desc_ok D -> (Z.of_nat (total_depth (denotes D)) < 1000000)%Z ->
  (forall i g, 1 <= i < total_depth (denotes D) -> In g (gates (layer_at (denotes D) i)) -> supported g) ->
  ~ Forall pow2_size (d_layers D) -> zevaluate (denotes D) = UB.
Proof.
  intros D H Hd S N. destruct (denotes_depth D H) as [T LC].
  assert (K : okub (zevaluate (denotes D))).
  { unfold zevaluate. apply okub_bind; [apply okub_rd|]. intros L0 E0. apply rd_inv in E0. rewrite layer_rd in E0 by lia. injection E0 as <-.
    apply okub_bind.
    - apply okub_input. intros g Hg. destruct (denotes_layer D 0 H ltac:(lia)) as [G _]. rewrite G in Hg. unfold row_gates in Hg. cbn [Nat.eqb] in Hg.
      change (file_row D 0) with (file_row D 1) in Hg. apply In_nth with (d := Gate 2 0 0) in Hg. destruct Hg as (j & _ & <-).
      destruct (file_gate_at (file_row D 1) j) as [(f & E & ->)| ->]; [|right; reflexivity].
      pose proof (rows_input_ok D H) as F. rewrite Forall_forall in F. destruct (F f (nth_error_In _ _ E)) as (_ & _ & Q). unfold file_gate. cbn [g_ty]. tauto.
    - intros row0 _. replace (Z.of_nat (total_depth (denotes D)) <? 1000000)%Z with true by (symmetry; apply Z.ltb_lt; exact Hd).
      apply okub_bind; [apply okub_ok|]. intros _ _. apply okub_bind.
      + apply okub_for. intros i cv Hi. apply okub_bind; [apply okub_rd|]. intros L EL. apply rd_inv in EL. rewrite layer_rd in EL by lia. injection EL as <-.
        apply okub_bind; [apply okub_rd|]. intros prev _. apply okub_bind; [|intros; apply okub_ok].
        apply okub_layer. intros g Hg. split; [apply (S i); [lia|exact Hg]|].
        intro T13. apply In_nth with (d := Gate 2 0 0) in Hg. destruct Hg as (j & Hj & <-).
        pose proof (loaded_refers D i j H ltac:(lia) ltac:(lia)) as R. unfold refers_in, gate_at in R. rewrite T13 in R. destruct R as [R|(_ & _ & _ & R)]; [discriminate|apply R; reflexivity].
      + intros cv _. apply okub_bind; [apply okub_rd|]. intros; apply okub_ok. }
  destruct K as [[x E]|E]; [|exact E]. exfalso. apply N. apply (loaded_ok_pow2 _ _ H E).
Qed.
