(** * What the compiled circuit computes *)
From Coq Require Import ZArith List Bool Arith Lia.
From Verif Require Import Field FieldProofs Base Fp Lazy Circuit FastProverProofs Loader SpecLoader LoaderProofs LoadedProofs ZkEval ZkEvalProofs SpecZk ZkLoaded ZkPhaseProofs ZkPredProofs ZkVerifierProofs
  Program SpecCompiler Compiler CompilerMaps CompilerLayers CompilerShape CompilerWiring CompilerFile CompilerCircuit.
Import ListNotations.
Open Scope Z_scope.

Lemma compiled : forall r0 rnd p w ct mt k, (forall i, 0 <= rnd i < 2 ^ 31) -> prog_ok p -> wiring_ok w -> is_int r0 -> compile_with r0 read_prog rnd p w = Ok (ct, mt) ->
  length (out_nums w) = (2 ^ k * length (inputs p))%nat -> hd 0 ct < 999999 ->
  exists C mx out cv (lev pos : Z -> nat) (size : nat -> nat), read_circuit ct mt = Ok (C, mx) /\ zcomplete_circuit C /\ zevaluate C = Ok (out, cv) /\
    (forall t, In t (targets p) -> (lev t < total_depth C)%nat /\ (pos t < size (lev t))%nat /\ (2 ^ k * size (lev t) = 2 ^ bit_length (layer_at C (lev t)))%nat) /\
    (forall r t i, (r < 2 ^ k)%nat -> In (SIn t i) p -> exists x, feeds rnd w (Z.of_nat (r * length (inputs p) + rank p t)) x) /\
    (forall r, (r < 2 ^ k)%nat -> exists val, run_of rnd p w r val) /\
    (forall r val t, (r < 2 ^ k)%nat -> run_of rnd p w r val -> In t (targets p) ->
       exists row x, nth_error cv (lev t) = Some row /\ nth_error row (r * size (lev t) + pos t) = Some x /\ rep x (val t)) /\
    Z.of_nat (total_depth C) = hd 0 ct + 1 /\ nth_error cv (total_depth C - 1) = Some out /\ (forall t, (3 <= lev t)%nat) /\
    (forall s t a, In s p -> target s = [t] -> uses s a -> match s with Op ONot _ x _ => a = x | _ => True end -> (lev a < lev t)%nat).
Proof.
  intros r0 rnd p w ct mt k RND POK WOK HR0 E OUT DEP. unfold compile_with in E. apply bind_inv in E. destruct E as ([m ic] & E1 & E). apply bind_inv in E. destruct E as (LL & E2 & E).
  apply bind_inv in E. destruct E as ([[l0 l1] rep'] & E3 & E4).
  destruct LL as [|L0 L]; [unfold merge in E4; apply bind_inv in E4; destruct E4 as (? & _ & E4); apply bind_inv in E4; destruct E4 as (? & _ & E4); discriminate E4|].
  destruct (compiled_shape p m ic (L0 :: L) POK E1 E2 ltac:(discriminate)) as (-> & K & lv & ps & var & SH).
  assert (SZ : Z.of_nat (length (sl_gates L0)) * rep' < 2 ^ 31).
  { pose proof E4 as E5. unfold merge in E5. apply bind_inv in E5. destruct E5 as (? & _ & E5). apply bind_inv in E5. destruct E5 as (? & _ & E5). cbn [rd nth_error bind] in E5.
    apply bind_inv in E5. destruct E5 as (? & Q & _). apply int_op_inv in Q. lia. }
  destruct (read_rdl_inv rnd w p K lv ps var (L0 :: L) l0 l1 rep' L0 RND WOK SH eq_refl E3 SZ) as [IP WD].
  assert (Hrep : rep' = 2 ^ Z.of_nat k). { pose proof (wd_rep _ _ _ _ _ _ _ WD) as Q. rewrite OUT, Nat2Z.inj_mul, pow_Z in Q. nia. }
  subst rep'.
  assert (IX : Forall indexed (L0 :: L)).
  { apply Forall_forall. intros S HS. apply In_nth_error in HS. destruct HS as (l & HS). destruct (sh_layer _ _ _ _ _ _ SH l) as (S' & b & Q & _ & _ & _ & B & _); [apply nth_error_Some; rewrite HS; discriminate|].
    rewrite HS in Q. injection Q as <-. exact B. }
  assert (LN : length l1 = (length (sl_gates L0) * 2 ^ k)%nat) by (rewrite (wd_len _ _ _ _ _ _ _ WD), <- pow_Z, Nat2Z.id; reflexivity).
  destruct (merge_inv r0 l0 l1 k L0 L ct mt IX) as (ET & EM & FD).
  - intros j g H. apply (wd_l0 _ _ _ _ _ _ _ WD j g H).
  - exact LN.
  - intros x g H. assert (Hx : (x < 2 ^ k * length (sl_gates L0))%nat) by (rewrite Nat.mul_comm, <- LN; apply nth_error_Some; rewrite H; discriminate).
    destruct (block_split _ _ _ Hx) as (r & j & -> & Hr & Hj). destruct (wd_cell _ _ _ _ _ _ _ WD r j g) as [(_ & u & gu & -> & _)|(_ & ->)]; try reflexivity; [rewrite <- pow_Z, Nat2Z.id; exact Hr|exact Hj|exact H].
  - exact E4.
  - set (D := file_of r0 l0 l1 (2 ^ k) (Z.of_nat k) L0 L) in *.
    assert (DP : Z.of_nat (length (L0 :: L)) < 999997).
    { rewrite ET in DEP. unfold circuit_tokens, D, file_of in DEP. cbn [d_layers hd length] in DEP. rewrite later_length in DEP. cbn [length]. lia. }
    pose proof (made_ok r0 rnd p w K lv ps var k L0 L l0 l1 HR0 SH WD FD DP) as OK. pose proof (made_complete r0 rnd p w K lv ps var k L0 L l0 l1 HR0 SH WD FD DP) as CC. fold D in OK, CC.
    pose proof (made_depth r0 rnd p w K lv ps var k L0 L l0 l1 HR0 SH WD FD DP) as DE. fold D in DE.
    destruct (zevaluate_ok (denotes D) (zcomplete_wf _ CC)) as ([out cv] & EV & (Lc & Rows) & EO). cbn [fst snd] in Rows, Lc, EO.
    exists (denotes D), (Z.of_nat (max_bits D)), out, cv, (fun t => 3 + lv (kV t))%nat, (fun t => ps (kV t)), (fun l => length (sl_gates (nth (l - 3) (L0 :: L) L0))).
    assert (ND : forall t, In t (targets p) -> exists S, nth_error (L0 :: L) (lv (kV t)) = Some S /\ (ps (kV t) < length (sl_gates S))%nat /\
       (2 ^ k * length (sl_gates S) = 2 ^ bit_length (layer_at (denotes D) (3 + lv (kV t))))%nat /\ (lv (kV t) < length (L0 :: L))%nat).
    { intros t Ht. destruct (sh_node _ _ _ _ _ _ SH _ (sh_targets _ _ _ _ _ _ SH t Ht)) as (S & g & HS & Hg & _). exists S. split; [exact HS|]. split; [apply nth_error_Some; rewrite Hg; discriminate|]. split.
      - unfold D. rewrite (made_layer r0 p k L0 L l0 l1 (lv (kV t)) S HS). cbn [file_layer bit_length].
        destruct (layer_bits p K lv ps var k L0 L l0 l1 SH FD (lv (kV t)) S HS) as (b & _ & -> & B1 & _). rewrite <- Nat.pow_add_r. f_equal. symmetry. apply GenProofs.least_bits_pow. lia.
      - apply nth_error_Some. rewrite HS. discriminate. }
    split; [|split; [exact CC|split; [exact EV|split; [|split; [|split; [|split; [|split; [|split; [exact EO|split]]]]]]]]].
    + apply read_circuit_iff. exists D, [], []. rewrite !app_nil_r. split; [exact ET|]. split; [exact EM|]. split; [exact OK|]. split; reflexivity.
    + intros t Ht. destruct (ND t Ht) as (S & HS & B1 & B2 & B3). replace (3 + lv (kV t) - 3)%nat with (lv (kV t)) by lia. rewrite (nth_error_nth _ _ L0 HS).
      split; [rewrite DE; lia|]. split; [exact B1|exact B2].
    + intros r t i Hr Hs. apply (all_fed r0 rnd p w K lv ps var k L0 L l0 l1 HR0 SH WD FD DP (proj1 POK) r t i Hr Hs).
    + intros r Hr. eexists. apply (run_exists r0 rnd p w K lv ps var k L0 L l0 l1 HR0 SH WD FD DP WOK (proj1 POK) r Hr).
    + intros r val t Hr RO Ht. destruct (ND t Ht) as (S & HS & B1 & B2 & B3). replace (3 + lv (kV t) - 3)%nat with (lv (kV t)) by lia. rewrite (nth_error_nth _ _ L0 HS).
      destruct (Rows (3 + lv (kV t))%nat ltac:(rewrite DE; lia)) as (row & Er & Tr). destruct Tr as (_ & _ & Tr).
      assert (Hx : (r * length (sl_gates S) + ps (kV t) < 2 ^ bit_length (layer_at (denotes D) (3 + lv (kV t))))%nat) by (rewrite <- B2; nia).
      destruct (Tr _ Hx) as (x & Ex & Rx). exists row, x. split; [exact Er|]. split; [exact Ex|].
      pose proof (run_values r0 rnd p w K lv ps var k L0 L l0 l1 HR0 SH WD FD DP r val Hr RO (kV t) (sh_targets _ _ _ _ _ _ SH t Ht)) as RV.
      rewrite (sh_var _ _ _ _ _ _ SH) in RV. unfold value_at in RV. rewrite (nth_error_nth _ _ L0 HS) in RV. fold D in RV. rewrite RV in Rx. exact Rx.
    + rewrite DE, ET. unfold circuit_tokens, D, file_of. cbn [d_layers hd length]. rewrite later_length. lia.
    + intros t. lia.
    + intros s t a Hs Ht Hu Hn. pose proof (operands_below r0 rnd p w K lv ps var k L0 L l0 l1 HR0 SH WD FD DP (proj1 POK) s t a Hs Ht Hu Hn). lia.
Qed.
