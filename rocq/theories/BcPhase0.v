(** * The tables over the block index and the rounds of phase 0 (C57) *)
From Coq Require Import ZArith List Bool Arith Lia Ring.
From Verif Require Import Limbs Field FieldProofs Fp Base MleSpec GkrMath Poly PolyProofs Circuit
  FastProver Lazy TablesProofs FastProverProofs PhaseProofs FastVerifier FastVerifierProofs
  SpecGkr RoundProofs TradProver TradVerifier TradProofs TradPhase BcProver BcVerifier.
Import ListNotations.
Open Scope nat_scope.

(** ** Index arithmetic *)
Lemma lor_shl : forall b B u, u < 2 ^ b -> Nat.lor (Nat.shiftl B b) u = B * 2 ^ b + u.
Proof.
  intros b B u Hu. rewrite Nat.shiftl_mul_pow2. apply Nat.bits_inj. intro j. rewrite Nat.lor_spec.
  pose proof (pow2_pos b) as Hp. destruct (Nat.lt_ge_cases j b) as [Hj|Hj].
  - rewrite Nat.mul_pow2_bits_low by exact Hj. cbn [orb].
    rewrite <- (Nat.mod_pow2_bits_low u b j Hj), <- (Nat.mod_pow2_bits_low (B * 2 ^ b + u) b j Hj).
    rewrite Nat.add_comm, Nat.mod_add by lia. reflexivity.
  - rewrite Nat.mul_pow2_bits_high by exact Hj.
    rewrite <- (Nat.mod_small u (2 ^ b) Hu), Nat.mod_pow2_bits_high by exact Hj. rewrite orb_false_r.
    rewrite Nat.mod_small by exact Hu. replace j with (j - b + b) at 2 by lia. rewrite <- Nat.div_pow2_bits.
    rewrite Nat.add_comm, Nat.div_add, Nat.div_small by lia. reflexivity.
Qed.
Lemma pair_div : forall n B u, 0 < n -> u < n -> (B * n + u) / n = B.
Proof. intros n B u H Hu. rewrite Nat.add_comm, Nat.div_add, Nat.div_small by lia. reflexivity. Qed.
Lemma pair_mod : forall n B u, 0 < n -> u < n -> (B * n + u) mod n = u.
Proof. intros n B u H Hu. rewrite Nat.add_comm, Nat.mod_add, Nat.mod_small by lia. reflexivity. Qed.

(** A table of [n] blocks of [2^b] values. *)
Definition vtab (M : nat) (l : list fe) (n b : nat) (V : nat -> nat -> F) : Prop :=
  tab M l (n * 2 ^ b) (fun z => V (z / 2 ^ b) (z mod 2 ^ b)).
Lemma pair_lt : forall n B c u, B < n -> u < c -> B * c + u < n * c.
Proof. intros n B c u HB Hu. assert (S B * c <= n * c) by (apply Nat.mul_le_mono_r; lia). simpl in H. lia. Qed.
Lemma rb_vtab : forall B M l n b V k u (c : fe -> outcome B) (R : B -> Prop), vtab M l n b V -> k < n -> u < 2 ^ b ->
  (forall x, rep x (V k u) -> returns (c x) R) -> returns (x <- rd l (k * 2 ^ b + u) ;; c x) R.
Proof.
  intros B M l n b V k u c R T Hk Hu H. eapply rb_tab; [exact T|apply pair_lt; assumption|].
  intros x Rx. cbv beta in Rx. rewrite pair_div, pair_mod in Rx by lia. apply H, Rx.
Qed.
Lemma vtab_ext : forall M l n b V V', vtab M l n b V -> (forall k u, k < n -> u < 2 ^ b -> V k u = V' k u) -> vtab M l n b V'.
Proof.
  intros M l n b V V' T H. eapply tab_ext; [exact T|]. intros z Hz. cbv beta. pose proof (pow2_pos b). apply H.
  - apply Nat.div_lt_upper_bound; lia.
  - apply Nat.mod_upper_bound. lia.
Qed.

(** ** Folding a table by some of its coordinates *)
Lemma fold_table_part : forall op N l r o R e f,
  (forall x0 o x1 r a b c d, rep x0 a -> rep o b -> rep x1 c -> rep r d -> rep (op x0 o x1 r) (a * b + c * d)%F) ->
  reps r R -> reps o (comp R) -> tab N l (2 ^ (length R + e)) f ->
  returns (fold_table op o r (length R) (2 ^ (length R + e)) l) (fun l' => tab N l' (2 ^ e) (folds R f)).
Proof.
  intros op N l r o R e f Hop Hr Ho T. unfold fold_table.
  eapply returns_bind.
  - apply (returns_for _ (length R) 0 _ (fun i st => snd st = 2 ^ (length R + e - i) /\
             tab N (fst st) (2 ^ (length R + e - i)) (folds (firstn i R) f))).
    + rewrite Nat.sub_0_r. split; [reflexivity|exact T].
    + intros i [out size] Hi [Es Ts]. simpl in Hi. cbn [fst snd] in *. subst size.
      replace (length R + e - i) with (S (length R + e - S i)) in * by lia.
      set (m := length R + e - S i) in *. set (g := folds (firstn i R) f) in *.
      rewrite shr1_pow2.
      assert (HN : 2 ^ S m <= N) by apply Ts. rewrite pow2_S in HN. pose proof (pow2_pos m).
      eapply returns_bind.
      * apply (returns_for _ (2 ^ m) 0 _ (fun j l => tab N l (2 ^ S m)
           (fun k => if k <? j then fold1 (nth i R 0%F) g k else g k))).
        { exact Ts. }
        intros j out' Hj T'. simpl in Hj. assert (HL : length out' = N) by apply T'.
        rewrite shl1_or1, shl1.
        eapply rb_tab; [exact T'|rewrite pow2_S; lia|]. intros x0 R0.
        eapply rb_reps; [exact Ho|rewrite comp_length; lia|]. intros oo Roo.
        eapply rb_tab; [exact T'|rewrite pow2_S; lia|]. intros x1 R1.
        eapply rb_reps; [exact Hr|lia|]. intros rr Rrr.
        cbv beta in R0, R1. rewrite comp_nth in Roo by lia.
        destruct (Nat.ltb_spec (2 * j) j); [lia|]. destruct (Nat.ltb_spec (2 * j + 1) j); [lia|].
        apply returns_wr; [lia|].
        eapply tab_ext; [apply (tab_upd _ _ _ _ j _ (fold1 (nth i R 0%F) g j) T'); [lia|]|].
        { unfold fold1. apply Hop; assumption. }
        intros k Hk. cbv beta. destruct (Nat.eqb_spec k j) as [->|Nk].
        { destruct (Nat.ltb_spec j (S j)); [reflexivity|lia]. }
        { destruct (Nat.ltb_spec k j); destruct (Nat.ltb_spec k (S j)); try lia; reflexivity. }
      * intros out' T'. simpl (0 + _) in T'. apply returns_ok. cbn [fst snd]. split; [reflexivity|].
        rewrite (firstn_S_nth R i) by lia. rewrite folds_snoc. fold g.
        eapply tab_ext; [eapply tab_sub; [exact T'|rewrite pow2_S; lia]|].
        intros k Hk. cbv beta. destruct (Nat.ltb_spec k (2 ^ m)); [reflexivity|lia].
  - intros [out size] [_ T']. cbn [fst] in T'. simpl (0 + _) in T'. rewrite firstn_all in T'.
    replace (length R + e - length R) with e in T' by lia. apply returns_ok. exact T'.
Qed.
Lemma shr_pow2 : forall a e, Nat.shiftr (2 ^ (a + e)) a = 2 ^ e.
Proof. intros a e. rewrite shr_div, Nat.pow_add_r, Nat.mul_comm, Nat.div_mul; [reflexivity|]. pose proof (pow2_pos a). lia. Qed.
Lemma bc_V_res_ok : forall N l r o rb ob R Rb f, reps r R -> reps o (comp R) -> reps rb Rb -> reps ob (comp Rb) ->
  tab N l (2 ^ (length R + length Rb)) f ->
  returns (bc_V_res o r ob rb l (length R) (length Rb) (2 ^ (length R + length Rb))) (fun x => rep x (mle (R ++ Rb) f)).
Proof.
  intros N l r o rb ob R Rb f Hr Ho Hrb Hob T. unfold bc_V_res.
  assert (OP : forall x0 o x1 r a b c d, rep x0 a -> rep o b -> rep x1 c -> rep r d ->
    rep (u512_mod (u512_add (u512_mul x0 o) (u512_mul x1 r))) (a * b + c * d)%F) by (intros; lzr).
  eapply returns_bind; [eapply copy_n_ok, T|]. intros out T1. cbv beta in T1.
  eapply returns_bind; [eapply (fold_table_part _ _ _ _ _ R (length Rb) f OP); eassumption|]. intros out1 T2. cbv beta in T2.
  rewrite shr_pow2. replace (2 ^ length Rb) with (2 ^ (length Rb + 0)) in T2 by (f_equal; lia).
  replace (2 ^ length Rb) with (2 ^ (length Rb + 0)) by (f_equal; lia).
  eapply returns_bind; [eapply (fold_table_part _ _ _ _ _ Rb 0 _ OP); eassumption|]. intros out2 T3. cbv beta in T3.
  eapply rb_tab; [exact T3|simpl; lia|]. intros x Rx. apply returns_ok. apply rep_fix_neg.
  rewrite mle_folds, folds_app. exact Rx.
Qed.
Lemma bc_V_in_ok : forall N l r o rb ob R Rb f, reps r R -> reps o (comp R) -> reps rb Rb -> reps ob (comp Rb) ->
  tab N l (2 ^ (length R + length Rb)) f ->
  returns (bc_V_in rb ob r o l (length Rb) (length R) (2 ^ (length R + length Rb))) (fun x => rep x (mle (R ++ Rb) f)).
Proof.
  intros N l r o rb ob R Rb f Hr Ho Hrb Hob T. unfold bc_V_in.
  assert (OP : forall x0 o x1 r a b c d, rep x0 a -> rep o b -> rep x1 c -> rep r d ->
    rep (fe_add (fe_mul x0 o) (fe_mul x1 r)) (a * b + c * d)%F) by (intros; apply rep_add; apply rep_mul; assumption).
  eapply returns_bind; [eapply copy_n_ok, T|]. intros out T1. cbv beta in T1.
  eapply returns_bind; [eapply (fold_table_part _ _ _ _ _ R (length Rb) f OP); eassumption|]. intros out1 T2. cbv beta in T2.
  rewrite shr_pow2. replace (2 ^ length Rb) with (2 ^ (length Rb + 0)) in T2 by (f_equal; lia).
  replace (2 ^ length Rb) with (2 ^ (length Rb + 0)) by (f_equal; lia).
  eapply returns_bind; [eapply (fold_table_part _ _ _ _ _ Rb 0 _ OP); eassumption|]. intros out2 T3. cbv beta in T3.
  eapply rb_tab; [exact T3|simpl; lia|]. intros x Rx. apply returns_ok. apply rep_fix_neg.
  rewrite mle_folds, folds_app. cbv beta in Rx. lzr.
Qed.
(** The extension of a table of blocks, block by block. *)
Lemma folds_block : forall R f B, folds R f B = mle R (fun g => f (B * 2 ^ length R + g)).
Proof.
  induction R as [|a R IH]; intros f B.
  - cbn [folds length]. unfold mle, eqw. cbn [length point map eqg Nat.pow sumn].
    replace (B * 1 + 0) with B by lia. ring.
  - cbn [folds length]. rewrite IH, mle_cons. apply mle_ext. intros i _. unfold fold1.
    rewrite pow2_S. f_equal; f_equal; f_equal; lia.
Qed.
Lemma mle_blocks : forall R Rb f, mle (R ++ Rb) f = mle Rb (fun B => mle R (fun g => f (B * 2 ^ length R + g))).
Proof.
  intros R Rb f. rewrite mle_folds, folds_app, <- mle_folds. apply mle_ext. intros B _. apply folds_block.
Qed.
Lemma mle_swap : forall R Rb (f : nat -> nat -> F), mle Rb (fun B => mle R (f B)) = mle R (fun g => mle Rb (fun B => f B g)).
Proof.
  intros R Rb f. unfold mle. 
  transitivity (sumn (2 ^ length Rb) (fun B => sumn (2 ^ length R) (fun g => eqw Rb B * (eqw R g * f B g))))%F.
  - apply sumn_ext. intros B _. rewrite <- sumn_scal. reflexivity.
  - rewrite sumn_swap. apply sumn_ext. intros g _. rewrite <- sumn_scal. apply sumn_ext. intros B _. ring.
Qed.

(** ** The equality table of the block point *)
Lemma split_fe_ok : forall N t r o R O i j E,
  reps r R -> reps o O -> i < length R -> i < length O ->
  j < 2 ^ i -> 2 ^ S i <= N ->
  tab N t (2 ^ i + j) (midlevel E (nth i R 0%F) (nth i O 0%F) i j) ->
  returns (split_fe t r o i j) (fun t' =>
    tab N t' (2 ^ i + S j) (midlevel E (nth i R 0%F) (nth i O 0%F) i (S j))).
Proof.
  intros N t r o R O i j E Hr Ho HR HO Hj HN T. rewrite pow2_S in HN.
  assert (HL : length t = N) by apply T.
  unfold split_fe. eapply rb_tab; [exact T|lia|]. intros x Rx.
  eapply rb_reps; [exact Hr|exact HR|]. intros a Ra.
  rewrite lor_pow2 by exact Hj. rewrite (Nat.add_comm j).
  assert (Ej : midlevel E (nth i R 0%F) (nth i O 0%F) i j j = E j).
  { unfold midlevel. destruct (Nat.ltb_spec j (2 ^ i)); [|lia]. destruct (Nat.ltb_spec j j); [lia|reflexivity]. }
  rewrite Ej in Rx.
  apply rb_wr; [lia|].
  assert (T2 : tab N (upd t (2 ^ i + j) (fe_mul x a)) (S (2 ^ i + j))
                (midlevel E (nth i R 0%F) (nth i O 0%F) i j)).
  { apply tab_push; [exact T|lia|]. unfold midlevel at 1.
    destruct (Nat.ltb_spec (2 ^ i + j) (2 ^ i)); [lia|]. replace (2 ^ i + j - 2 ^ i) with j by lia.
    apply rep_mul; assumption. }
  eapply rb_tab; [exact T2|lia|]. intros y Ry. rewrite Ej in Ry.
  eapply rb_reps; [exact Ho|exact HO|]. intros b Rb.
  apply returns_wr; [rewrite upd_length; lia|].
  rewrite Nat.add_succ_r.
  eapply tab_ext; [apply (tab_upd _ _ _ _ j _ (E j * nth i O 0%F)%F T2); [lia|apply rep_mul; assumption]|].
  intros z Hz. cbv beta. unfold midlevel. destruct (Nat.eqb_spec z j) as [->|Nz].
  - destruct (Nat.ltb_spec j (2 ^ i)); [|lia]. destruct (Nat.ltb_spec j (S j)); [reflexivity|lia].
  - destruct (Nat.ltb_spec z (2 ^ i)); [|reflexivity].
    destruct (Nat.ltb_spec z j); destruct (Nat.ltb_spec z (S j)); try lia; reflexivity.
Qed.
Lemma block_table_ok : forall N t r o Rb, reps r Rb -> reps o (comp Rb) -> 2 ^ length Rb <= N -> eqtab N 1%F [] t ->
  returns (for_ (length Rb) 0 (fun i bv => for_ (2 ^ i) 0 (fun j bv => split_fe bv r o i j) bv) t)
    (fun t' => tab N t' (2 ^ length Rb) (eqw Rb)).
Proof.
  intros N t r o Rb Hr Ho HN T.
  eapply returns_conseq.
  - apply (returns_for _ (length Rb) 0 _ (fun i t => eqtab N 1%F (prs Rb (comp Rb) 0 i) t)); [exact T|].
    clear t T. intros i t Hi T. simpl in Hi. unfold eqtab in T. rewrite prs_length in T.
    eapply returns_conseq.
    + apply (returns_for _ (2 ^ i) 0 _ (fun j t => tab N t (2 ^ i + j)
        (midlevel (fun k => 1 * eqg (prs Rb (comp Rb) 0 i) k)%F (nth i Rb 0%F) (nth i (comp Rb) 0%F) i j))).
      * apply midlevel_0, T.
      * intros j t' Hj T'. simpl in Hj. eapply split_fe_ok; try eassumption; rewrite ?comp_length; try lia.
        etransitivity; [apply Nat.pow_le_mono_r; [lia|]|exact HN]. lia.
    + cbv beta. intros t' T'. simpl (0 + _) in T'. unfold eqtab. rewrite prs_length, prs_S.
      rewrite Nat.add_0_r.
      pose proof (midlevel_end N t' 1%F (prs Rb (comp Rb) 0 i) (nth i Rb 0%F) (nth i (comp Rb) 0%F)) as M.
      rewrite prs_length in M. apply M, T'.
  - cbv beta. intros t' T'. unfold eqtab in T'. simpl (0 + _) in T'. rewrite prs_point, point_length in T'.
    eapply tab_ext; [exact T'|]. intros k _. unfold eqw. cbv beta. ring.
Qed.

(** ** Folding the two tables over the blocks *)
Definition foldV (a : F) (V : nat -> nat -> F) : nat -> nat -> F := fun B x => fold1 a (fun B => V B x) B.
Definition foldsV (R : list F) (V : nat -> nat -> F) : nat -> nat -> F := fun B x => folds R (fun B => V B x) B.
Lemma foldsV_snoc : forall R a V B x, foldsV (R ++ [a]) V B x = foldV a (foldsV R V) B x.
Proof. intros. unfold foldsV, foldV. rewrite folds_snoc. reflexivity. Qed.
Lemma interp_ok : forall z o r a b c, rep z a -> rep o b -> rep r c -> rep (interp z o r) (a * (1 - c) + b * c)%F.
Proof.
  intros z o r a b c Rz Ro Rr. eapply rep_eq; [unfold interp; apply rep_add; [apply rep_mul; [apply rep_sub; eassumption|exact Rr]|exact Rz]|].
  ring.
Qed.
Lemma fold_blocks_ok : forall N M n b r a bv vv beta V, tab N bv (2 ^ S n) beta -> vtab M vv (2 ^ S n) b V -> rep r a ->
  returns (fold_blocks r (2 ^ n) b bv vv) (fun st =>
    tab N (fst st) (2 ^ n) (fold1 a beta) /\ vtab M (snd st) (2 ^ n) b (foldV a V)).
Proof.
  intros N M n b r a bv vv beta V TB TV Rr. unfold fold_blocks.
  rewrite pow2_S in TB, TV. set (n2 := 2 ^ n) in *. set (b2 := 2 ^ b) in *.
  assert (Hb2 : 0 < b2) by apply pow2_pos. assert (Hn2 : 0 < n2) by apply pow2_pos.
  set (mix := fun c z => if z <? c then foldV a V (z / b2) (z mod b2) else V (z / b2) (z mod b2)).
  eapply returns_conseq.
  - apply (returns_for _ n2 0 _ (fun B st =>
      tab N (fst st) (2 * n2) (fun k => if k <? B then fold1 a beta k else beta k) /\
      tab M (snd st) (2 * n2 * b2) (mix (B * b2)))).
    + cbn [fst snd]. split; [exact TB|]. eapply tab_ext; [exact TV|]. intros z _. unfold mix. cbv beta. reflexivity.
    + intros B [bv' vv'] HB [T1 T2]. simpl in HB. cbn [fst snd] in *. rewrite shl1_or1, shl1.
      eapply rb_tab; [exact T1|lia|]. intros z Rz. eapply rb_tab; [exact T1|lia|]. intros o Ro. cbv beta in Rz, Ro.
      destruct (Nat.ltb_spec (2 * B) B); [lia|]. destruct (Nat.ltb_spec (2 * B + 1) B); [lia|].
      pose proof (tab_len _ _ _ _ T1) as L1. pose proof (tab_le _ _ _ _ T1) as L1'.
      apply rb_wr; [lia|].
      pose proof (tab_upd _ _ _ _ B _ _ T1 ltac:(lia) (interp_ok _ _ _ _ _ _ Rz Ro Rr)) as T1'.
      eapply returns_bind.
      * apply (returns_for _ b2 0 _ (fun u vv => tab M vv (2 * n2 * b2) (mix (B * b2 + u)))).
        { rewrite Nat.add_0_r. exact T2. }
        intros u vv'' Hu T3. simpl in Hu. rewrite !lor_shl by (fold b2; lia). fold b2.
        assert (K0 : 2 * B * b2 + u < 2 * n2 * b2) by (apply pair_lt; lia).
        assert (K1 : (2 * B + 1) * b2 + u < 2 * n2 * b2) by (apply pair_lt; lia).
        assert (K2 : B * b2 + u < 2 * n2 * b2) by (apply pair_lt; lia).
        eapply rb_tab; [exact T3|exact K0|]. intros z' Rz'. eapply rb_tab; [exact T3|exact K1|]. intros o' Ro'.
        unfold mix in Rz', Ro'.
        destruct (Nat.ltb_spec (2 * B * b2 + u) (B * b2 + u)).
        { exfalso. assert (B * b2 <= 2 * B * b2) by (apply Nat.mul_le_mono_r; lia). lia. }
        destruct (Nat.ltb_spec ((2 * B + 1) * b2 + u) (B * b2 + u)).
        { exfalso. assert (B * b2 <= (2 * B + 1) * b2) by (apply Nat.mul_le_mono_r; lia). lia. }
        rewrite pair_div, pair_mod in Rz', Ro' by lia.
        pose proof (tab_len _ _ _ _ T3) as L3. pose proof (tab_le _ _ _ _ T3) as L3'.
        apply returns_wr; [lia|].
        eapply tab_ext; [apply (tab_upd _ _ _ _ (B * b2 + u) _ _ T3 ltac:(lia) (interp_ok _ _ _ _ _ _ Rz' Ro' Rr))|].
        intros z'' Hz. cbv beta. unfold mix. destruct (Nat.eqb_spec z'' (B * b2 + u)) as [->|Nz].
        { destruct (Nat.ltb_spec (B * b2 + u) (B * b2 + S u)); [|lia]. rewrite pair_div, pair_mod by lia. reflexivity. }
        { destruct (Nat.ltb_spec z'' (B * b2 + u)); destruct (Nat.ltb_spec z'' (B * b2 + S u)); try lia; reflexivity. }
      * intros vv'' T3. cbv beta in T3. simpl (0 + b2) in T3. apply returns_ok. cbn [fst snd]. split.
        { eapply tab_ext; [exact T1'|]. intros k Hk. cbv beta. destruct (Nat.eqb_spec k B) as [->|Nk].
          - destruct (Nat.ltb_spec B (S B)); [reflexivity|lia].
          - destruct (Nat.ltb_spec k B); destruct (Nat.ltb_spec k (S B)); try lia; reflexivity. }
        { replace (S B * b2) with (B * b2 + b2) by (simpl; lia). exact T3. }
  - intros [bv' vv'] [T1 T2]. cbn [fst snd] in *. simpl (0 + n2) in T1, T2. split.
    + eapply tab_ext; [eapply tab_sub; [exact T1|lia]|]. intros k Hk. cbv beta.
      destruct (Nat.ltb_spec k n2); [reflexivity|lia].
    + unfold vtab. fold b2. eapply tab_ext; [eapply tab_sub; [exact T2|apply Nat.mul_le_mono_r; lia]|].
      intros z Hz. unfold mix. cbv beta. destruct (Nat.ltb_spec z (n2 * b2)); [reflexivity|lia].
Qed.

(** ** One message of phase 0 *)
(** Gates the block prover can handle: it reads both wires of every gate. *)
Definition bc_gate (n : nat) (g : gate) : Prop :=
  (g_ty g = 0 \/ g_ty g = 1 \/ g_ty g = 2)%Z /\ (0 <= g_u g < Z.of_nat n /\ 0 <= g_v g < Z.of_nat n)%Z.
Lemma bc_trad : forall n g, bc_gate n g -> trad_gate n g.
Proof. intros n g [T H]. unfold trad_gate. destruct T as [E|[E|E]]; rewrite E; auto. Qed.
(** The weighted sum of the gates of a layer over the previous values [V]. *)
Definition gsumF (G : nat) (L : layer) (W V : nat -> F) : F := sumn G (fun g => W g * gate_spec V (gate_at L g))%F.
Definition bsum (n G : nat) (L : layer) (W : nat -> F) (beta : nat -> F) (V : nat -> nat -> F) : F :=
  sumn n (fun B => beta B * gsumF G L W (V B))%F.
Lemma gate_spec_bc_ext : forall n V V' g, bc_gate n g -> (forall x, x < n -> V x = V' x) -> gate_spec V g = gate_spec V' g.
Proof.
  intros n V V' g [T H] E. unfold gate_spec. rewrite !(E (Z.to_nat (g_u g))), !(E (Z.to_nat (g_v g))) by lia.
  destruct T as [K|[K|K]]; rewrite K; reflexivity.
Qed.
Section Msg.
Variables (G b : nat) (L : layer) (W : nat -> F).
Hypothesis HG : G <= length (gates L).
Hypothesis TG : forall g, g < G -> bc_gate (2 ^ b) (gate_at L g).
Lemma gsumF_ext : forall V V', (forall x, x < 2 ^ b -> V x = V' x) -> gsumF G L W V = gsumF G L W V'.
Proof.
  intros V V' E. apply sumn_ext. intros g Hg. f_equal. apply (gate_spec_bc_ext (2 ^ b)); [apply TG, Hg|exact E].
Qed.
Lemma bsum_ext : forall n be be' V V', (forall B, B < n -> be B = be' B) ->
  (forall B x, B < n -> x < 2 ^ b -> V B x = V' B x) -> bsum n G L W be V = bsum n G L W be' V'.
Proof.
  intros n be be' V V' E1 E2. apply sumn_ext. intros B HB. rewrite (E1 B HB). f_equal. apply gsumF_ext. intros x Hx. apply E2; assumption.
Qed.
(** The value at [t] of the polynomial of one round. *)
Definition round0 (n : nat) (beta : nat -> F) (V : nat -> nat -> F) (t : F) : F :=
  bsum (2 ^ n) G L W (fold1 t beta) (foldV t V).
Lemma round0_01 : forall n beta V, (round0 n beta V 0 + round0 n beta V 1)%F = bsum (2 ^ S n) G L W beta V.
Proof.
  intros n beta V. unfold round0.
  rewrite (bsum_ext (2 ^ n) (fold1 0 beta) (fun B => beta (2 * B)) (foldV 0 V) (fun B => V (2 * B)))
    by (intros; unfold foldV, fold1; ring).
  rewrite (bsum_ext (2 ^ n) (fold1 1 beta) (fun B => beta (2 * B + 1)) (foldV 1 V) (fun B => V (2 * B + 1)))
    by (intros; unfold foldV, fold1; ring).
  unfold bsum. rewrite pow2_S, sumn_double, <- sumn_add. reflexivity.
Qed.

Variables (M n2 : nat) (vv : list fe) (V : nat -> nat -> F).
Hypothesis TV : vtab M vv (2 * n2) b V.
Lemma wire_poly_ok : forall blk w, blk < n2 -> (0 <= w < Z.of_nat (2 ^ b))%Z ->
  returns (wire_poly vv blk b w) (fun p => exists c, lrep p c /\ forall t, peval c t = foldV t V blk (Z.to_nat w)).
Proof.
  intros blk w Hb Hw. unfold wire_poly. apply rb_idx; [lia|]. set (u := Z.to_nat w). assert (Hu : u < 2 ^ b) by (unfold u; lia).
  rewrite shl1_or1, shl1, !lor_shl by exact Hu.
  eapply rb_vtab; [exact TV|lia|exact Hu|]. intros o Ro. eapply rb_vtab; [exact TV|lia|exact Hu|]. intros z Rz.
  apply returns_ok. exists [(V (2 * blk + 1)%nat u - V (2 * blk)%nat u)%F; V (2 * blk) u]. split.
  - eexists _, _. split; [reflexivity|]. split; [|exact Rz]. apply rep_sub; assumption.
  - intro t. cbn [peval length Fpow]. unfold foldV, fold1. ring.
Qed.
Lemma scale_lin_ok : forall p c w wv, lrep p c -> rep w wv ->
  exists d, qrep (QuadraticPoly (fe_of_int 0) (fe_mul (l_a p) w) (fe_mul (l_b p) w)) d /\
    forall t, peval d t = (wv * peval c t)%F.
Proof.
  intros p c w wv (a0 & b0 & -> & Ra & Rb) Rw. exists [0; a0 * wv; b0 * wv]%F. split.
  - eexists _, _, _. split; [reflexivity|]. cbn [q_a q_b q_c]. split; [exact rep_i0|]. split; apply rep_mul; assumption.
  - intro t. cbn [peval length Fpow]. ring.
Qed.
Lemma scale_quad_ok : forall p c w wv, qrep p c -> rep w wv ->
  exists d, qrep (scale_quad w p) d /\ forall t, peval d t = (wv * peval c t)%F.
Proof.
  intros p c w wv (a0 & b0 & c0 & -> & Ra & Rb & Rc) Rw. exists [a0 * wv; b0 * wv; c0 * wv]%F. split.
  - eexists _, _, _. split; [reflexivity|]. unfold scale_quad. cbn [q_a q_b q_c].
    split; [apply rep_mul; assumption|]. split; apply rep_mul; assumption.
  - intro t. cbn [peval length Fpow]. ring.
Qed.
Lemma qrep_len : forall p c, qrep p c -> length c = 3. Proof. intros p c (x & y & z & -> & _). reflexivity. Qed.
Lemma lrep_len : forall p c, lrep p c -> length c = 2. Proof. intros p c (x & y & -> & _). reflexivity. Qed.
Lemma crep_len : forall p c, crep p c -> length c = 4. Proof. intros p c (x & y & z & w & -> & _). reflexivity. Qed.
Lemma block_gate_ok : forall blk gt w wv pu pv cu cv q c, bc_gate (2 ^ b) gt -> rep w wv ->
  lrep pu cu -> (forall t, peval cu t = foldV t V blk (Z.to_nat (g_u gt))) ->
  lrep pv cv -> (forall t, peval cv t = foldV t V blk (Z.to_nat (g_v gt))) -> qrep q c ->
  exists c', qrep (block_gate gt w pu pv q) c' /\ forall t, (peval c' t = peval c t + wv * gate_spec (foldV t V blk) gt)%F.
Proof.
  intros blk gt w wv pu pv cu cv q c [T _] Rw Lu Eu Lv Ev Q. unfold block_gate, gate_spec.
  destruct T as [E|[E|E]]; rewrite E; cbv zeta.
  - destruct (scale_lin_ok _ _ _ _ (linear_add_ok _ _ _ _ Lu Lv) Rw) as (d & Qd & Hd). eexists. split; [apply quadratic_add_ok; [exact Q|exact Qd]|].
    intro t. rewrite peval_zipadd by (rewrite (qrep_len _ _ Q), (qrep_len _ _ Qd); reflexivity). rewrite Hd.
    rewrite peval_zipadd by (rewrite (lrep_len _ _ Lu), (lrep_len _ _ Lv); reflexivity). rewrite Eu, Ev. reflexivity.
  - destruct (linear_mul_ok _ _ _ _ Lu Lv) as (e & Qe & He).
    destruct (scale_quad_ok _ _ _ _ Qe Rw) as (d & Qd & Hd). eexists. split; [apply quadratic_add_ok; [exact Q|exact Qd]|].
    intro t. rewrite peval_zipadd by (rewrite (qrep_len _ _ Q), (qrep_len _ _ Qd); reflexivity). rewrite Hd, He, Eu, Ev. reflexivity.
  - exists c. split; [exact Q|]. intro t. ring.
Qed.
Lemma zero_quad_ok : qrep zero_quad [0;0;0]%F.
Proof. eexists _, _, _. split; [reflexivity|]. split; [exact rep_i0|]. split; exact rep_i0. Qed.
Lemma zero_cubic_ok : crep zero_cubic [0;0;0;0]%F.
Proof. eexists _, _, _, _. split; [reflexivity|]. split; [exact rep_i0|]. split; [exact rep_i0|]. split; exact rep_i0. Qed.
Variables (N NG : nat) (bv gsum : list fe) (beta : nat -> F).
Hypothesis TB : tab N bv (2 * n2) beta.
Hypothesis TS : tab NG gsum G W.
Lemma block_part_ok : forall C layer_id lg blk, nth_error (circuit C) layer_id = Some L -> G = 2 ^ lg -> blk < n2 ->
  returns (block_part C layer_id lg b blk gsum bv vv) (fun p => exists c, crep p c /\
    forall t, peval c t = (fold1 t beta blk * gsumF G L W (foldV t V blk))%F).
Proof.
  intros C layer_id lg blk EL EG Hb. unfold block_part. rewrite shl1_or1, shl1.
  eapply rb_tab; [exact TB|lia|]. intros z Rz. eapply rb_tab; [exact TB|lia|]. intros o Ro.
  eapply rb_nth; [exact EL|]. rewrite <- EG.
  eapply returns_bind.
  - apply (returns_for _ G 0 _ (fun g q => exists c, qrep q c /\ forall t, peval c t = gsumF g L W (foldV t V blk))).
    + exists [0;0;0]%F. split; [exact zero_quad_ok|]. intro t. unfold gsumF. cbn [sumn peval length Fpow]. ring.
    + intros g q Hg (c & Q & Hc). simpl in Hg. pose proof (TG g ltac:(lia)) as T. pose proof T as [_ (Wu & Wv)].
      eapply rb_nth; [apply gate_rd; lia|].
      eapply returns_bind; [apply wire_poly_ok; [exact Hb|exact Wu]|]. intros pu (cu & Lu & Eu).
      eapply returns_bind; [apply wire_poly_ok; [exact Hb|exact Wv]|]. intros pv (cv & Lv & Ev).
      eapply rb_tab; [exact TS|lia|]. intros w Rw. apply returns_ok.
      destruct (block_gate_ok blk _ _ _ _ _ _ _ _ _ T Rw Lu Eu Lv Ev Q) as (c' & Q' & Hc').
      exists c'. split; [exact Q'|]. intro t. rewrite Hc', Hc. unfold gsumF. cbn [sumn]. reflexivity.
  - intros q (c & Q & Hc). simpl (0 + G) in Hc. apply returns_ok.
    assert (Lb : lrep (LinearPoly (fe_sub o z) z) [beta (2 * blk + 1)%nat - beta (2 * blk)%nat; beta (2 * blk)%nat]%F).
    { eexists _, _. split; [reflexivity|]. split; [apply rep_sub; assumption|exact Rz]. }
    destruct (quadratic_mul_ok _ _ _ _ Q Lb) as (e & Ce & He). exists e. split; [exact Ce|].
    intro t. rewrite He, Hc. cbn [peval length Fpow]. unfold fold1. ring.
Qed.
End Msg.
