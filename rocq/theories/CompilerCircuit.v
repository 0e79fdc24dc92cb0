(** * The circuit in the files that the compiler writes *)
From Coq Require Import ZArith List Bool Arith Lia.
From Verif Require Import Limbs LimbsProofs Base Fp Circuit FastProverProofs Loader SpecLoader LoaderProofs LoadedProofs ZkEval ZkEvalProofs SpecZk ZkLoaded ZkPhaseProofs ZkPredProofs ZkVerifierProofs ZkComplete GenProofs
  Program SpecCompiler Compiler CompilerMaps CompilerLayers CompilerShape CompilerWiring CompilerFile.
Import ListNotations.
Open Scope Z_scope.

(** ** Wires *)
Definition sgate_ok (n : Z) (g : sgate) : Prop :=
  In (sg_ty g) [0; 1; 2; 6; 7; 8; 9; 10; 12; 13] /\ 0 <= sg_u g < n /\ 0 <= sg_v g < n /\ (sg_ty g = 6 \/ sg_ty g = 10 -> sg_v g = 0) /\
  (sg_ty g = 13 -> sg_u g = sg_v g) /\ (sg_ty g = 12 -> sg_v g - sg_u g + 1 <= 63).
Definition fgate_ok (n : Z) (f : fgate) : Prop :=
  In (f_ty f) [0; 1; 2; 6; 7; 8; 9; 10; 12; 13] /\ 0 <= f_u f < n /\ 0 <= f_v f < n /\ (f_ty f = 6 \/ f_ty f = 10 -> f_v f = 0) /\
  (f_ty f = 13 -> f_u f = f_v f) /\ (f_ty f = 12 -> f_v f - f_u f + 1 <= 63).
Lemma shape_wires : forall p K lv ps var L l S S1 j g, shape p K lv ps var L -> nth_error L l = Some S -> nth_error L (Datatypes.S l) = Some S1 ->
  nth_error (sl_gates S1) j = Some g -> sgate_ok (Z.of_nat (length (sl_gates S))) g.
Proof.
  intros p K lv ps var L l S S1 j g SH HS HS1 Hg.
  assert (NE : 0 < Z.of_nat (length (sl_gates S))).
  { destruct (sh_layer _ _ _ _ _ _ SH l) as (S' & b & Q & _ & _ & Ln & _); [apply nth_error_Some; rewrite HS; discriminate|]. rewrite HS in Q. injection Q as <-. rewrite Ln.
    pose proof (Nat.pow_nonzero 2 b). lia. }
  assert (BD : forall k, In k K -> lv k = l -> (ps k < length (sl_gates S))%nat).
  { intros k Hk Hl. destruct (sh_node _ _ _ _ _ _ SH k Hk) as (S' & g' & Q1 & Q2 & _). rewrite Hl, HS in Q1. injection Q1 as <-. apply nth_error_Some. rewrite Q2. discriminate. }
  destruct (sh_gate _ _ _ _ _ _ SH _ _ _ _ HS1 Hg) as [(E1 & E2 & E3)|(k & Hk & Hl & Hp)].
  - unfold sgate_ok. rewrite E1, E2, E3. cbn [In]. repeat split; try lia.
  - destruct (sh_node _ _ _ _ _ _ SH k Hk) as (S' & g' & Q1 & Q2 & ND). rewrite Hl in Q1, ND. rewrite HS1 in Q1. injection Q1 as <-. rewrite Hp, Hg in Q2. injection Q2 as <-.
    unfold sgate_ok. inversion ND as [t i g0 H1 H2 H3|o t a b l0 g0 ka kb H1 H2 H3 H4 H5 H6 H7 H8 H9|t a b l0 g0 H1 H2 H3 H4 H5 H6|k0 ka l0 g0 H0 H1 H2 H3 H4 H5 H6]; subst.
    + pose proof (BD ka H3 eq_refl) as Ba. rewrite H6. destruct o; rewrite H2; cbn [op_ty In];
        try (destruct (H8 ltac:(discriminate)) as (Hb & Hbl & _ & Hv); pose proof (BD kb Hb Hbl) as Bb; rewrite Hv in *; try (destruct (H9 eq_refl) as [_ H9']; rewrite H6 in H9'));
        try (rewrite (H7 eq_refl)); repeat split; intros; try lia.
    + rewrite H5, H6, H2. destruct (H4 a ltac:(lia)) as (Ka & La & _). destruct (H4 b ltac:(lia)) as (Kb & Lb & Hb). pose proof (BD _ Ka La). pose proof (BD _ Kb Lb). cbn [In]. repeat split; intros; try lia.
    + rewrite H1, H2, H6. pose proof (BD ka H3 eq_refl). cbn [In]. repeat split; intros; try lia.
Qed.

(** ** Descriptions *)
Lemma upper_ok_nth : forall R l0, (forall i l l', nth_error R i = Some l -> nth_error (l0 :: R) i = Some l' -> layer_size_ok l /\ Forall (gate_ok (least_bits (length l'))) l) ->
  upper_ok (least_bits (length l0)) R.
Proof.
  induction R as [|l R IH]; intros l0 H; [exact I|]. cbn [upper_ok]. destruct (H 0%nat l l0 eq_refl eq_refl) as [H1 H2]. split; [exact H1|]. split; [exact H2|].
  apply IH. intros i x y Hx Hy. apply (H (S i) x y Hx Hy).
Qed.
Lemma upper_meta : forall L M i l m, nth_error L i = Some l -> nth_error M i = Some m ->
  nth i (upper_layers L M) (plain_layer [] 0) = file_layer (file_gates l) (least_bits (length l)) m.
Proof.
  induction L as [|x L IH]; intros [|y M] i l m HL HM; try (destruct i; discriminate). destruct i as [|i]; cbn [nth_error] in *.
  - injection HL as ->. injection HM as ->. reflexivity.
  - cbn [upper_layers nth]. apply IH; assumption.
Qed.
Lemma denotes_meta : forall D i l m, (2 <= i)%nat -> nth_error (d_layers D) (i - 1) = Some l -> nth_error (d_meta D) (i - 1) = Some m ->
  layer_at (denotes D) i = file_layer (file_gates l) (least_bits (length l)) m.
Proof.
  intros [L M] i l m Hi HL HM. cbn [d_layers d_meta] in *. destruct i as [|[|i]]; try lia. cbn [Nat.sub] in *. destruct L as [|x L]; [discriminate|]. destruct M as [|y M]; [discriminate|].
  cbn [nth_error] in *. unfold layer_at, denotes. cbn [d_layers d_meta circuit nth]. apply upper_meta; assumption.
Qed.
Lemma fgate_gate_ok : forall n f, (1 <= n)%nat -> Z.of_nat n <= 2 ^ 30 -> fgate_ok (Z.of_nat n) f -> gate_ok (least_bits n) f.
Proof.
  intros n f N1 N2 (H1 & H2 & H3 & H4 & H5 & H6). destruct (least_bits_spec n N1) as (_ & B & _). apply Nat2Z.inj_le in B. rewrite pow_Z in B.
  cbn [In] in H1. unfold gate_ok, is_int, is_ll. split; [lia|]. split; [lia|]. split; [lia|]. split; [intros _; lia|]. split; [intros _ _; lia|]. split; [intro Q; rewrite Q in H1; exfalso; lia|exact H5].
Qed.
Lemma fgate_file : forall n f, (n <= 2 ^ 31) -> fgate_ok n f -> file_gate f = Gate (f_ty f) (f_u f) (f_v f).
Proof.
  intros n [ty u v] Hn (H1 & H2 & H3 & H4 & H5 & H6). cbn [f_ty f_u f_v] in *. unfold file_gate. cbn [f_ty f_u f_v]. rewrite !int32_small by lia. f_equal.
  destruct (Z.eqb_spec ty 6); [cbn [orb]; symmetry; apply H4; left; assumption|]. destruct (Z.eqb_spec ty 10); [cbn [orb]; symmetry; apply H4; right; assumption|]. reflexivity.
Qed.

(** An input of a loaded circuit, whatever its number. *)
Lemma loaded_stored_value : forall D x f, desc_ok D -> nth_error (file_row D 1) x = Some f -> vals (denotes D) 0 x = ofZ (stored (f_u f)).
Proof.
  intros D x f H E. destruct (denotes_depth D H) as [T LC].
  rewrite vals_0 by (intro K; rewrite K in LC; discriminate). unfold input_spec, gate_at.
  destruct (denotes_layer D 0 H ltac:(lia)) as [G _]. rewrite G. unfold row_gates. cbn [Nat.eqb]. change (file_row D 0) with (file_row D 1).
  rewrite (file_gate_some _ _ _ E). unfold file_gate. cbn [g_u]. rewrite W64_val. reflexivity.
Qed.

Section Made.
Variables (r0 : Z)
  (rnd : nat -> Z) (p : list stmt) (w : list rstmt) (K : list key) (lv ps : key -> nat) (var : key -> Z) (k : nat).
Variables (L0 : slayer) (L : list slayer) (l0 : list sgate) (l1 : list (option sgate)).
Let LL := L0 :: L.
Let n0 := length (sl_gates L0).
Let ic := Z.of_nat (length (inputs p)).
Hypothesis Hr0 : is_int r0.
Hypothesis SH : shape p K lv ps var LL.
Hypothesis WD : wired rnd w ic (2 ^ Z.of_nat k) n0 l0 l1.
Hypothesis FD : filed l0 l1 k L0 L.
Hypothesis DEP : Z.of_nat (length LL) < 999997.
Let D := file_of r0 l0 l1 (2 ^ k) (Z.of_nat k) L0 L.

Definition row_fgate (l : nat) : nat -> sgate -> fgate :=
  match l with O => first_fgate (length (sl_gates L0)) | S l' => later_fgate (length (sl_gates (nth l' (L0 :: L) L0))) end.
Lemma layer_bits : forall l S, nth_error LL l = Some S -> exists b, sl_bits S = Z.of_nat b /\ length (sl_gates S) = (2 ^ b)%nat /\ (1 <= b)%nat /\ (b + k <= 30)%nat /\ indexed S.
Proof.
  intros l S H. destruct (sh_layer _ _ _ _ _ _ SH l) as (S' & b & Q & B1 & B2 & B3 & B4 & _); [apply nth_error_Some; rewrite H; discriminate|]. rewrite H in Q. injection Q as <-.
  exists b. split; [exact B1|]. split; [exact B3|]. split; [lia|]. split; [|exact B4].
  pose proof (fd_size _ _ _ _ _ FD) as F. rewrite Forall_forall in F. specialize (F S (nth_error_In _ _ H)). rewrite B3, pow_Z, <- Z.pow_add_r in F by lia.
  apply Z.pow_lt_mono_r_iff in F; lia.
Qed.
Lemma later_nth : forall L' A rep l S, nth_error L' l = Some S ->
  nth_error (later_rows (length (sl_gates A)) rep L') l = Some (blocks (later_fgate (length (sl_gates (nth l (A :: L') L0)))) rep (sl_gates S)).
Proof.
  induction L' as [|X L' IH]; intros A rep l S H; [destruct l; discriminate|]. destruct l as [|l]; cbn [nth_error] in H.
  - injection H as ->. reflexivity.
  - cbn [later_rows nth_error]. rewrite (IH X rep l S H). reflexivity.
Qed.
Lemma later_length : forall L' q rep, length (later_rows q rep L') = length L'.
Proof. induction L' as [|S L' IH]; intros q rep; [reflexivity|]. cbn [later_rows length]. rewrite IH. reflexivity. Qed.
Lemma layers_length : length (d_layers D) = (2 + length LL)%nat.
Proof. unfold D, file_of, LL. cbn [d_layers length]. rewrite later_length. reflexivity. Qed.
Lemma row_at : forall l S, nth_error LL l = Some S -> nth_error (d_layers D) (2 + l) = Some (blocks (row_fgate l) (2 ^ k) (sl_gates S)).
Proof.
  intros l S H. unfold D, file_of. cbn [d_layers Nat.add nth_error]. destruct l as [|l]; cbn [nth_error] in *.
  - injection H as <-. reflexivity.
  - apply later_nth, H.
Qed.
Lemma n0_len : length l1 = (2 ^ k * n0)%nat.
Proof. rewrite (wd_len _ _ _ _ _ _ _ WD). rewrite <- pow_Z, Nat2Z.id. lia. Qed.
Lemma cell_at : forall r j, (r < 2 ^ k)%nat -> (j < n0)%nat -> exists g, nth_error l1 (r * n0 + j) = Some (Some g) /\
    ((Z.of_nat j < ic /\ exists u gu, g = SG 10 (Z.of_nat (r * n0 + j)) (Z.of_nat u) 0 /\ nth_error l0 u = Some gu /\ feeds rnd w (Z.of_nat r * ic + Z.of_nat j) (sg_u gu)) \/
    (ic <= Z.of_nat j /\ g = SG 2 (Z.of_nat (r * n0 + j)) 0 0)).
Proof.
  intros r j Hr Hj. assert (B : (r * n0 + j < length l1)%nat) by (rewrite n0_len; nia). destruct (nth_error l1 (r * n0 + j)) as [x|] eqn:E; [|apply nth_error_None in E; lia].
  destruct (fd_l1 _ _ _ _ _ FD x (nth_error_In _ _ E)) as (g & ->). exists g. split; [reflexivity|].
  apply (wd_cell _ _ _ _ _ _ _ WD r j g); [rewrite <- pow_Z, Nat2Z.id; exact Hr|exact Hj|exact E].
Qed.
Lemma l0_pos : (1 <= length l0)%nat /\ Z.of_nat (length l0) <= 2 ^ 30 /\ exists b, length l0 = (2 ^ b)%nat.
Proof.
  destruct (wd_size _ _ _ _ _ _ _ WD) as (b & -> & Hb). split; [pose proof (Nat.pow_nonzero 2 b); lia|]. split; [rewrite pow_Z; apply Z.pow_le_mono_r; lia|exists b; reflexivity].
Qed.
Lemma row1_ok : forall f, In f (map opt_fgate l1) -> fgate_ok (Z.of_nat (length l0)) f.
Proof.
  intros f Hf. apply in_map_iff in Hf. destruct Hf as (x & <- & Hx). apply In_nth_error in Hx. destruct Hx as (y & Hy).
  assert (By : (y < 2 ^ k * n0)%nat) by (rewrite <- n0_len; apply nth_error_Some; rewrite Hy; discriminate).
  destruct (block_split _ _ _ By) as (r & j & -> & Hr & Hj). destruct (cell_at r j Hr Hj) as (g & Eg & Cg). rewrite Eg in Hy. injection Hy as <-.
  pose proof l0_pos as (P1 & _). unfold fgate_ok. cbn [opt_fgate f_ty f_u f_v]. destruct Cg as [(_ & u & gu & -> & Eu & _)|(_ & ->)]; cbn [sg_ty sg_u sg_v In].
  - assert (u < length l0)%nat by (apply nth_error_Some; rewrite Eu; discriminate). repeat split; intros; lia.
  - repeat split; intros; lia.
Qed.
(** A gate in block [r] of a row above the wiring. *)
Lemma shift_bound : forall u r n m, 0 <= u < Z.of_nat n -> (r < m)%nat -> 0 <= u + Z.of_nat (r * n) < Z.of_nat (m * n).
Proof. intros u r n m Hu Hr. rewrite !Nat2Z.inj_mul. nia. Qed.
Lemma row_ok : forall l S r j g f, nth_error LL l = Some S -> nth_error (sl_gates S) j = Some g -> (r < 2 ^ k)%nat -> f = row_fgate l r g ->
  fgate_ok (Z.of_nat (2 ^ k * match l with O => n0 | S l' => length (sl_gates (nth l' LL L0)) end)) f.
Proof.
  intros l S r j g f HS Hg Hr ->. destruct l as [|l].
  - injection HS as <-. unfold row_fgate, first_fgate. fold n0. destruct (layer_bits 0 L0 eq_refl) as (b & _ & _ & _ & _ & IX). rewrite (IX _ _ Hg).
    assert (Hj : (j < n0)%nat) by (apply nth_error_Some; rewrite Hg; discriminate). pose proof (shift_bound (Z.of_nat j) r n0 (2 ^ k) ltac:(lia) Hr) as B.
    unfold fgate_ok. destruct (sg_ty g =? 3); cbn [f_ty f_u f_v In]; repeat split; intros; lia.
  - destruct (nth_error LL l) as [S'|] eqn:HS'; [|apply nth_error_None in HS'; assert (Datatypes.S l < length LL)%nat by (apply nth_error_Some; rewrite HS; discriminate); lia].
    rewrite (nth_error_nth _ _ L0 HS'). destruct (shape_wires _ _ _ _ _ _ _ _ _ _ _ SH HS' HS Hg) as (T & U & V & V0 & B & M).
    unfold row_fgate. fold LL. rewrite (nth_error_nth _ _ L0 HS'). set (n := length (sl_gates S')) in *.
    pose proof (shift_bound _ r n (2 ^ k) U Hr) as BU. pose proof (shift_bound _ r n (2 ^ k) V Hr) as BV. unfold fgate_ok, later_fgate. cbn [f_ty f_u f_v].
    split; [exact T|]. split; [exact BU|].
    destruct (Z.eqb_spec (sg_ty g) 10) as [E10|N10]; destruct (Z.eqb_spec (sg_ty g) 6) as [E6|N6]; cbn [orb];
      (split; [lia|]); (split; [intros; try reflexivity; lia|]); (split; [intros Q; try (exfalso; lia); rewrite (B Q); reflexivity|intros Q; specialize (M Q); lia]).
Qed.
Lemma below_length : forall l S, nth_error LL l = Some S ->
  exists R, nth_error (d_layers D) (1 + l) = Some R /\ length R = (2 ^ k * match l with O => n0 | S l' => length (sl_gates (nth l' LL L0)) end)%nat /\
    (1 <= length R)%nat /\ Z.of_nat (length R) <= 2 ^ 30.
Proof.
  intros l S HS.
  assert (PB : forall l S, nth_error LL l = Some S -> (1 <= 2 ^ k * length (sl_gates S))%nat /\ Z.of_nat (2 ^ k * length (sl_gates S)) <= 2 ^ 30).
  { intros l' S' H'. destruct (layer_bits l' S' H') as (b & _ & E & _ & B & _). rewrite E, <- Nat.pow_add_r. split; [pose proof (Nat.pow_nonzero 2 (k + b)); lia|].
    rewrite pow_Z. apply Z.pow_le_mono_r; lia. }
  destruct l as [|l].
  - injection HS as <-. exists (map opt_fgate l1). split; [reflexivity|]. rewrite map_length, n0_len. split; [reflexivity|]. apply (PB 0%nat L0 eq_refl).
  - destruct (nth_error LL l) as [S'|] eqn:HS'; [|apply nth_error_None in HS'; assert (Datatypes.S l < length LL)%nat by (apply nth_error_Some; rewrite HS; discriminate); lia].
    rewrite (nth_error_nth _ _ L0 HS'). exists (blocks (row_fgate l) (2 ^ k) (sl_gates S')). split; [apply (row_at l S' HS')|]. rewrite blocks_length. split; [reflexivity|]. apply (PB l S' HS').
Qed.
Lemma row_forall : forall l S, nth_error LL l = Some S -> exists R, nth_error (d_layers D) (1 + l) = Some R /\ (1 <= length R)%nat /\ Z.of_nat (length R) <= 2 ^ 30 /\
  Forall (fgate_ok (Z.of_nat (length R))) (blocks (row_fgate l) (2 ^ k) (sl_gates S)).
Proof.
  intros l S HS. destruct (below_length l S HS) as (R & ER & LR & B1 & B2). exists R. split; [exact ER|]. split; [exact B1|]. split; [exact B2|]. apply Forall_forall. intros f Hf.
  apply blocks_all in Hf. destruct Hf as (r & j & g & Hr & Hg & ->). rewrite LR. apply (row_ok l S r j g); [exact HS|exact Hg|exact Hr|reflexivity].
Qed.
Lemma all_rows : forall i l l', nth_error (d_layers D) (S i) = Some l -> nth_error (d_layers D) i = Some l' ->
  (exists b, length l = (2 ^ b)%nat /\ (b <= 30)%nat) /\ (1 <= length l')%nat /\ Z.of_nat (length l') <= 2 ^ 30 /\ Forall (fgate_ok (Z.of_nat (length l'))) l.
Proof.
  intros i l l' H H'. destruct i as [|i].
  - injection H as <-. injection H' as <-. rewrite !map_length. destruct (layer_bits 0 L0 eq_refl) as (b & _ & E & _ & B & _). pose proof l0_pos as (P1 & P2 & _). split.
    + exists (k + b)%nat. split; [rewrite n0_len; unfold n0; rewrite E, <- Nat.pow_add_r; reflexivity|lia].
    + split; [exact P1|]. split; [exact P2|]. apply Forall_forall. exact row1_ok.
  - assert (B : (S (S i) < length (d_layers D))%nat) by (apply nth_error_Some; rewrite H; discriminate). rewrite layers_length in B.
    destruct (nth_error LL i) as [S|] eqn:HS; [|apply nth_error_None in HS; lia]. change (Datatypes.S (Datatypes.S i)) with (2 + i)%nat in H. rewrite (row_at i S HS) in H. injection H as <-.
    destruct (row_forall i S HS) as (R & ER & B1 & B2 & F). change (Datatypes.S i) with (1 + i)%nat in H'. rewrite ER in H'. injection H' as <-. split; [|split; [exact B1|split; [exact B2|exact F]]].
    destruct (layer_bits i S HS) as (b & _ & E & _ & Bb & _). exists (k + b)%nat. split; [rewrite blocks_length, E, <- Nat.pow_add_r; reflexivity|lia].
Qed.
Lemma made_ok : desc_ok D.
Proof.
  pose proof l0_pos as (P1 & P2 & _). pose proof layers_length as LN. split; [|split; [|split]].
  - unfold D, file_of. cbn [d_layers]. split; [unfold layer_size_ok; rewrite map_length; split; assumption|]. split.
    + apply Forall_forall. intros f Hf. apply in_map_iff in Hf. destruct Hf as (g & <- & Hg). apply In_nth_error in Hg. destruct Hg as (j & Hg). destruct (wd_l0 _ _ _ _ _ _ _ WD j g Hg) as (_ & V & U).
      unfold input_ok, is_ll in *. cbn [f_ty f_u f_v]. lia.
    + match goal with |- upper_ok (least_bits (length ?x)) ?R => apply (upper_ok_nth R x) end. intros i l l' Hl Hl'.
      destruct (all_rows i l l') as ((b & E & Hb) & B1 & B2 & F); [unfold D, file_of; cbn [d_layers nth_error]; exact Hl|unfold D, file_of; cbn [d_layers]; exact Hl'|].
      split; [apply (size_pow l b); [exact E|lia]|]. eapply Forall_impl; [|exact F]. intros f Hf. apply fgate_gate_ok; assumption.
  - rewrite LN. unfold LL in *. cbn [length] in *. lia.
  - rewrite LN. unfold D, file_of, LL. cbn [d_meta length]. rewrite map_length. reflexivity.
  - unfold D, file_of. cbn [d_meta].
    assert (MO : forall l S fl, nth_error LL l = Some S -> (fl = 0 \/ fl = 1) -> meta_ok (meta_of fl (2 ^ k) (Z.of_nat k) S)).
    { intros l S fl HS Hfl. destruct (layer_bits l S HS) as (b & Eb & E & B0 & B & _). unfold meta_ok, meta_of, is_int. cbn [m_para m_block m_repeat m_log_block m_log_repeat].
      rewrite Eb, E, !pow_Z. assert (0 < 2 ^ Z.of_nat b <= 2 ^ 30) by (split; [apply Z.pow_pos_nonneg; lia|apply Z.pow_le_mono_r; lia]).
      assert (0 < 2 ^ Z.of_nat k <= 2 ^ 30) by (split; [apply Z.pow_pos_nonneg; lia|apply Z.pow_le_mono_r; lia]). repeat split; lia. }
    constructor; [unfold meta_ok; cbn [m_para m_block m_repeat m_log_block m_log_repeat]; unfold is_int in *; lia|]. constructor; [apply (MO 0%nat L0 0 eq_refl); left; reflexivity|]. apply Forall_forall. intros m Hm.
    apply in_map_iff in Hm. destruct Hm as (S & <- & Hin). apply In_nth_error in Hin. destruct Hin as (l & Hl). apply (MO l S 1 Hl). right. reflexivity.
Qed.

(** ** The circuit *)
Let C := denotes D.
Lemma made_depth : total_depth C = (3 + length LL)%nat.
Proof. unfold C. rewrite (proj1 (denotes_depth D made_ok)), layers_length. reflexivity. Qed.
Lemma meta_at : forall l S, nth_error LL l = Some S -> nth_error (d_meta D) (2 + l) = Some (meta_of 1 (2 ^ k) (Z.of_nat k) S).
Proof. intros l S H. unfold D, file_of. cbn [d_meta Nat.add nth_error]. fold LL. apply map_nth_error. exact H. Qed.
Lemma made_layer : forall l S, nth_error LL l = Some S ->
  layer_at C (3 + l) = file_layer (file_gates (blocks (row_fgate l) (2 ^ k) (sl_gates S))) (least_bits (2 ^ k * length (sl_gates S))) (meta_of 1 (2 ^ k) (Z.of_nat k) S).
Proof.
  intros l S H. unfold C. rewrite (denotes_meta D (3 + l) (blocks (row_fgate l) (2 ^ k) (sl_gates S)) (meta_of 1 (2 ^ k) (Z.of_nat k) S)).
  - rewrite blocks_length. reflexivity.
  - lia.
  - replace (3 + l - 1)%nat with (2 + l)%nat by lia. apply row_at, H.
  - replace (3 + l - 1)%nat with (2 + l)%nat by lia. apply meta_at, H.
Qed.
Lemma made_layer_2 : layer_at C 2 = file_layer (file_gates (map opt_fgate l1)) (least_bits (2 ^ k * n0)) (meta_of 0 (2 ^ k) (Z.of_nat k) L0).
Proof. unfold C. rewrite (denotes_meta D 2 (map opt_fgate l1) (meta_of 0 (2 ^ k) (Z.of_nat k) L0)); [rewrite map_length, n0_len; reflexivity|lia|reflexivity|reflexivity]. Qed.
Lemma block_file : forall l S r j g, nth_error LL l = Some S -> nth_error (sl_gates S) j = Some g -> (r < 2 ^ k)%nat ->
  nth_error (file_row D (3 + l)) (r * length (sl_gates S) + j) = Some (row_fgate l r g) /\
  file_gate (row_fgate l r g) = Gate (f_ty (row_fgate l r g)) (f_u (row_fgate l r g)) (f_v (row_fgate l r g)).
Proof.
  intros l S r j g HS Hg Hr. split.
  - unfold file_row. replace (3 + l - 1)%nat with (2 + l)%nat by lia. rewrite (nth_error_nth _ _ [] (row_at l S HS)).
    rewrite blocks_nth; [rewrite Hg; reflexivity|exact Hr|apply nth_error_Some; rewrite Hg; discriminate].
  - pose proof (row_ok l S r j g _ HS Hg Hr eq_refl) as F. destruct (below_length l S HS) as (R & _ & LR & _ & B). rewrite LR in B. eapply fgate_file; [|exact F]. lia.
Qed.
Lemma made_gate : forall l S r j g, nth_error LL l = Some S -> nth_error (sl_gates S) j = Some g -> (r < 2 ^ k)%nat ->
  gate_at (layer_at C (3 + l)) (r * length (sl_gates S) + j) = Gate (f_ty (row_fgate l r g)) (f_u (row_fgate l r g)) (f_v (row_fgate l r g)).
Proof.
  intros l S r j g HS Hg Hr. destruct (block_file l S r j g HS Hg Hr) as [E1 E2]. rewrite <- E2. unfold gate_at. destruct (denotes_layer D (3 + l) made_ok) as [G _].
  { rewrite layers_length. assert (l < length LL)%nat by (apply nth_error_Some; rewrite HS; discriminate). lia. }
  unfold C. rewrite G. unfold row_gates. destruct (Nat.eqb_spec (3 + l) 1); [lia|]. apply file_gate_some, E1.
Qed.
Lemma block_gate_ok : forall l S j g n, nth_error LL l = Some S -> nth_error (sl_gates S) j = Some g ->
  n = match l with O => n0 | S l' => length (sl_gates (nth l' LL L0)) end -> zblock_gate n (Gate (f_ty (row_fgate l 0 g)) (f_u (row_fgate l 0 g)) (f_v (row_fgate l 0 g))).
Proof.
  intros l S j g n HS Hg ->. set (n := match l with O => n0 | S l' => length (sl_gates (nth l' LL L0)) end).
  assert (F : fgate_ok (Z.of_nat n) (row_fgate l 0 g) /\ Z.of_nat n <= 2 ^ 30).
  { unfold n. destruct l as [|l].
    - injection HS as <-. unfold row_fgate, first_fgate. destruct (layer_bits 0 L0 eq_refl) as (b & _ & E & _ & B & IX). rewrite (IX _ _ Hg). cbn [Nat.mul]. rewrite Z.add_0_r.
      assert (Hj : (j < n0)%nat) by (apply nth_error_Some; rewrite Hg; discriminate). split; [|unfold n0; rewrite E, pow_Z; apply Z.pow_le_mono_r; lia].
      unfold fgate_ok. destruct (sg_ty g =? 3); cbn [f_ty f_u f_v In]; repeat split; intros; lia.
    - destruct (nth_error LL l) as [S'|] eqn:HS'; [|apply nth_error_None in HS'; assert (Datatypes.S l < length LL)%nat by (apply nth_error_Some; rewrite HS; discriminate); lia].
      rewrite (nth_error_nth _ _ L0 HS'). destruct (shape_wires _ _ _ _ _ _ _ _ _ _ _ SH HS' HS Hg) as (T & U & V & V0 & B & M).
      destruct (layer_bits l S' HS') as (b' & _ & E' & _ & B' & _). split; [|rewrite E', pow_Z; apply Z.pow_le_mono_r; lia].
      unfold row_fgate, later_fgate, fgate_ok. cbn [f_ty f_u f_v Nat.mul]. rewrite !Z.add_0_r. split; [exact T|]. split; [exact U|].
      destruct (Z.eqb_spec (sg_ty g) 10) as [E10|N10]; destruct (Z.eqb_spec (sg_ty g) 6) as [E6|N6]; cbn [orb];
        (split; [lia|]); (split; [intros; try reflexivity; lia|]); (split; [intros Q; try (exfalso; lia); exact (B Q)|intros Q; specialize (M Q); lia]). }
  destruct F as [(F1 & F2 & F3 & F4 & F5 & F6) HN]. generalize dependent (row_fgate l 0 g). intros [ty u v]. cbn [f_ty f_u f_v In]. intros F1 F2 F3 F4 F5 F6.
  unfold zblock_gate, zproto_gate. cbn [g_ty g_u g_v].
  destruct F1 as [<-|[<-|[<-|[<-|[<-|[<-|[<-|[<-|[<-|[<-|[]]]]]]]]]]]; (split; [|split; [discriminate|]]); try discriminate; try exact I; try (intros _; apply F4; left; reflexivity).
  all: try (split; assumption).
  - split; [exact F2|]. apply F4. right. reflexivity.
  - split; [exact F2|]. split; [exact F3|]. split; [lia|]. apply F6. reflexivity.
  - split; [exact F2|]. apply F5. reflexivity.
Qed.
Lemma block_shift : forall l S j g r b, nth_error LL l = Some S -> nth_error (sl_gates S) j = Some g ->
  (2 ^ b)%nat = match l with O => n0 | S l' => length (sl_gates (nth l' LL L0)) end ->
  shifted b r (Gate (f_ty (row_fgate l 0 g)) (f_u (row_fgate l 0 g)) (f_v (row_fgate l 0 g))) (Gate (f_ty (row_fgate l r g)) (f_u (row_fgate l r g)) (f_v (row_fgate l r g))).
Proof.
  intros l S j g r b HS Hg Eb. unfold shifted. cbn [g_ty g_u g_v]. destruct l as [|l]; unfold row_fgate.
  - unfold first_fgate. fold n0. rewrite Eb. destruct (sg_ty g =? 3); cbn [f_ty f_u f_v]; (split; [reflexivity|]); intro N; [|congruence]. cbn [Z.eqb Pos.eqb orb]. lia.
  - fold LL. rewrite <- Eb. unfold later_fgate. cbn [f_ty f_u f_v Nat.mul]. split; [reflexivity|]. intros _. rewrite !Z.add_0_r. split; [reflexivity|].
    rewrite orb_comm. destruct ((sg_ty g =? 6) || (sg_ty g =? 10)); reflexivity.
Qed.
Lemma made_provable : forall i g, (2 <= i < total_depth C)%nat -> provable (gate_at (layer_at C i) g).
Proof.
  intros i g Hi. rewrite made_depth in Hi. unfold gate_at. destruct (denotes_layer D i made_ok) as [G _]; [rewrite layers_length; lia|]. unfold C. rewrite G. unfold row_gates. destruct (Nat.eqb_spec i 1); [lia|].
  destruct (file_gate_at (file_row D i) g) as [(f & E & ->)| ->]; [|left; cbn; tauto].
  assert (R : exists n, n <= 2 ^ 30 /\ fgate_ok n f).
  { destruct (nth_error (d_layers D) (i - 1)) as [l|] eqn:E1; [|apply nth_error_None in E1; rewrite layers_length in E1; lia].
    destruct (nth_error (d_layers D) (i - 2)) as [l'|] eqn:E2; [|apply nth_error_None in E2; rewrite layers_length in E2; lia].
    destruct (all_rows (i - 2) l l') as (_ & _ & B & F); [replace (S (i - 2)) with (i - 1)%nat by lia; exact E1|exact E2|]. exists (Z.of_nat (length l')). split; [exact B|].
    rewrite Forall_forall in F. apply F. unfold file_row in E. rewrite (nth_error_nth _ _ [] E1) in E. apply (nth_error_In _ _ E). }
  destruct R as (m & Hm & F). rewrite (fgate_file m f) by (assumption || lia). destruct F as (F1 & _ & _ & _ & _ & F6). unfold provable. cbn [g_ty g_u g_v].
  cbn [In] in F1 |- *. destruct (Z.eq_dec (f_ty f) 12) as [Q|Q]; [right; split; [exact Q|apply F6, Q]|left; lia].
Qed.
Lemma made_par : forall i, (2 <= i < total_depth C)%nat -> zpar_ok (layer_at C i) (layer_at C (i - 1)).
Proof.
  intros i Hi. rewrite made_depth in Hi. destruct (Nat.eq_dec i 2) as [->|N2]; [rewrite made_layer_2; intro Q; discriminate Q|].
  set (l := (i - 3)%nat). replace i with (3 + l)%nat by lia. destruct (nth_error LL l) as [S|] eqn:HS; [|apply nth_error_None in HS; lia].
  intros _. destruct (layer_bits l S HS) as (lb & E1 & E2 & E3 & E4 & _).
  assert (BL : exists b, (2 ^ b)%nat = match l with O => n0 | S l' => length (sl_gates (nth l' LL L0)) end /\ (1 <= b)%nat /\ (b + k <= 30)%nat /\
     log_block_size (layer_at C (3 + l - 1)) = Z.of_nat b /\ bit_length (layer_at C (3 + l - 1)) = (b + k)%nat).
  { destruct l as [|l'].
    - destruct (layer_bits 0 L0 eq_refl) as (b & F1 & F2 & F3 & F4 & _). exists b. unfold n0. rewrite F2. split; [reflexivity|]. split; [exact F3|]. split; [exact F4|].
      change (3 + 0 - 1)%nat with 2%nat. rewrite made_layer_2. unfold n0. cbn [file_layer log_block_size bit_length meta_of m_log_block]. split; [exact F1|].
      rewrite F2, <- Nat.pow_add_r, least_bits_pow by lia. lia.
    - destruct (nth_error LL l') as [S'|] eqn:HS'; [|apply nth_error_None in HS'; assert (Datatypes.S l' < length LL)%nat by (apply nth_error_Some; rewrite HS; discriminate); lia]. destruct (layer_bits l' S' HS') as (b & F1 & F2 & F3 & F4 & _). exists b.
      rewrite (nth_error_nth _ _ L0 HS'), F2. split; [reflexivity|]. split; [exact F3|]. split; [exact F4|].
      replace (3 + Datatypes.S l' - 1)%nat with (3 + l')%nat by lia. rewrite (made_layer l' S' HS'). cbn [file_layer log_block_size bit_length meta_of m_log_block]. split; [exact F1|].
      rewrite F2, <- Nat.pow_add_r, least_bits_pow by lia. lia. }
  destruct BL as (b & G1 & G2 & G3 & G4 & G5). exists lb, b, k. rewrite G4, G5.
  assert (BLK : block_layer lb b k (layer_at C (3 + l))).
  { constructor.
    - intros j Hj. destruct (nth_error (sl_gates S) j) as [g|] eqn:Hg; [|apply nth_error_None in Hg; lia].
      pose proof (made_gate l S 0 j g HS Hg ltac:(pose proof (Nat.pow_nonzero 2 k); lia)) as Q. cbn [Nat.mul Nat.add] in Q. cbn [Nat.add]. rewrite Q.
      apply (block_gate_ok l S j g); [exact HS|exact Hg|exact G1].
    - intros r j Hr Hj. destruct (nth_error (sl_gates S) j) as [g|] eqn:Hg; [|apply nth_error_None in Hg; lia].
      pose proof (made_gate l S 0 j g HS Hg ltac:(lia)) as Q. cbn [Nat.mul Nat.add] in Q. cbn [Nat.add]. rewrite Q. rewrite <- E2.
      pose proof (made_gate l S r j g HS Hg Hr) as Q'. cbn [Nat.add] in Q'. rewrite Q'. apply (block_shift l S j g r b); [exact HS|exact Hg|exact G1]. }
  assert (FL : bit_length (layer_at C (3 + l)) = (k + lb)%nat /\ log_block_size (layer_at C (3 + l)) = Z.of_nat lb /\ block_size (layer_at C (3 + l)) = 2 ^ Z.of_nat lb /\
     log_repeat_num (layer_at C (3 + l)) = Z.of_nat k /\ repeat_num (layer_at C (3 + l)) = Z.of_nat (2 ^ k)).
  { rewrite (made_layer l S HS). cbn [file_layer log_block_size bit_length block_size log_repeat_num repeat_num meta_of m_log_block m_block m_repeat m_log_repeat].
    rewrite E1, E2, <- Nat.pow_add_r, least_bits_pow by lia. split; [reflexivity|]. split; [reflexivity|]. split; [apply pow_Z|]. split; reflexivity. }
  destruct FL as (-> & -> & -> & -> & ->). split; [lia|]. split; [lia|]. split; [reflexivity|]. split; [lia|]. split; [reflexivity|]. split; [lia|]. split; [reflexivity|].
  split; [reflexivity|]. split; [reflexivity|exact BLK].
Qed.
Lemma made_complete : zcomplete_circuit C.
Proof.
  apply loaded_zcomplete.
  - exact made_ok.
  - apply Forall_forall. intros R HR. apply In_nth_error in HR. destruct HR as (i & HR). destruct i as [|i].
    + injection HR as <-. destruct l0_pos as (_ & _ & b & E). exists b. rewrite map_length. exact E.
    + destruct (nth_error (d_layers D) i) as [l'|] eqn:E2; [|apply nth_error_None in E2; assert (S i < length (d_layers D))%nat by (apply nth_error_Some; rewrite HR; discriminate); lia].
      destruct (all_rows i R l' HR E2) as ((b & E & _) & _). exists b. exact E.
  - fold C. rewrite made_depth. unfold LL in *. cbn [length] in *. lia.
  - exact made_provable.
  - reflexivity.
  - exact made_par.
Qed.

(** ** The values *)
Hypothesis WOK : wiring_ok w.
Hypothesis POK : NoDup (targets p).
Let bl (l : nat) : nat := length (sl_gates (nth l LL L0)).
(** The value of the gate at position [j] of block [r] on level [l]. *)
Definition value_at (l r j : nat) : F := vals (denotes (file_of r0 l0 l1 (2 ^ k) (Z.of_nat k) L0 L)) (3 + l) (r * length (sl_gates (nth l (L0 :: L) L0)) + j).
Lemma level_bound : forall l S, nth_error LL l = Some S -> (3 + l <= length (d_layers D))%nat /\ bl l = length (sl_gates S).
Proof.
  intros l S H. split; [rewrite layers_length; assert (l < length LL)%nat by (apply nth_error_Some; rewrite H; discriminate); lia|]. unfold bl. rewrite (nth_error_nth _ _ L0 H). reflexivity.
Qed.
Lemma relay_value : forall r j, (r < 2 ^ k)%nat -> (j < n0)%nat -> Z.of_nat j < ic -> exists x, feeds rnd w (Z.of_nat r * ic + Z.of_nat j) x /\ vals C 2 (r * n0 + j) = ofZ (stored x).
Proof.
  intros r j Hr Hj Hic. destruct (cell_at r j Hr Hj) as (g & Eg & [(_ & u & gu & -> & Eu & FE)|(Q & _)]); [|lia]. exists (sg_u gu). split; [exact FE|].
  destruct (wd_l0 _ _ _ _ _ _ _ WD u gu Eu) as (_ & _ & U). assert (Hu : (u < length l0)%nat) by (apply nth_error_Some; rewrite Eu; discriminate).
  pose proof l0_pos as (_ & P2 & _). pose proof layers_length as LN.
  unfold C. rewrite (loaded_gate_value D 2 (r * n0 + j) (FGate 10 (Z.of_nat u) 0) made_ok); [|lia|].
  2:{ unfold file_row, D, file_of. cbn [d_layers Nat.sub nth]. rewrite (map_nth_error opt_fgate _ _ Eg). reflexivity. }
  unfold file_gate. cbn [f_ty f_u f_v Z.eqb Pos.eqb orb]. rewrite int32_small by lia. unfold gate_spec. cbn [g_ty g_u]. rewrite Nat2Z.id. cbn [Nat.sub].
  rewrite loaded_copy_value; [|exact made_ok| |lia].
  - apply (loaded_stored_value D u (FGate 3 (sg_u gu) (sg_v gu)) made_ok). unfold file_row, D, file_of. cbn [d_layers Nat.sub nth]. apply map_nth_error with (f := fun g => FGate 3 (sg_u g) (sg_v g)). exact Eu.
  - unfold file_gates, file_row, D, file_of. cbn [d_layers Nat.sub nth]. rewrite app_length, !map_length. lia.
Qed.
Lemma first_value : forall r j g, (r < 2 ^ k)%nat -> nth_error (sl_gates L0) j = Some g -> sg_ty g = 3 -> value_at 0 r j = vals C 2 (r * n0 + j).
Proof.
  intros r j g Hr Hg T. unfold value_at. cbn [nth]. fold n0. fold D. destruct (block_file 0 L0 r j g eq_refl Hg Hr) as [E1 E2]. fold n0 in E1.
  rewrite (loaded_gate_value D (3 + 0) (r * n0 + j) (row_fgate 0 r g) made_ok); [|rewrite layers_length; unfold LL; cbn [length]; lia|exact E1]. rewrite E2. unfold row_fgate, first_fgate. rewrite T. cbn [Z.eqb Pos.eqb f_ty f_u f_v].
  unfold gate_spec. cbn [g_ty g_u Nat.add Nat.sub]. fold C. f_equal. destruct (layer_bits 0 L0 eq_refl) as (b & _ & _ & _ & _ & IX). rewrite (IX _ _ Hg). fold n0. lia.
Qed.
Lemma later_value : forall l S S' r j g, (r < 2 ^ k)%nat -> nth_error LL (Datatypes.S l) = Some S -> nth_error LL l = Some S' -> nth_error (sl_gates S) j = Some g ->
  value_at (Datatypes.S l) r j = gate_spec (fun x => vals C (3 + l) x) (Gate (sg_ty g) (sg_u g + Z.of_nat (r * length (sl_gates S')))
     (if (sg_ty g =? 10) || (sg_ty g =? 6) then 0 else sg_v g + Z.of_nat (r * length (sl_gates S')))).
Proof.
  intros l S S' r j g Hr HS HS' Hg. unfold value_at. fold LL D. destruct (level_bound _ _ HS) as [B1 B2]. fold (bl (Datatypes.S l)). rewrite B2.
  destruct (block_file (Datatypes.S l) S r j g HS Hg Hr) as [E1 E2]. rewrite (loaded_gate_value D (3 + Datatypes.S l) (r * length (sl_gates S) + j) (row_fgate (Datatypes.S l) r g) made_ok); [|lia|exact E1].
  rewrite E2. unfold row_fgate, later_fgate. cbn [f_ty f_u f_v]. fold LL. rewrite (nth_error_nth _ _ L0 HS'). replace (3 + Datatypes.S l - 1)%nat with (3 + l)%nat by lia. reflexivity.
Qed.
Lemma value_below : forall l S r j z, nth_error LL l = Some S -> 0 <= z -> z = Z.of_nat j -> vals C (3 + l) (Z.to_nat (z + Z.of_nat (r * length (sl_gates S)))) = value_at l r j.
Proof.
  intros l S r j z HS Hz ->. unfold value_at. fold LL D C. rewrite (nth_error_nth _ _ L0 HS). f_equal. lia.
Qed.
Lemma rank_lt : forall t i, In (SIn t i) p -> (rank p t < length (inputs p))%nat.
Proof.
  intros t i H. assert (Ht : In t (inputs p)) by (apply in_flat_map; exists (SIn t i); split; [exact H|left; reflexivity]). unfold rank. revert Ht. generalize (inputs p). intros l Ht.
  apply in_split in Ht. destruct Ht as (a & b & ->). rewrite filter_app, !app_length. cbn [filter]. rewrite Z.ltb_irrefl.
  assert (FL : forall m, (length (filter (fun t' => Z.ltb t' t) m) <= length m)%nat) by (induction m as [|y m IH]; [reflexivity|]; cbn [filter length]; destruct (y <? t); cbn [length]; lia).
  pose proof (FL a). pose proof (FL b). cbn [length]. lia.
Qed.
(** What the value of a node is made of. *)
Lemma node_value : forall r kk, (r < 2 ^ k)%nat -> In kk K ->
  (exists t i x, kk = kV t /\ In (SIn t i) p /\ feeds rnd w (Z.of_nat (r * length (inputs p) + rank p t)) x /\ value_at (lv kk) r (ps kk) = ofZ (stored x)) \/
  (exists o t a b ka kb, kk = kV t /\ In (Op o t a b) p /\ In ka K /\ var ka = a /\ S (lv ka) = lv kk /\ (o <> ONot -> In kb K /\ var kb = b /\ S (lv kb) = lv kk) /\
     value_at (lv kk) r (ps kk) = op_val o (value_at (lv ka) r (ps ka)) (value_at (lv kb) r (ps kb))) \/
  (exists t a b, kk = kV t /\ In (Sum t a b) p /\ (forall i, a <= i <= b -> In (kV i) K /\ S (lv (kV i)) = lv kk) /\
     value_at (lv kk) r (ps kk) = sumn (Z.to_nat (b + 1 - a)) (fun i => Fpow (1 + 1) i * value_at (lv (kV (a + Z.of_nat i))) r (ps (kV (a + Z.of_nat i))))%F) \/
  (exists ka, (forall t, kk <> kV t) /\ In ka K /\ var ka = var kk /\ S (lv ka) = lv kk /\ value_at (lv kk) r (ps kk) = value_at (lv ka) r (ps ka)).
Proof.
  intros r kk Hr Hk. destruct (sh_node _ _ _ _ _ _ SH kk Hk) as (S & g & HS & Hg & ND). remember (lv kk) as lk eqn:Elk.
  assert (BL : forall l, lk = Datatypes.S l -> exists S', nth_error LL l = Some S').
  { intros l El. destruct (nth_error LL l) as [S'|] eqn:E; [exists S'; reflexivity|]. apply nth_error_None in E. assert (lk < length LL)%nat by (apply nth_error_Some; rewrite HS; discriminate). lia. }
  inversion ND as [t i g0 H1 H2 H3|o t a b l g0 ka kb H1 H2 H3 H4 H5 H6 H7 H8 H9|t a b l g0 H1 H2 H3 H4 H5 H6|k0 ka l g0 H0 H1 H2 H3 H4 H5 H6]; subst.
  - left. destruct (sh_inputs _ _ _ _ _ _ SH t i H1) as [_ Ep]. pose proof (rank_lt t i H1) as RL. match goal with H : 0%nat = lv _ |- _ => rewrite <- H in HS end. injection HS as <-.
    assert (Hj : (ps (kV t) < n0)%nat) by (apply nth_error_Some; rewrite Hg; discriminate).
    destruct (relay_value r (ps (kV t)) Hr Hj) as (x & FE & EV); [unfold ic; lia|]. exists t, i, x. split; [reflexivity|]. split; [exact H1|]. split.
    + replace (Z.of_nat (r * length (inputs p) + rank p t)) with (Z.of_nat r * ic + Z.of_nat (ps (kV t))); [exact FE|]. unfold ic. rewrite Ep. lia.
    + rewrite (first_value r _ g Hr Hg H2). exact EV.
  - right. left. match goal with H : Datatypes.S _ = lv _ |- _ => rewrite <- H in HS; destruct (BL _ (eq_sym H)) as (S' & HS') end. exists o, t, (var ka), b, ka, kb. split; [reflexivity|]. split; [exact H1|]. split; [exact H3|]. split; [reflexivity|].
    split; [reflexivity|]. split; [intro No; destruct (H8 No) as (Kb & Lb & Vb & _); split; [exact Kb|split; [exact Vb|f_equal; exact Lb]]|].
    rewrite (later_value _ S S' r _ g Hr HS HS' Hg). unfold gate_spec. cbn [g_ty g_u g_v]. rewrite H2.
    rewrite (value_below (lv ka) S' r (ps ka) (sg_u g) HS') by lia.
    destruct o; cbn [op_ty Z.eqb Pos.eqb orb op_val]; try reflexivity; destruct (H8 ltac:(discriminate)) as (Kb & Lb & _ & Vb);
      rewrite (value_below (lv ka) S' r (ps kb) (sg_v g) HS') by lia; rewrite Lb; reflexivity.
  - right. right. left. match goal with H : Datatypes.S _ = lv _ |- _ => rewrite <- H in HS; destruct (BL _ (eq_sym H)) as (S' & HS') end. exists t, a, b. split; [reflexivity|]. split; [exact H1|].
    split; [intros i Hi; destruct (H4 i Hi) as (Ki & Li & _); split; [exact Ki|f_equal; exact Li]|].
    rewrite (later_value _ S S' r _ g Hr HS HS' Hg). unfold gate_spec. cbn [g_ty g_u g_v]. rewrite H2. cbn [Z.eqb Pos.eqb orb].
    destruct (H4 b ltac:(lia)) as (_ & _ & Pb).
    replace (Z.to_nat (sg_v g + Z.of_nat (r * length (sl_gates S'))) + 1 - Z.to_nat (sg_u g + Z.of_nat (r * length (sl_gates S'))))%nat with (Z.to_nat (b + 1 - a)) by lia.
    apply sumn_ext. intros i Hi. destruct (H4 (a + Z.of_nat i) ltac:(lia)) as (_ & Li & Pi). f_equal.
    rewrite Li. rewrite <- (value_below l S' r (ps (kV (a + Z.of_nat i))) (sg_u g + Z.of_nat i) HS') by lia. f_equal. lia.
  - right. right. right. match goal with H : Datatypes.S _ = lv _ |- _ => rewrite <- H in HS; destruct (BL _ (eq_sym H)) as (S' & HS') end. exists ka. split; [exact H0|]. split; [exact H3|]. split; [exact H5|]. split; [reflexivity|].
    rewrite (later_value _ S S' r _ g Hr HS HS' Hg). unfold gate_spec. cbn [g_ty g_u g_v]. rewrite H1. apply (value_below (lv ka) S' r (ps ka) (sg_u g) HS'); lia.
Qed.
(** In any run each node has the value of its variable. *)
Lemma run_values : forall r val, (r < 2 ^ k)%nat -> run_of rnd p w r val -> forall kk, In kk K -> value_at (lv kk) r (ps kk) = val (var kk).
Proof.
  intros r val Hr [RH RI]. enough (G : forall n kk, (lv kk < n)%nat -> In kk K -> value_at (lv kk) r (ps kk) = val (var kk)) by (intros kk Hk; apply (G (S (lv kk)) kk); [lia|exact Hk]).
  induction n as [|n IH]; intros kk Hn Hk; [lia|].
  destruct (node_value r kk Hr Hk) as [(t & i & x & -> & H1 & H2 & ->)|[(o & t & a & b & ka & kb & -> & H1 & H2 & H3 & H4 & H5 & ->)|[(t & a & b & -> & H1 & H2 & ->)|(ka & H1 & H2 & H3 & H4 & ->)]]].
  - rewrite (sh_var _ _ _ _ _ _ SH). symmetry. apply (RI t i x H1 H2).
  - rewrite (sh_var _ _ _ _ _ _ SH). specialize (RH _ H1). cbn [holds] in RH. rewrite RH. rewrite (IH ka) by (assumption || lia). rewrite H3.
    destruct o; try (destruct (H5 ltac:(discriminate)) as (Kb & Vb & Lb); rewrite (IH kb) by (assumption || lia); rewrite Vb; reflexivity). reflexivity.
  - rewrite (sh_var _ _ _ _ _ _ SH). specialize (RH _ H1). cbn [holds] in RH. rewrite RH. apply sumn_ext. intros i Hi. destruct (H2 (a + Z.of_nat i) ltac:(lia)) as [Ki Li].
    rewrite (IH (kV (a + Z.of_nat i))) by (assumption || lia). rewrite (sh_var _ _ _ _ _ _ SH). reflexivity.
  - rewrite (IH ka) by (assumption || lia). rewrite H3. reflexivity.
Qed.
(** The values in the circuit are a run. *)
Lemma unique_target : forall s s' t, In s p -> In s' p -> In t (target s) -> In t (target s') -> s = s'.
Proof. intros s s' t H1 H2. apply (nodup_flat _ _ target p s s' t POK H1 H2). Qed.
Lemma run_exists : forall r, (r < 2 ^ k)%nat -> run_of rnd p w r (fun t => value_at (lv (kV t)) r (ps (kV t))).
Proof.
  intros r Hr. set (val := fun t => value_at (lv (kV t)) r (ps (kV t))).
  assert (VV : forall n kk, (lv kk < n)%nat -> In kk K -> value_at (lv kk) r (ps kk) = val (var kk)).
  { induction n as [|n IH]; intros kk Hn Hk; [lia|]. unfold val.
    destruct (node_value r kk Hr Hk) as [(t & _ & _ & E & _)|[(_ & t & _ & _ & _ & _ & E & _)|[(t & _ & _ & E & _)|(ka & H1 & H2 & H3 & H4 & EV)]]];
      try (rewrite E, (sh_var _ _ _ _ _ _ SH); reflexivity).
    rewrite EV, (IH ka) by (assumption || lia). rewrite H3. reflexivity. }
  assert (VK : forall kk, In kk K -> value_at (lv kk) r (ps kk) = val (var kk)) by (intros kk; apply (VV (S (lv kk))); lia).
  assert (ST : forall s t, In s p -> In t (target s) -> In (kV t) K) by (intros s t Hs Ht; apply (sh_targets _ _ _ _ _ _ SH); apply in_flat_map; exists s; split; assumption).
  split.
  - intros s Hs. destruct s as [o t a b|t a b|t i|o a|]; cbn [holds]; try exact I.
    + pose proof (ST _ t Hs ltac:(left; reflexivity)) as Kt. unfold val at 1.
      destruct (node_value r (kV t) Hr Kt) as [(t' & i & x & E & H1 & _)|[(o' & t' & a' & b' & ka & kb & E & H1 & H2 & H3 & H4 & H5 & EV)|[(t' & a' & b' & E & H1 & _)|(ka & H1 & _)]]].
      * apply kV_inj in E. subst t'. pose proof (unique_target _ _ t Hs H1 ltac:(left; reflexivity) ltac:(left; reflexivity)) as Q. discriminate Q.
      * apply kV_inj in E. subst t'. pose proof (unique_target _ _ t Hs H1 ltac:(left; reflexivity) ltac:(left; reflexivity)) as Q. injection Q as <- <- <-.
        rewrite EV, (VK ka H2), H3. destruct o; try (destruct (H5 ltac:(discriminate)) as (Kb & Vb & _); rewrite (VK kb Kb), Vb; reflexivity). reflexivity.
      * apply kV_inj in E. subst t'. pose proof (unique_target _ _ t Hs H1 ltac:(left; reflexivity) ltac:(left; reflexivity)) as Q. discriminate Q.
      * destruct (H1 t eq_refl).
    + pose proof (ST _ t Hs ltac:(left; reflexivity)) as Kt. unfold val at 1.
      destruct (node_value r (kV t) Hr Kt) as [(t' & i & x & E & H1 & _)|[(o' & t' & a' & b' & ka & kb & E & H1 & _)|[(t' & a' & b' & E & H1 & _ & EV)|(ka & H1 & _)]]].
      * apply kV_inj in E. subst t'. pose proof (unique_target _ _ t Hs H1 ltac:(left; reflexivity) ltac:(left; reflexivity)) as Q. discriminate Q.
      * apply kV_inj in E. subst t'. pose proof (unique_target _ _ t Hs H1 ltac:(left; reflexivity) ltac:(left; reflexivity)) as Q. discriminate Q.
      * apply kV_inj in E. subst t'. pose proof (unique_target _ _ t Hs H1 ltac:(left; reflexivity) ltac:(left; reflexivity)) as Q. injection Q as <- <-. exact EV.
      * destruct (H1 t eq_refl).
  - intros t i x Hs FE. pose proof (ST _ t Hs ltac:(left; reflexivity)) as Kt. unfold val.
    destruct (node_value r (kV t) Hr Kt) as [(t' & i' & x' & E & H1 & FE' & EV)|[(o' & t' & a' & b' & ka & kb & E & H1 & _)|[(t' & a' & b' & E & H1 & _)|(ka & H1 & _)]]].
    + apply kV_inj in E. subst t'. rewrite EV. do 2 f_equal. apply (feeds_fun rnd w _ _ _ WOK FE' FE).
    + apply kV_inj in E. subst t'. pose proof (unique_target _ _ t Hs H1 ltac:(left; reflexivity) ltac:(left; reflexivity)) as Q. discriminate Q.
    + apply kV_inj in E. subst t'. pose proof (unique_target _ _ t Hs H1 ltac:(left; reflexivity) ltac:(left; reflexivity)) as Q. discriminate Q.
    + destruct (H1 t eq_refl).
Qed.
(** Every input of every run is fed. *)
Lemma all_fed : forall r t i, (r < 2 ^ k)%nat -> In (SIn t i) p -> exists x, feeds rnd w (Z.of_nat (r * length (inputs p) + rank p t)) x.
Proof.
  intros r t i Hr Hs. assert (Kt : In (kV t) K) by (apply (sh_targets _ _ _ _ _ _ SH); apply in_flat_map; exists (SIn t i); split; [exact Hs|left; reflexivity]).
  destruct (node_value r (kV t) Hr Kt) as [(t' & i' & x' & E & H1 & FE' & EV)|[(o' & t' & a' & b' & ka & kb & E & H1 & _)|[(t' & a' & b' & E & H1 & _)|(ka & H1 & _)]]].
  - apply kV_inj in E. subst t'. exists x'. exact FE'.
  - apply kV_inj in E. subst t'. pose proof (unique_target _ _ t Hs H1 ltac:(left; reflexivity) ltac:(left; reflexivity)) as Q. discriminate Q.
  - apply kV_inj in E. subst t'. pose proof (unique_target _ _ t Hs H1 ltac:(left; reflexivity) ltac:(left; reflexivity)) as Q. discriminate Q.
  - destruct (H1 t eq_refl).
Qed.
Lemma targets_inj : forall q s s' t, NoDup (targets q) -> In s q -> In s' q -> In t (target s) -> In t (target s') -> s = s'.
Proof.
  induction q as [|x q IH]; intros s s' t ND Hs Hs' Ht Ht'; [contradiction|]. cbn [targets flat_map] in ND. fold (targets q) in ND.
  assert (TQ : forall y, In y q -> In t (target y) -> In t (targets q)) by (intros y Hy Q; apply in_flat_map; exists y; split; assumption).
  assert (NX : In t (target x) -> ~ In t (targets q)).
  { destruct x; cbn [target In] in *; intros Q; try contradiction; destruct Q as [->|[]]; inversion ND; assumption. }
  assert (ND' : NoDup (targets q)) by (destruct x; cbn [target app] in ND; try exact ND; inversion ND; assumption).
  destruct Hs as [->|Hs], Hs' as [->|Hs']; [reflexivity|exfalso; exact (NX Ht (TQ _ Hs' Ht'))|exfalso; exact (NX Ht' (TQ _ Hs Ht))|exact (IH s s' t ND' Hs Hs' Ht Ht')].
Qed.
(** Operands are on lower levels. *)
Lemma var_below : forall kk, In kk K -> (lv (kV (var kk)) <= lv kk)%nat.
Proof.
  enough (G : forall n kk, (lv kk < n)%nat -> In kk K -> (lv (kV (var kk)) <= lv kk)%nat) by (intros kk Hk; apply (G (S (lv kk)) kk); [lia|exact Hk]).
  induction n as [|n IH]; intros kk Hn Hk; [lia|]. pose proof (Nat.pow_nonzero 2 k ltac:(lia)) as PK.
  destruct (node_value 0 kk ltac:(lia) Hk) as [(t & i & x & -> & _)|[(o & t & a & b & ka & kb & -> & _)|[(t & a & b & -> & _)|(ka & H1 & H2 & H3 & H4 & _)]]]; try (rewrite (sh_var _ _ _ _ _ _ SH); lia).
  rewrite <- H3. specialize (IH ka ltac:(lia) H2). lia.
Qed.
Lemma operands_below : forall s t a, In s p -> target s = [t] -> uses s a -> match s with Op ONot _ x _ => a = x | _ => True end -> (lv (kV a) < lv (kV t))%nat.
Proof.
  intros s t a H TG U NU. assert (Ht : In t (targets p)) by (apply in_flat_map; exists s; split; [exact H|rewrite TG; left; reflexivity]). pose proof (Nat.pow_nonzero 2 k ltac:(lia)) as PK.
  assert (TI : forall s', In s' p -> target s' = [t] -> s' = s) by (intros s' H' T'; apply (targets_inj p s' s t POK H' H); [rewrite T'|rewrite TG]; left; reflexivity).
  destruct (node_value 0 (kV t) ltac:(lia) (sh_targets _ _ _ _ _ _ SH t Ht)) as [(t' & i & x & E & H1 & _)|[(o' & t' & a' & b' & ka & kb & E & H1 & H2 & H3 & H4 & H5 & _)|[(t' & a' & b' & E & H1 & H2 & _)|(ka & H1 & _)]]].
  - injection E as <-. rewrite <- (TI _ H1 eq_refl) in U. destruct U.
  - injection E as <-. rewrite <- (TI _ H1 eq_refl) in U, NU. pose proof (var_below ka H2) as B. rewrite H3 in B. cbn [uses] in U. destruct U as [->|U]; [lia|]. destruct o'; try (subst a; destruct (H5 ltac:(discriminate)) as (K1 & K2 & K3); pose proof (var_below kb K1) as B'; rewrite K2 in B'; lia).
    subst a'. lia.
  - injection E as <-. rewrite <- (TI _ H1 eq_refl) in U. destruct (H2 a U) as (_ & Q). lia.
  - exfalso. exact (H1 t eq_refl).
Qed.
End Made.
