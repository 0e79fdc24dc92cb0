(** * The compiler writes both files *)
From Coq Require Import ZArith List Bool Arith Lia Sorted.
From Verif Require Import Base Fp Loader SpecLoader LoaderProofs ZkEval Program SpecCompiler Compiler CompilerMaps CompilerRead CompilerLayers CompilerShape CompilerWiring CompilerFile CompilerOrder CompilerTotal CompilerFills.
Import ListNotations.
Open Scope Z_scope.

Lemma rdl_total : forall rnd w p K lv ps var L S0 k, wiring_ok w -> wiring_regular w -> shape p K lv ps var L -> nth_error L 0 = Some S0 -> inputs p <> [] ->
  length (out_nums w) = (2 ^ k * length (inputs p))%nat -> Z.of_nat (length (sl_gates S0)) * 2 ^ Z.of_nat k < 2 ^ 31 -> Z.of_nat (length (sources w)) < 2 ^ 30 ->
  exists l0 l1, read_rdl rnd w (Z.of_nat (length (inputs p))) L = Ok (l0, l1, 2 ^ Z.of_nat k) /\ forall x, In x l1 -> exists g, x = Some g.
Proof.
  intros rnd w p K lv ps var L S0 k W WR SH N0 NI OUT SZ SRC. set (ic := Z.of_nat (length (inputs p))).
  assert (ICP : 0 < ic) by (unfold ic; destruct (inputs p); [contradiction|cbn [length]; lia]).
  assert (OUTZ : Z.of_nat (length (out_nums w)) = 2 ^ Z.of_nat k * ic) by (rewrite OUT, Nat2Z.inj_mul, Nat2Z.inj_pow; reflexivity).
  destruct (sh_layer _ _ _ _ _ _ SH 0%nat) as (S0' & b0 & Q0 & B0 & B1 & B2 & B3 & B4); [apply nth_error_Some; rewrite N0; discriminate|].
  rewrite N0 in Q0. injection Q0 as <-. destruct (B4 eq_refl) as (B5 & B6 & B7). fold ic in B5, B7. set (n0 := length (sl_gates S0)) in *.
  assert (N0Z : Z.of_nat n0 = 2 ^ Z.of_nat b0) by (rewrite B2, Nat2Z.inj_pow; reflexivity).
  assert (PW : 0 < 2 ^ Z.of_nat k) by (apply Z.pow_pos_nonneg; lia).
  assert (OB : Z.of_nat (length (out_nums w)) < 2 ^ 31) by (rewrite OUTZ; nia).
  destruct (read_wiring rnd w W WR OB) as (s & E1). pose proof (read_rstmts_inv rnd w s W E1) as RI.
  unfold read_rdl. rewrite E1. cbn [bind]. unfold rd. rewrite N0. cbn [bind]. destruct (Z.eqb_spec ic 0); [lia|]. cbn [bind]. cbv zeta.
  assert (QR : Z.quot (rr_cnt s) ic = 2 ^ Z.of_nat k) by (rewrite (rv_cnt _ _ _ RI), OUTZ; apply Z.quot_mul; lia). rewrite QR.
  assert (QA : (ic * 2 ^ Z.of_nat k =? rr_cnt s) = true) by (apply Z.eqb_eq; rewrite (rv_cnt _ _ _ RI), OUTZ; ring). rewrite QA. cbn [assert_ bind]. fold n0.
  assert (NB : ic <= Z.of_nat n0 <= 2 * ic) by lia.
  destruct (number_total rnd w s ic n0 k W WR RI ICP OUTZ SRC) as (c & pos & EN). rewrite EN. cbn [bind].
  assert (EI : exists l0, rdl_inputs s pos = Ok l0).
  { unfold rdl_inputs. cbv zeta. change (map _ _) with (first_gates s pos). assert (LF : length (first_gates s pos) = length (filter nonpass (rr_m s))) by (unfold first_gates; apply map_length).
    pose proof (nonpass_count rnd w s n0 k W RI) as NP. destruct (halve_one_total (Z.of_nat (length (first_gates s pos)))) as (full & bits & EH & _); [rewrite LF; lia|]. rewrite EH. cbn [bind]. eexists. reflexivity. }
  destruct EI as (l0 & EI). rewrite EI. cbn [bind].
  destruct (relays_fill rnd w s ic n0 k W WR RI ICP NB OUTZ SZ c pos (sl_pad S0) EN) as (l1 & ER & FR); [lia|]. rewrite ER. cbn [bind]. exists l0, l1. split; [reflexivity|exact FR].
Qed.
Lemma cat_map_total : forall A B (f : A -> outcome (list B)) l, (forall x, In x l -> exists y, f x = Ok y) -> exists r, cat_map f l = Ok r.
Proof.
  intros A B f. induction l as [|x l IH]; intro H; [exists []; reflexivity|]. cbn [cat_map]. destruct (H x ltac:(left; reflexivity)) as (y & ->). cbn [bind]. destruct IH as (r & ->); [intros z Hz; apply H; right; exact Hz|]. cbn [bind]. eexists. reflexivity.
Qed.
Lemma log_rep_total : forall k f l, (k <= f)%nat -> exists x, log_rep f (2 ^ Z.of_nat k) l = Ok x.
Proof.
  induction k as [|k IH]; intros f l H.
  - exists l. destruct f; reflexivity.
  - destruct f as [|f]; [lia|]. cbn [log_rep]. rewrite Nat2Z.inj_succ, Z.pow_succ_r by lia. assert (0 < 2 ^ Z.of_nat k) by (apply Z.pow_pos_nonneg; lia).
    destruct (Z.eqb_spec (2 * 2 ^ Z.of_nat k) 1); [lia|]. destruct (Z.eqb_spec (2 * 2 ^ Z.of_nat k) 0); [lia|]. rewrite Z.mul_comm, Z.div_mul by lia. apply IH. lia.
Qed.
Lemma block_ints : forall r k n j, (r < 2 ^ k)%nat -> 0 <= j < Z.of_nat n -> Z.of_nat n * 2 ^ Z.of_nat k < 2 ^ 31 -> int_op (Z.of_nat r * Z.of_nat n) = Ok (Z.of_nat r * Z.of_nat n) /\ int_op (j + Z.of_nat r * Z.of_nat n) = Ok (j + Z.of_nat r * Z.of_nat n).
Proof.
  intros r k n j Hr Hj HB. assert (Hz : Z.of_nat r + 1 <= 2 ^ Z.of_nat k) by (change 2 with (Z.of_nat 2) at 1; rewrite <- Nat2Z.inj_pow; lia).
  assert (0 <= Z.of_nat r * Z.of_nat n) by (apply Z.mul_nonneg_nonneg; lia). assert ((Z.of_nat r + 1) * Z.of_nat n <= 2 ^ Z.of_nat k * Z.of_nat n) by (apply Z.mul_le_mono_nonneg_r; lia). split; apply int_op_ok; lia.
Qed.
Lemma merge_total : forall r0 p K lv ps var l0 l1 k L0 L, shape p K lv ps var (L0 :: L) -> (forall x, In x l1 -> exists g, x = Some g) ->
  (forall S, In S (L0 :: L) -> Z.of_nat (length (sl_gates S)) * 2 ^ Z.of_nat k < 2 ^ 31) ->
  exists ct mt, merge r0 l0 l1 (2 ^ Z.of_nat k) (L0 :: L) = Ok (ct, mt) /\ hd 0 ct = Z.of_nat (3 + length L).
Proof.
  intros r0 p K lv ps var l0 l1 k L0 L SH F1 SZ. unfold merge.
  assert (PW : Z.to_nat (2 ^ Z.of_nat k) = (2 ^ k)%nat) by (change 2 with (Z.of_nat 2) at 1; rewrite <- Nat2Z.inj_pow, Nat2Z.id; reflexivity). assert (PP : 0 < 2 ^ Z.of_nat k) by (apply Z.pow_pos_nonneg; lia).
  destruct (cat_map_total _ _ print_opt l1) as (t1 & ->); [intros x Hx; destruct (F1 x Hx) as (g & ->); eexists; reflexivity|]. cbn [bind].
  assert (LEN : forall S, In S (L0 :: L) -> 2 <= Z.of_nat (length (sl_gates S)) /\ indexed S).
  { intros S HS. apply In_nth_error in HS. destruct HS as (l & HS). destruct (sh_layer _ _ _ _ _ _ SH l) as (S' & b & Q & _ & B1 & B2 & B3 & _); [apply nth_error_Some; rewrite HS; discriminate|]. rewrite HS in Q. injection Q as <-. split; [|exact B3].
    rewrite B2, Nat2Z.inj_pow. change (Z.of_nat 2) with 2. assert (Q : 2 ^ 1 <= 2 ^ Z.of_nat b) by (apply Z.pow_le_mono_r; lia). exact Q. }
  assert (KB : (k <= 32)%nat).
  { destruct (LEN L0 ltac:(left; reflexivity)) as [Q _]. specialize (SZ L0 ltac:(left; reflexivity)). assert (2 ^ Z.of_nat k < 2 ^ 31) by nia. apply (Z.pow_lt_mono_r_iff 2) in H; lia. }
  destruct (log_rep_total k 32 0 KB) as (lr & ->). cbn [bind rd nth_error tl].
  assert (IX : forall S j g, In S (L0 :: L) -> nth_error (sl_gates S) j = Some g -> 0 <= sg_g g < Z.of_nat (length (sl_gates S))).
  { intros S j g HS Hg. destruct (LEN S HS) as [_ X]. rewrite (X j g Hg). assert (j < length (sl_gates S))%nat by (apply nth_error_Some; rewrite Hg; discriminate). lia. }
  assert (NB : forall S, In S (L0 :: L) -> int_op (Z.of_nat (length (sl_gates S)) * 2 ^ Z.of_nat k) = Ok (Z.of_nat (length (sl_gates S)) * 2 ^ Z.of_nat k)).
  { intros S HS. apply int_op_ok. split; [nia|apply SZ, HS]. }
  rewrite NB by (left; reflexivity). cbn [bind].
  assert (E2 : exists t2, print_first L0 (2 ^ Z.of_nat k) = Ok t2).
  { unfold print_first. rewrite PW. apply cat_map_total. intros r Hr. apply in_seq in Hr. apply cat_map_total. intros g Hg. apply In_nth_error in Hg. destruct Hg as (j & Hg).
    destruct (block_ints r k (length (sl_gates L0)) (sg_g g)) as [-> Q]; [lia|apply (IX L0 j g ltac:(left; reflexivity) Hg)|apply SZ; left; reflexivity|]. cbn [bind]. rewrite Q. cbn [bind].
    destruct (sh_gate _ _ _ _ _ _ SH 0%nat L0 j g eq_refl Hg) as [(T & _)|(kk & Hk & Hl & Hp)]; [rewrite T; eexists; reflexivity|].
    destruct (sh_node _ _ _ _ _ _ SH kk Hk) as (S & g' & HS & Hg' & ND). rewrite Hl in HS, ND. cbn [nth_error] in HS. injection HS as <-. rewrite Hp, Hg in Hg'. injection Hg' as <-. inversion ND; subst. rewrite H0. eexists. reflexivity. }
  destruct E2 as (t2 & ->). cbn [bind].
  assert (E3 : forall L' q, (forall S, In S L' -> In S L) -> Z.of_nat q * 2 ^ Z.of_nat k < 2 ^ 31 -> exists t3, print_layers q L' (2 ^ Z.of_nat k) = Ok t3).
  { induction L' as [|S L' IH]; intros q HS Hq; [exists []; reflexivity|]. cbn [print_layers]. assert (HI : In S (L0 :: L)) by (right; apply HS; left; reflexivity). rewrite (NB S HI). cbn [bind].
    assert (EL : exists a, print_layer q S (2 ^ Z.of_nat k) = Ok a).
    { unfold print_layer. rewrite PW. apply cat_map_total. intros r Hr. apply in_seq in Hr. apply cat_map_total. intros g Hg. apply In_nth_error in Hg. destruct Hg as (j & Hg).
      destruct (block_ints r k (length (sl_gates S)) (sg_g g)) as [-> Q]; [lia|apply (IX S j g HI Hg)|apply SZ, HI|]. cbn [bind]. rewrite Q. cbn [bind].
      assert (QI : int_op (Z.of_nat r * Z.of_nat q) = Ok (Z.of_nat r * Z.of_nat q)).
      { assert (Hz : Z.of_nat r + 1 <= 2 ^ Z.of_nat k) by (change 2 with (Z.of_nat 2) at 1; rewrite <- Nat2Z.inj_pow; lia). assert (0 <= Z.of_nat r * Z.of_nat q) by (apply Z.mul_nonneg_nonneg; lia).
        assert (Z.of_nat r * Z.of_nat q <= 2 ^ Z.of_nat k * Z.of_nat q) by (apply Z.mul_le_mono_nonneg_r; lia). apply int_op_ok. lia. }
      rewrite QI. cbn [bind]. destruct ((sg_ty g =? 10) || (sg_ty g =? 6)) eqn:ET; [|eexists; reflexivity].
      assert (V0 : sg_v g = 0).
      { pose proof (HS S ltac:(left; reflexivity)) as HL. apply In_nth_error in HL. destruct HL as (l & HL). destruct (sh_gate _ _ _ _ _ _ SH (Datatypes.S l) S j g HL Hg) as [(_ & _ & V)|(kk & Hk & Hl & Hp)]; [exact V|].
        destruct (sh_node _ _ _ _ _ _ SH kk Hk) as (S' & g' & HS' & Hg' & ND). rewrite Hl in HS', ND. cbn [nth_error] in HS'. rewrite HL in HS'. injection HS' as <-. rewrite Hp, Hg in Hg'. injection Hg' as <-.
        inversion ND as [|o t a b l' g0 ka kb N1 N2 N3 N4 N5 N6 N7 N8 N9|t a b l' g0 N1 N2 N3 N4 N5 N6|k0 ka l' g0 N1 N2 N3 N4 N5 N6 N7]; subst.
        - rewrite N2 in ET. destruct o; try discriminate ET. apply N7. reflexivity.
        - rewrite N2 in ET. discriminate ET.
        - exact N3. }
      rewrite V0. cbn [Z.eqb assert_ bind]. eexists. reflexivity. }
    destruct EL as (a & ->). cbn [bind]. destruct (IH (length (sl_gates S))) as (b & ->); [intros S' HS'; apply HS; right; exact HS'|apply SZ, HI|]. cbn [bind]. eexists. reflexivity. }
  destruct (E3 L (length (sl_gates L0)) (fun S H => H)) as (t3 & ->); [apply SZ; left; reflexivity|]. cbn [bind].
  eexists. eexists. split; [reflexivity|]. cbn [app hd length]. lia.
Qed.
(** The compiler finishes, and the depth it writes is that of the program plus three. *)
Lemma compile_total : forall r0 rnd p w lev k, prog_ok p -> ordered p -> levels_of p lev -> regular p lev -> inputs p <> [] ->
  wiring_ok w -> wiring_regular w -> length (out_nums w) = (2 ^ k * length (inputs p))%nat ->
  2 * Z.of_nat (gate_count p lev) * 2 ^ Z.of_nat k < 2 ^ 31 -> Z.of_nat (length (sources w)) < 2 ^ 30 ->
  exists ct mt, compile_with r0 read_prog rnd p w = Ok (ct, mt) /\ exists t, In t (targets p) /\ hd 0 ct = Z.of_nat (lev t) + 3.
Proof.
  intros r0 rnd p w lev k PO OR LV RG NI W WR OUT SZ SRC. assert (PP : 1 <= 2 ^ Z.of_nat k) by (pose proof (Z.pow_pos_nonneg 2 (Z.of_nat k)); lia).
  assert (GC : Z.of_nat (gate_count p lev) < 2 ^ 30) by nia.
  destruct (read_total p lev PO OR RG) as (m & E1 & OI); [unfold gate_count in GC; lia|]. unfold compile_with. rewrite E1. cbn [bind].
  destruct (dag_total p m _ lev PO OR LV RG NI GC E1 OI) as (L & E2 & HS & t & Ht & HL). rewrite E2. cbn [bind].
  destruct L as [|L0 L]; [discriminate HL|]. destruct (compiled_shape p m _ (L0 :: L) PO E1 E2 ltac:(discriminate)) as (_ & K & lv & ps & var & SH).
  assert (SZ' : forall S, In S (L0 :: L) -> Z.of_nat (length (sl_gates S)) * 2 ^ Z.of_nat k < 2 ^ 31).
  { intros S Hin. pose proof (HS S Hin) as HB. apply In_nth_error in Hin. destruct Hin as (l & Hin). destruct (sh_layer _ _ _ _ _ _ SH l) as (S' & b & Q & _ & B1 & B2 & _ & _); [apply nth_error_Some; rewrite Hin; discriminate|]. rewrite Hin in Q. injection Q as <-.
    assert (EV : Z.of_nat (length (sl_gates S)) = 2 * 2 ^ Z.of_nat (b - 1)).
    { rewrite B2, Nat2Z.inj_pow. change (Z.of_nat 2) with 2. rewrite <- Z.pow_succ_r by lia. f_equal. lia. }
    assert (Z.of_nat (length (sl_gates S)) <= 2 * Z.of_nat (gate_count p lev)) by lia. nia. }
  destruct (rdl_total rnd w p K lv ps var (L0 :: L) L0 k W WR SH eq_refl NI OUT (SZ' L0 ltac:(left; reflexivity)) SRC) as (l0 & l1 & E3 & F1). rewrite E3. cbn [bind].
  destruct (merge_total r0 p K lv ps var l0 l1 k L0 L SH F1 SZ') as (ct & mt & E4 & HD). exists ct, mt. split; [exact E4|]. exists t. split; [exact Ht|]. rewrite HD. cbn [length] in HL. lia.
Qed.
