(** * The zk verifier's equality tables and predicates *)
From Coq Require Import ZArith List Bool Arith Lia Ring.
From Verif Require Import Limbs Field FieldProofs Fp Base MleSpec GkrMath Poly PolyProofs Circuit
  FastProver FastVerifier Lazy TablesProofs FastProverProofs PhaseProofs FastVerifierProofs VpdGroup VpdR VpdMask VpdInput
  Transcript ZkEvalProofs ZkProver ZkVerifier ZkPhaseProofs.
Import ListNotations.
Open Scope nat_scope.

(** ** Half tables *)
Section Level.
Variable mulop : fe -> fe -> fe.
Hypothesis op_ok : forall x y a b, rep x a -> rep y b -> rep (mulop x y) (a * b)%F.
Lemma zlevel_ok : forall N t r o R O off i c, reps r R -> reps o O -> i + off < length R -> i + off < length O -> 2 ^ S i <= N ->
  eqtab N c (prs R O off i) t -> returns (zlevel mulop r o off i t) (eqtab N c (prs R O off (S i))).
Proof.
  intros N t r o R O off i c Hr Ho HR HO HN T. unfold zlevel. rewrite pow2_S in HN.
  unfold eqtab in T. rewrite prs_length in T.
  set (E := fun k => (c * eqg (prs R O off i) k)%F) in *.
  set (a := nth (i + off) R 0%F). set (b := nth (i + off) O 0%F).
  eapply returns_bind.
  - apply (returns_for _ (2 ^ i) 0 _ (fun j t => tab N t (2 ^ i + j) (midlevel E a b i 0))).
    + apply midlevel_0, T.
    + intros j t' Hj T'. simpl in Hj. assert (HL : length t' = N) by apply T'.
      eapply rb_tab; [exact T'|lia|]. intros x Rx.
      eapply rb_reps; [exact Hr|exact HR|]. intros y Ry.
      rewrite lor_pow2 by lia. rewrite (Nat.add_comm j), Nat.add_succ_r.
      apply returns_wr; [lia|]. apply tab_push; [exact T'|lia|].
      unfold midlevel in *. destruct (Nat.ltb_spec j (2 ^ i)); [|lia].
      destruct (Nat.ltb_spec (2 ^ i + j) (2 ^ i)); [lia|].
      destruct (Nat.ltb_spec j 0); [lia|].
      replace (2 ^ i + j - 2 ^ i) with j by lia. apply op_ok; [exact Rx|exact Ry].
  - cbv beta. simpl (0 + _). intros t1 T1. eapply returns_conseq.
    + apply (returns_for _ (2 ^ i) 0 _ (fun j t => tab N t (2 ^ i + 2 ^ i) (midlevel E a b i j))); [exact T1|].
      intros j t' Hj T'. simpl in Hj. assert (HL : length t' = N) by apply T'.
      eapply rb_tab; [exact T'|lia|]. intros x Rx.
      eapply rb_reps; [exact Ho|exact HO|]. intros y Ry.
      apply returns_wr; [lia|].
      eapply tab_ext; [apply (tab_upd _ _ _ _ j _ (E j * b)%F T'); [lia|]|].
      * apply op_ok; [|exact Ry]. unfold midlevel in Rx. destruct (Nat.ltb_spec j (2 ^ i)); [|lia].
        destruct (Nat.ltb_spec j j); [lia|exact Rx].
      * intros z Hz. cbv beta. unfold midlevel. destruct (Nat.eqb_spec z j) as [->|Nz].
        { destruct (Nat.ltb_spec j (2 ^ i)); [|lia]. destruct (Nat.ltb_spec j (S j)); [reflexivity|lia]. }
        { destruct (Nat.ltb_spec z (2 ^ i)); [|reflexivity].
          destruct (Nat.ltb_spec z j); destruct (Nat.ltb_spec z (S j)); try lia; reflexivity. }
    + cbv beta. simpl (0 + _). intros t2 T2. unfold eqtab. rewrite prs_length, prs_S.
      pose proof (midlevel_end N t2 c (prs R O off i) a b) as M. rewrite prs_length in M. apply M, T2.
Qed.
Lemma zhalf_ok : forall N t r o R O off n c, reps r R -> reps o O -> n + off <= length R -> n + off <= length O -> 2 ^ n <= N ->
  eqtab N c [] t -> returns (zhalf mulop r o off n t) (eqtab N c (prs R O off n)).
Proof.
  intros N t r o R O off n c Hr Ho HR HO HN T. unfold zhalf.
  apply (returns_for _ n 0 _ (fun i t => eqtab N c (prs R O off i) t)); [exact T|].
  intros i t' Hi T'. simpl in Hi. apply zlevel_ok; try assumption; try lia.
  etransitivity; [apply Nat.pow_le_mono_r; [lia|]|exact HN]. lia.
Qed.
End Level.
Lemma rawmul_ok : forall x y a b, rep x a -> rep y b -> rep (rawmul x y) (a * b)%F.
Proof. intros. unfold rawmul. lzr. Qed.

(** The sizes of the arrays. *)
Record zsizes (NF NS : nat) (B : zbetas) : Prop := {
  zz_g0f : length (zb_g0f B) = NF; zz_g0s : length (zb_g0s B) = NS; zz_g1f : length (zb_g1f B) = NF; zz_g1s : length (zb_g1s B) = NS;
  zz_uf : length (zb_uf B) = NF; zz_us : length (zb_us B) = NS; zz_vf : length (zb_vf B) = NF; zz_vs : length (zb_vs B) = NS }.
(** Their contents: [R] the points, [O] the complements (the code takes both from
    the caller). *)
Record ztabs (NF NS lg lu : nat) (B : zbetas) (a be : F) (R0 O0 R1 O1 Ru Ou Rv Ov : list F) : Prop := {
  zt_g0f : eqtab NF a (prs R0 O0 0 (lg / 2)) (zb_g0f B);
  zt_g0s : eqtab NS 1%F (prs R0 O0 (lg / 2) (lg - lg / 2)) (zb_g0s B);
  zt_g1f : eqtab NF be (prs R1 O1 0 (lg / 2)) (zb_g1f B);
  zt_g1s : eqtab NS 1%F (prs R1 O1 (lg / 2) (lg - lg / 2)) (zb_g1s B);
  zt_uf : eqtab NF 1%F (prs Ru Ou 0 (lu / 2)) (zb_uf B);
  zt_us : eqtab NS 1%F (prs Ru Ou (lu / 2) (lu - lu / 2)) (zb_us B);
  zt_vf : eqtab NF 1%F (prs Rv Ov 0 (lu / 2)) (zb_vf B);
  zt_vs : eqtab NS 1%F (prs Rv Ov (lu / 2) (lu - lu / 2)) (zb_vs B) }.

Lemma div2_le : forall n, n / 2 <= n.
Proof. intro n. apply Nat.div_le_upper_bound; lia. Qed.
Lemma zbeta_fill_ok : forall NF NS lg lu alpha beta r0 r1 ru rv o0 o1 ou ov B a be R0 R1 Ru Rv O0 O1 Ou Ov,
  reps r0 R0 -> reps r1 R1 -> reps ru Ru -> reps rv Rv -> reps o0 O0 -> reps o1 O1 -> reps ou Ou -> reps ov Ov ->
  lg <= length R0 -> lg <= length R1 -> lg <= length O0 -> lg <= length O1 ->
  lu <= length Ru -> lu <= length Rv -> lu <= length Ou -> lu <= length Ov ->
  zsizes NF NS B -> 2 ^ (lg / 2) <= NF -> 2 ^ (lg - lg / 2) <= NS -> 2 ^ (lu / 2) <= NF -> 2 ^ (lu - lu / 2) <= NS ->
  rep alpha a -> rep beta be ->
  returns (zbeta_fill lg lu alpha beta r0 r1 ru rv o0 o1 ou ov B) (fun B' =>
    zsizes NF NS B' /\ ztabs NF NS lg lu B' a be R0 O0 R1 O1 Ru Ou Rv Ov).
Proof.
  intros NF NS lg lu alpha beta r0 r1 ru rv o0 o1 ou ov B a be R0 R1 Ru Rv O0 O1 Ou Ov
    H0 H1 Hu Hv K0 K1 Ku Kv L0 L1 L2 L3 L4 L5 L6 L7 [Z1 Z2 Z3 Z4 Z5 Z6 Z7 Z8] N1 N2 N3 N4 Ra Rb.
  unfold zbeta_fill. pose proof (pow2_pos (lg / 2)). pose proof (pow2_pos (lg - lg / 2)).
  pose proof (div2_le lg). pose proof (div2_le lu).
  Ltac zh op ok N r o R O t := 
    apply rb_wr; [lia|]; eapply returns_bind; [eapply (zhalf_ok op ok N _ r o R O); [eassumption|eassumption|lia|lia|assumption|
      apply eqtab_init; [assumption|lia|first [exact rep_i1 | eassumption]]]|]; intros ? t; cbv beta in t.
  zh rawmul rawmul_ok NF r0 o0 R0 O0 T1. zh rawmul rawmul_ok NF r1 o1 R1 O1 T2.
  zh rawmul rawmul_ok NS r0 o0 R0 O0 T3. zh rawmul rawmul_ok NS r1 o1 R1 O1 T4.
  zh fe_mul rep_mul NF ru ou Ru Ou T5. zh fe_mul rep_mul NF rv ov Rv Ov T6.
  zh fe_mul rep_mul NS ru ou Ru Ou T7. zh fe_mul rep_mul NS rv ov Rv Ov T8.
  apply returns_ok. split.
  - constructor; cbn [zb_g0f zb_g0s zb_g1f zb_g1s zb_uf zb_us zb_vf zb_vs];
      match goal with H : eqtab _ _ _ ?x |- length ?x = _ => apply H end.
  - constructor; cbn [zb_g0f zb_g0s zb_g1f zb_g1s zb_uf zb_us zb_vf zb_vs]; assumption.
Qed.

(** ** Lookups *)
Lemma fe_weight_ok : forall NF NS f s h p1 p2 c1 c2 i, length p1 = h ->
  eqtab NF c1 p1 f -> eqtab NS c2 p2 s -> i < 2 ^ (h + length p2) ->
  returns (fe_weight f s h i) (fun x => rep x (c1 * c2 * eqg (p1 ++ p2) i)%F).
Proof.
  intros NF NS f s h p1 p2 c1 c2 i Hh T1 T2 Hi. unfold fe_weight.
  rewrite land_mask, shr_div. unfold eqtab in *. rewrite Hh in T1. pose proof (pow2_pos h) as Hp.
  eapply rb_tab; [exact T1|apply Nat.mod_upper_bound; lia|]. intros a Ra.
  eapply rb_tab; [exact T2|apply Nat.div_lt_upper_bound; [lia|]; rewrite <- Nat.pow_add_r; exact Hi|].
  intros b Rb. apply returns_ok. rewrite eqg_app, Hh. eapply rep_eq; [apply rep_mul; eassumption|ring].
Qed.
Lemma u_weight_ok2 : forall NF NS f s h p1 p2 c1 c2 i, length p1 = h ->
  eqtab NF c1 p1 f -> eqtab NS c2 p2 s -> i < 2 ^ (h + length p2) ->
  returns (u_weight f s h i) (fun x => rep x (c1 * c2 * eqg (p1 ++ p2) i)%F).
Proof.
  intros NF NS f s h p1 p2 c1 c2 i Hh T1 T2 Hi. unfold u_weight.
  rewrite land_mask, shr_div. unfold eqtab in *. rewrite Hh in T1. pose proof (pow2_pos h) as Hp.
  eapply rb_tab; [exact T1|apply Nat.mod_upper_bound; lia|]. intros a Ra.
  eapply rb_tab; [exact T2|apply Nat.div_lt_upper_bound; [lia|]; rewrite <- Nat.pow_add_r; exact Hi|].
  intros b Rb. apply returns_ok. rewrite eqg_app, Hh. lzr.
Qed.
Lemma half_sum : forall n, n / 2 + (n - n / 2) = n.
Proof. intro n. pose proof (div2_le n). lia. Qed.
Lemma prs_halves : forall R O n, prs R O 0 (n / 2) ++ prs R O (n / 2) (n - n / 2) = prs R O 0 n.
Proof. intros. rewrite <- prs_app, half_sum. reflexivity. Qed.
(** The weight of index [k] at the first [n] coordinates. *)
Definition wt (R O : list F) (n k : nat) : F := eqg (prs R O 0 n) k.
Lemma wt_point : forall R n k, length R = n -> wt R (comp R) n k = eqw R k.
Proof. intros R n k <-. unfold wt. rewrite prs_point. reflexivity. Qed.
Lemma two_weight_ok : forall op NF NS f s n R O c i, (op = fe_weight \/ op = u_weight) ->
  eqtab NF c (prs R O 0 (n / 2)) f -> eqtab NS 1%F (prs R O (n / 2) (n - n / 2)) s -> i < 2 ^ n ->
  returns (op f s (n / 2) i) (fun x => rep x (c * wt R O n i)%F).
Proof.
  intros op NF NS f s n R O c i Ho T1 T2 Hi. unfold wt. rewrite <- prs_halves.
  destruct Ho as [-> | ->]; (eapply returns_conseq; [eapply fe_weight_ok || eapply u_weight_ok2;
     [apply prs_length|exact T1|exact T2|rewrite prs_length, half_sum; exact Hi]|]);
  (intros x Rx; cbv beta in Rx; eapply rep_eq; [exact Rx|ring]).
Qed.
Lemma g_weight_ok2 : forall NF NS f0 s0 f1 s1 n R0 O0 R1 O1 c0 c1 i,
  eqtab NF c0 (prs R0 O0 0 (n / 2)) f0 -> eqtab NS 1%F (prs R0 O0 (n / 2) (n - n / 2)) s0 ->
  eqtab NF c1 (prs R1 O1 0 (n / 2)) f1 -> eqtab NS 1%F (prs R1 O1 (n / 2) (n - n / 2)) s1 -> i < 2 ^ n ->
  returns (g_weight f0 s0 f1 s1 (n / 2) i) (fun x => rep x (c0 * wt R0 O0 n i + c1 * wt R1 O1 n i)%F).
Proof.
  intros NF NS f0 s0 f1 s1 n R0 O0 R1 O1 c0 c1 i T1 T2 T3 T4 Hi. unfold g_weight, wt.
  rewrite land_mask, shr_div. unfold eqtab in *. rewrite prs_length in *. set (h := n / 2) in *.
  pose proof (pow2_pos h) as Hp.
  assert (Hm : i mod 2 ^ h < 2 ^ h) by (apply Nat.mod_upper_bound; lia).
  assert (Hd : i / 2 ^ h < 2 ^ (n - h))
    by (apply Nat.div_lt_upper_bound; [lia|]; rewrite <- Nat.pow_add_r; subst h; rewrite half_sum; exact Hi).
  eapply rb_tab; [exact T1|exact Hm|]. intros a Ra.
  eapply rb_tab; [exact T2|exact Hd|]. intros b Rb.
  eapply rb_tab; [exact T3|exact Hm|]. intros c Rc.
  eapply rb_tab; [exact T4|exact Hd|]. intros d Rd.
  apply returns_ok. rewrite <- (prs_halves R0 O0 n), <- (prs_halves R1 O1 n). fold h. rewrite !eqg_app, !prs_length. lzr.
Qed.

(** ** Predicates of a layer that is not made of blocks *)
Lemma upd_at_ok : forall ret k f g x, tab 14 ret 14 f -> k < 14 ->
  (forall y, rep y (f k) -> rep (g y) (f k + x)%F) ->
  returns (upd_at ret k g) (fun ret' => tab 14 ret' 14 (fun j => f j + ind (k =? j) * x)%F).
Proof.
  intros ret k f g x T Hk Hg. unfold upd_at. eapply rb_tab; [exact T|exact Hk|]. intros y Ry.
  apply returns_wr; [destruct T as [-> _]; exact Hk|].
  eapply tab_ext; [apply (tab_upd _ _ _ _ k _ _ T Hk (Hg y Ry))|].
  intros j Hj. cbv beta. rewrite (Nat.eqb_sym k j). destruct (Nat.eqb_spec j k) as [->|]; cbn [ind]; ring.
Qed.
(** Contribution of one gate with weight [w] to the predicate of type [j]. *)
Definition contrib (g : gate) (w : F) (U U' : nat -> F) (j : nat) : F :=
  (ind (g_ty g =? Z.of_nat j)%Z * (w * lsum (wires g) (fun x => w_c x * U (w_l x) * U' (w_r x))))%F.
Lemma ind_type : forall ty j, (0 <= ty)%Z -> ind (Z.to_nat ty =? j)%nat = ind (ty =? Z.of_nat j)%Z.
Proof.
  intros ty j H. destruct (Nat.eqb_spec (Z.to_nat ty) j); destruct (Z.eqb_spec ty (Z.of_nat j)); try reflexivity; lia.
Qed.

Lemma tab_zeros : forall n, tab n (repeat (fe_of_int 0) n) n (fun _ => 0%F).
Proof.
  intro n. split; [apply repeat_length|]. split; [lia|]. intros i Hi. exists (fe_of_int 0). split; [|exact rep_i0].
  rewrite nth_error_repeat by exact Hi. reflexivity.
Qed.

Section Plain.
Variables (lg b : nat) (L Lm : layer) (B : zbetas).
Variables W U U' : nat -> F.
Let hg := lg / 2.
Let hu := b / 2.
Hypothesis Hgw : forall k, k < 2 ^ lg -> returns (g_weight (zb_g0f B) (zb_g0s B) (zb_g1f B) (zb_g1s B) hg k) (fun x => rep x (W k)).
Hypothesis Hgf : forall k, k < 2 ^ lg -> returns (x <- fe_weight (zb_g0f B) (zb_g0s B) hg k ;; y <- fe_weight (zb_g1f B) (zb_g1s B) hg k ;;
              Ok (fe_add x y)) (fun x => rep x (W k)).
Hypothesis Huw : forall k, k < 2 ^ b -> returns (u_weight (zb_uf B) (zb_us B) hu k) (fun x => rep x (U k)).
Hypothesis Huf : forall k, k < 2 ^ b -> returns (fe_weight (zb_uf B) (zb_us B) hu k) (fun x => rep x (U k)).
Hypothesis Hvw : forall k, k < 2 ^ b -> returns (u_weight (zb_vf B) (zb_vs B) hu k) (fun x => rep x (U' k)).
Hypothesis Hvf : forall k, k < 2 ^ b -> returns (fe_weight (zb_vf B) (zb_vs B) hu k) (fun x => rep x (U' k)).

Lemma pred_gate_ok : forall k g tu ret f, k < 2 ^ lg -> zproto_gate (2 ^ b) g ->
  tab (2 ^ b) tu (2 ^ b) (fun x => U x * U' 0%nat)%F -> tab 14 ret 14 f ->
  returns (pred_gate B hg hu tu k g ret) (fun ret' => tab 14 ret' 14 (fun j => f j + contrib g (W k) U U' j)%F).
Proof.
  intros k g tu ret f Hk HP TU T. pose proof (zproto_type _ _ HP) as Ty. pose proof (pow2_pos b) as Hpb.
  unfold pred_gate. cbv zeta.
  assert (Single : single_type (g_ty g) = true -> (0 <= g_ty g < 14)%Z -> (0 <= g_u g < Z.of_nat (2 ^ b) /\ 0 <= g_v g < Z.of_nat (2 ^ b))%Z ->
    wires g = [(1%F, Z.to_nat (g_u g), Z.to_nat (g_v g))] ->
    returns (it <- idx (g_ty g) ;; g0 <- g_weight (zb_g0f B) (zb_g0s B) (zb_g1f B) (zb_g1s B) hg k ;;
      iu <- idx (g_u g) ;; bu <- u_weight (zb_uf B) (zb_us B) hu iu ;;
      iv <- idx (g_v g) ;; bv <- u_weight (zb_vf B) (zb_vs B) hu iv ;;
      upd_at ret it (fun x => u512_mod (u512_add x (u512_mul (u512_mod (u512_mul g0 bu)) bv))))
      (fun ret' => tab 14 ret' 14 (fun j => f j + contrib g (W k) U U' j)%F)).
  { intros _ Ht [Hu Hv] Ew. apply rb_idx; [lia|].
    eapply returns_bind; [apply Hgw, Hk|]. intros x Rx. cbv beta in Rx.
    apply rb_idx; [lia|]. eapply returns_bind; [apply Huw; lia|]. intros y Ry. cbv beta in Ry.
    apply rb_idx; [lia|]. eapply returns_bind; [apply Hvw; lia|]. intros z Rz. cbv beta in Rz.
    eapply returns_conseq; [apply (upd_at_ok ret (Z.to_nat (g_ty g)) f _ (W k * U (Z.to_nat (g_u g)) * U' (Z.to_nat (g_v g)))%F T); [lia|]|].
    - intros w Rw. lzr.
    - intros ret' T'. eapply tab_ext; [exact T'|]. intros j Hj. cbv beta. unfold contrib. rewrite ind_type by lia.
      rewrite Ew, lsum_cons, lsum_nil. unfold w_c, w_l, w_r. cbn [fst snd]. ring. }
  unfold zproto_gate in HP.
  assert (Ew : forall t, g_ty g = t -> In t [0;1;6;7;8;9;13;10]%Z -> wires g = [(1%F, Z.to_nat (g_u g), Z.to_nat (g_v g))]).
  { intros t E Ht. unfold wires. rewrite E. cbn [In] in Ht.
    decompose [or] Ht; try contradiction; match goal with H : _ = t |- _ => rewrite <- H end; reflexivity. }
  assert (Hnone : wires g = [] -> returns (Ok ret) (fun ret' => tab 14 ret' 14 (fun j => f j + contrib g (W k) U U' j)%F)).
  { intro E. apply returns_ok. eapply tab_ext; [exact T|]. intros j _. unfold contrib. rewrite E, lsum_nil. ring. }
  zgate_cases Ty; rewrite Ty in *; cbn [single_type existsb Z.eqb Pos.eqb orb];
    try (apply Single; [reflexivity|lia|lia|eapply Ew; [reflexivity|cbn [In]; tauto]]).
  - apply Hnone. unfold wires. rewrite Ty. reflexivity.
  - (* 5 *)
    eapply returns_bind; [apply Hgf, Hk|]. intros x Rx. cbv beta in Rx.
    eapply returns_bind; [apply (Hvf 0 Hpb)|]. intros y Ry. cbv beta in Ry.
    set (u := Z.to_nat (g_u g)).
    eapply returns_conseq.
    + apply (returns_forz _ _ _ _ (fun j r => tab 14 r 14 (fun t => f t + ind (5 =? t) *
         (W k * sumn (Z.to_nat j - u) (fun q => U (u + q)%nat * U' 0%nat)))%F)); [lia| |].
      * eapply tab_ext; [exact T|]. intros t _. subst u. rewrite Nat.sub_diag. cbn [sumn]. ring.
      * intros j r Hj Tr. apply rb_idx; [lia|]. eapply returns_bind; [apply Huf; lia|]. intros z Rz. cbv beta in Rz.
        eapply returns_conseq; [apply (upd_at_ok _ _ _ _ (W k * U' 0%nat * U (Z.to_nat j))%F Tr); [lia|]|].
        -- intros w Rw. apply rep_add; [exact Rw|]. apply rep_mul; [apply rep_mul; assumption|exact Rz].
        -- intros ret' T'. eapply tab_ext; [exact T'|]. intros t Ht. cbv beta.
           replace (Z.to_nat (j + 1) - u) with (S (Z.to_nat j - u)) by lia. cbn [sumn].
           replace (u + (Z.to_nat j - u)) with (Z.to_nat j) by lia. ring.
    + intros r Tr. cbv beta in Tr. eapply tab_ext; [exact Tr|]. intros t _. cbv beta. unfold contrib.
      rewrite Ty. rewrite <- (ind_type 5 t) by lia. change (Z.to_nat 5) with 5. do 3 f_equal.
      unfold wires. rewrite Ty, lsum_map, lsum_seq. fold u. apply sumn_ext. intros q _. unfold w_c, w_l, w_r. cbn [fst snd]. ring.
  - (* 10 *)
    eapply returns_bind; [apply Hgw, Hk|]. intros x Rx. cbv beta in Rx.
    apply rb_idx; [lia|]. eapply rb_tab; [exact TU|lia|]. intros y Ry.
    eapply returns_conseq; [apply (upd_at_ok ret 10 f _ (W k * (U (Z.to_nat (g_u g)) * U' 0%nat))%F T); [lia|]|].
    + intros w Rw. lzr.
    + intros ret' T'. eapply tab_ext; [exact T'|]. intros j Hj. cbv beta. unfold contrib. rewrite Ty.
      rewrite <- (ind_type 10 j) by lia. change (Z.to_nat 10) with 10.
      rewrite (Ew 10%Z eq_refl) by (cbn [In]; tauto). rewrite lsum_cons, lsum_nil. unfold w_c, w_l, w_r. cbn [fst snd].
      destruct HP as [_ ->]. change (Z.to_nat 0) with 0. ring.
  - (* 12 *)
    eapply returns_bind; [apply Hgf, Hk|]. intros x Rx. cbv beta in Rx.
    eapply returns_bind; [apply (Hvf 0 Hpb)|]. intros y Ry. cbv beta in Ry.
    set (u := Z.to_nat (g_u g)).
    assert (Hnil : (g_v g + 1 <= g_u g)%Z -> wires g = []).
    { intro H. unfold wires. rewrite Ty. replace (Z.to_nat (g_v g) + 1 - Z.to_nat (g_u g)) with 0 by lia. reflexivity. }
    destruct (Z.le_gt_cases (g_v g + 1) (g_u g)) as [Hle|Hgt].
    + unfold forz. replace (Z.to_nat (g_v g + 1 - g_u g)) with 0 by lia. cbn [for_ bind]. apply Hnone, Hnil, Hle.
    + eapply returns_bind.
      * apply (returns_forz _ _ _ _ (fun j r => tab 14 (fst r) 14 (fun t => f t + ind (12 =? t) *
           (W k * sumn (Z.to_nat j - u) (fun q => Fpow two q * U (u + q)%nat * U' 0%nat)))%F /\
           rep (snd r) (Fpow two (Z.to_nat j - u) * U' 0%nat)%F)); [lia| |].
        -- cbn [fst snd]. split.
           ++ eapply tab_ext; [exact T|]. intros t _. subst u. rewrite Nat.sub_diag. cbn [sumn]. ring.
           ++ subst u. rewrite Nat.sub_diag. cbn [Fpow]. eapply rep_eq; [exact Ry|ring].
        -- intros j [r y'] Hj [Tr Ry']. cbn [fst snd] in Tr, Ry'.
           apply rb_idx; [lia|]. eapply returns_bind; [apply Huf; lia|]. intros z Rz. cbv beta in Rz.
           eapply returns_bind; [apply (upd_at_ok _ 12 _ _ (W k * (Fpow two (Z.to_nat j - u) * U' 0%nat) * U (Z.to_nat j))%F Tr); [lia|]|].
           { intros w Rw. apply rep_add; [exact Rw|]. apply rep_mul; [apply rep_mul; assumption|exact Rz]. }
           intros r' Tr'. cbv beta in Tr'. apply returns_ok. cbn [fst snd].
           replace (Z.to_nat (j + 1) - u) with (S (Z.to_nat j - u)) by lia. split.
           ++ eapply tab_ext; [exact Tr'|]. intros t Ht. cbv beta. cbn [sumn].
              replace (u + (Z.to_nat j - u)) with (Z.to_nat j) by lia. ring.
           ++ cbn [Fpow]. eapply rep_eq; [apply cred_sub_rep, rep_add; exact Ry'|unfold two; ring].
      * intros [r y'] [Tr _]. cbn [fst] in Tr. apply returns_ok. eapply tab_ext; [exact Tr|]. intros t _. cbv beta. unfold contrib.
        rewrite Ty. rewrite <- (ind_type 12 t) by lia. change (Z.to_nat 12) with 12. do 3 f_equal.
        unfold wires. rewrite Ty, lsum_map, lsum_seq. fold u.
        replace (Z.to_nat (g_v g + 1) - u) with (Z.to_nat (g_v g) + 1 - u) by lia.
        apply sumn_ext. intros q _. unfold w_c, w_l, w_r. cbn [fst snd Nat.add]. ring.
Qed.

Lemma preds_plain_ok : bit_length L = lg -> bit_length Lm = b ->
  (forall k, k < 2 ^ lg -> exists g, nth_error (gates L) k = Some g) ->
  (forall k, k < 2 ^ lg -> zproto_gate (2 ^ b) (gate_at L k)) ->
  returns (preds_plain L Lm B) (fun ret => tab 14 ret 14 (fun j => pred (2 ^ lg) (gate_at L) W (Z.of_nat j) U U')).
Proof.
  intros El Eb HG HP. unfold preds_plain. rewrite El, Eb. cbv zeta. fold hg hu. pose proof (pow2_pos b) as Hpb.
  eapply returns_bind; [apply (Hvw 0 Hpb)|]. intros zv Rzv. cbv beta in Rzv.
  eapply returns_bind.
  - apply (returns_for _ (2 ^ b) 0 _ (fun i t => tab (2 ^ b) t i (fun x => U x * U' 0%nat)%F)).
    + pose proof (tab_nil (repeat fe_zero (2 ^ b)) (fun x => U x * U' 0%nat)%F) as T. rewrite repeat_length in T. exact T.
    + intros i t Hi T. simpl in Hi. eapply returns_bind; [apply Huw; lia|]. intros x Rx. cbv beta in Rx.
      eapply tab_wr; [exact T|lia|]. apply tab_push; [exact T|lia|]. lzr.
  - cbv beta. simpl (0 + _). intros tu TU. eapply returns_conseq.
    + apply (returns_for _ (2 ^ lg) 0 _ (fun i r => tab 14 r 14 (fun j => pred i (gate_at L) W (Z.of_nat j) U U'))).
      * apply tab_zeros.
      * intros i r Hi T. simpl in Hi. destruct (HG i ltac:(lia)) as [g Eg].
        eapply rb_nth; [exact Eg|]. assert (Ega : gate_at L i = g) by (unfold gate_at; apply nth_error_nth, Eg).
        eapply returns_conseq; [eapply pred_gate_ok; [lia|rewrite <- Ega; apply HP; lia|exact TU|exact T]|].
        intros r' T'. eapply tab_ext; [exact T'|]. intros j _. cbv beta. unfold pred. cbn [sumn]. rewrite Ega. reflexivity.
    + cbv beta. simpl (0 + _). intros r T. exact T.
Qed.
End Plain.

(** ** Predicates of a layer made of blocks *)
(** The gates the block computation handles: relays and NOT gates read no right
    input, a sum ends before the last position of the block. *)
Definition zblock_gate (n : nat) (g : gate) : Prop :=
  zproto_gate n g /\ (g_ty g = 5%Z -> (g_v g < Z.of_nat n)%Z) /\ (g_ty g = 6%Z -> g_v g = 0%Z).
Section Block.
Variables (lb b : nat) (B : zbetas).
Variables Wa Wb U U' : nat -> F.
Let hg := lb / 2.
Let hu := b / 2.
Hypothesis Haw : forall op k, op = fe_weight \/ op = u_weight -> k < 2 ^ lb -> returns (op (zb_g0f B) (zb_g0s B) hg k) (fun x => rep x (Wa k)).
Hypothesis Hbw : forall op k, op = fe_weight \/ op = u_weight -> k < 2 ^ lb -> returns (op (zb_g1f B) (zb_g1s B) hg k) (fun x => rep x (Wb k)).
Hypothesis Huw : forall op k, op = fe_weight \/ op = u_weight -> k < 2 ^ b -> returns (op (zb_uf B) (zb_us B) hu k) (fun x => rep x (U k)).
Hypothesis Hvw : forall op k, op = fe_weight \/ op = u_weight -> k < 2 ^ b -> returns (op (zb_vf B) (zb_vs B) hu k) (fun x => rep x (U' k)).

Lemma zland_small : forall z, (0 <= z < Z.of_nat (2 ^ b))%Z -> Z.land z (2 ^ Z.of_nat b - 1) = z.
Proof.
  intros z H. rewrite Nat2Z.inj_pow in H. change (Z.of_nat 2) with 2%Z in H.
  replace (2 ^ Z.of_nat b - 1)%Z with (Z.ones (Z.of_nat b)) by (rewrite Z.ones_equiv; lia).
  rewrite Z.land_ones by lia. apply Z.mod_small, H.
Qed.
Lemma block_gate_ok : forall k g al be fa fb, k < 2 ^ lb -> zblock_gate (2 ^ b) g -> tab 14 al 14 fa -> tab 14 be 14 fb ->
  returns (block_gate B lb b k g (al, be)) (fun p =>
    tab 14 (fst p) 14 (fun j => fa j + contrib g (Wa k) U U' j)%F /\ tab 14 (snd p) 14 (fun j => fb j + contrib g (Wb k) U U' j)%F).
Proof.
  intros k g al be fa fb Hk (HP & H5 & H6) Ta Tb. pose proof (zproto_type _ _ HP) as Ty. pose proof (pow2_pos b) as Hpb.
  unfold block_gate. cbv zeta. fold hg hu.
  rewrite land_mask, (Nat.mod_small k) by exact Hk.
  assert (Single : (0 <= g_ty g < 14)%Z -> (0 <= g_u g < Z.of_nat (2 ^ b) /\ 0 <= g_v g < Z.of_nat (2 ^ b))%Z ->
    wires g = [(1%F, Z.to_nat (g_u g), Z.to_nat (g_v g))] ->
    returns (it <- idx (g_ty g) ;;
      iu <- idx (Z.land (g_u g) (2 ^ Z.of_nat b - 1)) ;; bu <- u_weight (zb_uf B) (zb_us B) hu iu ;;
      iv <- idx (Z.land (g_v g) (2 ^ Z.of_nat b - 1)) ;; bv <- u_weight (zb_vf B) (zb_vs B) hu iv ;;
      ga <- u_weight (zb_g0f B) (zb_g0s B) hg k ;;
      gb <- u_weight (zb_g1f B) (zb_g1s B) hg k ;;
      al <- upd_at al it (fun x => u512_mod (u512_add x (u512_mul ga (u512_mod (u512_mul bu bv))))) ;;
      be <- upd_at be it (fun x => u512_mod (u512_add x (u512_mul gb (u512_mod (u512_mul bu bv))))) ;;
      Ok (al, be)) (fun p =>
    tab 14 (fst p) 14 (fun j => fa j + contrib g (Wa k) U U' j)%F /\ tab 14 (snd p) 14 (fun j => fb j + contrib g (Wb k) U U' j)%F)).
  { intros Ht [Hu Hv] Ew. apply rb_idx; [lia|]. rewrite !zland_small by assumption.
    apply rb_idx; [lia|]. eapply returns_bind; [apply Huw; [right; reflexivity|lia]|]. intros y Ry. cbv beta in Ry.
    apply rb_idx; [lia|]. eapply returns_bind; [apply Hvw; [right; reflexivity|lia]|]. intros z Rz. cbv beta in Rz.
    eapply returns_bind; [apply Haw; [right; reflexivity|exact Hk]|]. intros wa Rwa. cbv beta in Rwa.
    eapply returns_bind; [apply Hbw; [right; reflexivity|exact Hk]|]. intros wb Rwb. cbv beta in Rwb.
    eapply returns_bind; [apply (upd_at_ok al (Z.to_nat (g_ty g)) fa _ (Wa k * (U (Z.to_nat (g_u g)) * U' (Z.to_nat (g_v g))))%F Ta); [lia|]|].
    { intros w Rw. lzr. }
    intros al' Ta'. cbv beta in Ta'.
    eapply returns_bind; [apply (upd_at_ok be (Z.to_nat (g_ty g)) fb _ (Wb k * (U (Z.to_nat (g_u g)) * U' (Z.to_nat (g_v g))))%F Tb); [lia|]|].
    { intros w Rw. lzr. }
    intros be' Tb'. cbv beta in Tb'. apply returns_ok. cbn [fst snd].
    split; (eapply tab_ext; [eassumption|]); intros j Hj; cbv beta; unfold contrib; rewrite ind_type by lia;
      rewrite Ew, lsum_cons, lsum_nil; unfold w_c, w_l, w_r; cbn [fst snd]; ring. }
  assert (Ew : forall t, g_ty g = t -> In t [0;1;6;7;8;9;13;10]%Z -> wires g = [(1%F, Z.to_nat (g_u g), Z.to_nat (g_v g))]).
  { intros t E Ht. unfold wires. rewrite E. cbn [In] in Ht.
    decompose [or] Ht; try contradiction; match goal with H : _ = t |- _ => rewrite <- H end; reflexivity. }
  assert (Hnone : forall al' be', tab 14 al' 14 fa -> tab 14 be' 14 fb -> wires g = [] -> returns (Ok (al', be')) (fun p =>
    tab 14 (fst p) 14 (fun j => fa j + contrib g (Wa k) U U' j)%F /\ tab 14 (snd p) 14 (fun j => fb j + contrib g (Wb k) U U' j)%F)).
  { intros al' be' T1 T2 E. apply returns_ok. cbn [fst snd]. split; (eapply tab_ext; [eassumption|]); intros j _; unfold contrib; rewrite E, lsum_nil; ring. }
  assert (Hnorm : forall t al' be' ga gb, t < 14 -> tab 14 al' 14 ga -> tab 14 be' 14 gb ->
    returns (al <- upd_at al' t u512_mod ;; be <- upd_at be' t u512_mod ;; Ok (al, be)) (fun p => tab 14 (fst p) 14 ga /\ tab 14 (snd p) 14 gb)).
  { intros t al' be' ga gb Ht T1 T2.
    eapply returns_bind; [apply (upd_at_ok al' t ga _ 0%F T1 Ht)|].
    { intros y Ry. eapply rep_eq; [lz|ring]. }
    intros al2 T3. cbv beta in T3.
    eapply returns_bind; [apply (upd_at_ok be' t gb _ 0%F T2 Ht)|].
    { intros y Ry. eapply rep_eq; [lz|ring]. }
    intros be2 T4. cbv beta in T4. apply returns_ok. cbn [fst snd].
    split; (eapply tab_ext; [eassumption|]); intros j _; cbv beta; ring. }
  unfold zproto_gate in HP.
  zgate_cases Ty; rewrite Ty in *; cbn [single_type existsb Z.eqb Pos.eqb orb];
    try (apply Single; [lia|lia|eapply Ew; [reflexivity|cbn [In]; tauto]]).
  - apply Hnone; [exact Ta|exact Tb|]. unfold wires. rewrite Ty. reflexivity.
  - (* 5 *)
    specialize (H5 eq_refl). rewrite !zland_small by lia.
    eapply returns_bind; [apply Haw; [left; reflexivity|exact Hk]|]. intros wa Rwa. cbv beta in Rwa.
    eapply returns_bind; [apply Hbw; [left; reflexivity|exact Hk]|]. intros wb Rwb. cbv beta in Rwb.
    eapply returns_bind; [apply (Hvw fe_weight 0 (or_introl eq_refl) Hpb)|]. intros y Ry. cbv beta in Ry.
    set (u := Z.to_nat (g_u g)). set (S5 := fun c n (t : nat) => (ind (5 =? t) * (c * sumn n (fun q => U (u + q)%nat * U' 0%nat)))%F).
    eapply returns_bind.
    + apply (returns_forz _ _ _ _ (fun j (r : list fe * list fe) => tab 14 (fst r) 14 (fun t => fa t + S5 (Wa k) (Z.to_nat j - u)%nat t)%F /\
          tab 14 (snd r) 14 (fun t => fb t + S5 (Wb k) (Z.to_nat j - u)%nat t)%F)); [lia| |].
      * cbn [fst snd]. unfold S5. subst u. rewrite Nat.sub_diag. cbn [sumn].
        split; (eapply tab_ext; [eassumption|]); intros t _; ring.
      * intros j [a1 b1] Hj [T1 T2]. cbn [fst snd] in T1, T2.
        apply rb_idx; [lia|]. eapply returns_bind; [apply Huw; [left; reflexivity|lia]|]. intros z Rz. cbv beta in Rz.
        eapply returns_bind; [apply (upd_at_ok _ 5 _ _ (Wa k * U' 0%nat * U (Z.to_nat j))%F T1); [lia|]|].
        { intros w Rw. apply rep_add; [exact Rw|]. apply rep_mul; [apply rep_mul; assumption|exact Rz]. }
        intros a2 T3. cbv beta in T3.
        eapply returns_bind; [apply (upd_at_ok _ 5 _ _ (Wb k * U' 0%nat * U (Z.to_nat j))%F T2); [lia|]|].
        { intros w Rw. apply rep_add; [exact Rw|]. apply rep_mul; [apply rep_mul; assumption|exact Rz]. }
        intros b2 T4. cbv beta in T4. apply returns_ok. cbn [fst snd]. unfold S5 in *.
        replace (Z.to_nat (j + 1) - u) with (S (Z.to_nat j - u)) by lia. cbn [sumn].
        replace (u + (Z.to_nat j - u)) with (Z.to_nat j) by lia.
        split; (eapply tab_ext; [eassumption|]); intros t _; cbv beta; ring.
    + intros [a1 b1] [T1 T2]. cbn [fst snd] in T1, T2. eapply returns_conseq; [apply Hnorm; [lia|exact T1|exact T2]|].
      assert (E5 : forall c t, S5 c (Z.to_nat (g_v g) - u) t = contrib g c U U' t).
      { intros c t. unfold S5, contrib. rewrite Ty. rewrite <- (ind_type 5 t) by lia. change (Z.to_nat 5) with 5. do 2 f_equal.
        unfold wires. rewrite Ty, lsum_map, lsum_seq. fold u. apply sumn_ext. intros q _. unfold w_c, w_l, w_r. cbn [fst snd]. ring. }
      intros p [T3 T4]. split; (eapply tab_ext; [eassumption|]); intros t _; cbv beta; rewrite E5; reflexivity.
  - (* 12 *)
    rewrite !zland_small by lia.
    eapply returns_bind; [apply Haw; [left; reflexivity|exact Hk]|]. intros wa Rwa. cbv beta in Rwa.
    eapply returns_bind; [apply Hbw; [left; reflexivity|exact Hk]|]. intros wb Rwb. cbv beta in Rwb.
    eapply returns_bind; [apply (Hvw fe_weight 0 (or_introl eq_refl) Hpb)|]. intros y Ry. cbv beta in Ry.
    set (u := Z.to_nat (g_u g)).
    set (S5 := fun c n (t : nat) => (ind (12 =? t) * (c * sumn n (fun q => Fpow two q * U (u + q)%nat * U' 0%nat)))%F).
    assert (Hnil : (g_v g + 1 <= g_u g)%Z -> wires g = []).
    { intro H. unfold wires. rewrite Ty. replace (Z.to_nat (g_v g) + 1 - Z.to_nat (g_u g)) with 0 by lia. reflexivity. }
    destruct (Z.le_gt_cases (g_v g + 1) (g_u g)) as [Hle|Hgt].
    + unfold forz. replace (Z.to_nat (g_v g + 1 - g_u g)) with 0 by lia. cbn [for_ bind].
      eapply returns_conseq; [apply Hnorm; [lia|exact Ta|exact Tb]|].
      intros [a1 b1] [T1 T2]. cbn [fst snd] in T1, T2. destruct (Hnone a1 b1 T1 T2 (Hnil Hle)) as (p & Ep & Hp). injection Ep as <-. exact Hp.
    + eapply returns_bind.
      * apply (returns_forz _ _ _ _ (fun j (r : list fe * list fe * fe) => tab 14 (fst (fst r)) 14 (fun t => fa t + S5 (Wa k) (Z.to_nat j - u)%nat t)%F /\
          tab 14 (snd (fst r)) 14 (fun t => fb t + S5 (Wb k) (Z.to_nat j - u)%nat t)%F /\
          rep (snd r) (Fpow two (Z.to_nat j - u) * U' 0%nat)%F)); [lia| |].
        -- cbn [fst snd]. unfold S5. subst u. rewrite Nat.sub_diag. cbn [sumn Fpow].
           split; [|split]; [| |eapply rep_eq; [exact Ry|ring]]; (eapply tab_ext; [eassumption|]); intros t _; ring.
        -- intros j [[a1 b1] y'] Hj (T1 & T2 & Ry'). cbn [fst snd] in T1, T2, Ry'.
           apply rb_idx; [lia|]. eapply returns_bind; [apply Huw; [left; reflexivity|lia]|]. intros z Rz. cbv beta in Rz.
           eapply returns_bind; [apply (upd_at_ok _ 12 _ _ (Wa k * (Fpow two (Z.to_nat j - u) * U' 0%nat) * U (Z.to_nat j))%F T1); [lia|]|].
           { intros w Rw. apply rep_add; [exact Rw|]. apply rep_mul; [apply rep_mul; assumption|exact Rz]. }
           intros a2 T3. cbv beta in T3.
           eapply returns_bind; [apply (upd_at_ok _ 12 _ _ (Wb k * (Fpow two (Z.to_nat j - u) * U' 0%nat) * U (Z.to_nat j))%F T2); [lia|]|].
           { intros w Rw. apply rep_add; [exact Rw|]. apply rep_mul; [apply rep_mul; assumption|exact Rz]. }
           intros b2 T4. cbv beta in T4. apply returns_ok. cbn [fst snd]. unfold S5 in *.
           replace (Z.to_nat (j + 1) - u) with (S (Z.to_nat j - u)) by lia. cbn [sumn Fpow].
           replace (u + (Z.to_nat j - u)) with (Z.to_nat j) by lia.
           split; [|split]; [| |eapply rep_eq; [apply cred_sub_rep, rep_add; exact Ry'|unfold two; ring]];
             (eapply tab_ext; [eassumption|]); intros t _; cbv beta; ring.
      * intros [[a1 b1] y'] (T1 & T2 & _). cbn [fst snd] in T1, T2. eapply returns_conseq; [apply Hnorm; [lia|exact T1|exact T2]|].
        assert (E5 : forall c t, S5 c (Z.to_nat (g_v g + 1) - u) t = contrib g c U U' t).
        { intros c t. unfold S5, contrib. rewrite Ty. rewrite <- (ind_type 12 t) by lia. change (Z.to_nat 12) with 12. do 2 f_equal.
          unfold wires. rewrite Ty, lsum_map, lsum_seq. fold u.
          replace (Z.to_nat (g_v g + 1) - u) with (Z.to_nat (g_v g) + 1 - u) by lia.
          apply sumn_ext. intros q _. unfold w_c, w_l, w_r. cbn [fst snd Nat.add]. ring. }
        intros p [T3 T4]. split; (eapply tab_ext; [eassumption|]); intros t _; cbv beta; rewrite E5; reflexivity.
Qed.
End Block.

(** Gate [h] is gate [g] of the first block moved to block [k]. *)
Definition shifted (b k : nat) (g h : gate) : Prop :=
  g_ty h = g_ty g /\ (g_ty g <> 2%Z ->
    g_u h = (g_u g + Z.of_nat (k * 2 ^ b))%Z /\
    g_v h = (if (g_ty g =? 6)%Z || (g_ty g =? 10)%Z then 0 else g_v g + Z.of_nat (k * 2 ^ b))%Z).
Record block_layer (lb b lr : nat) (L : layer) : Prop := {
  bl_gate : forall j, j < 2 ^ lb -> zblock_gate (2 ^ b) (gate_at L j);
  bl_shift : forall k j, k < 2 ^ lr -> j < 2 ^ lb -> shifted b k (gate_at L j) (gate_at L (k * 2 ^ lb + j)) }.

Lemma sumn_mul_blocks : forall m n f, sumn (m * n) f = sumn m (fun k => sumn n (fun i => f (k * n + i)%nat)).
Proof.
  induction m; intros n f; [reflexivity|]. replace (S m * n) with (m * n + n) by lia.
  rewrite sumn_app, IHm. reflexivity.
Qed.
Lemma wires_dummy : forall g, g_ty g = 2%Z -> wires g = [].
Proof. intros g E. unfold wires. rewrite E. reflexivity. Qed.
Lemma contrib_shift : forall b k g h w U U' Ul Uh Ul' Uh' j, shifted b k g h -> zblock_gate (2 ^ b) g ->
  (forall k x, x < 2 ^ b -> U (k * 2 ^ b + x)%nat = Ul x * Uh k)%F ->
  (forall k x, x < 2 ^ b -> U' (k * 2 ^ b + x)%nat = Ul' x * Uh' k)%F ->
  contrib h w U U' j = (Uh k * Uh' (if v0_type j then 0 else k)%nat * contrib g w Ul Ul' j)%F.
Proof.
  intros b k g h w U U' Ul Uh Ul' Uh' j [Et Es] (HP & H5 & H6) HU HU'.
  assert (HU0 : forall x, x < 2 ^ b -> U' x = (Ul' x * Uh' 0%nat)%F) by (intros x Hx; apply (HU' 0%nat x Hx)).
  pose proof (pow2_pos b) as Hpb.
  unfold contrib. rewrite Et. destruct (Z.eqb_spec (g_ty g) (Z.of_nat j)) as [E|]; cbn [ind]; [|ring].
  pose proof (zproto_type _ _ HP) as Ty. unfold zproto_gate in HP.
  assert (EwS : forall g1, g_ty g1 = g_ty g -> In (g_ty g) [0;1;6;7;8;9;13;10]%Z -> wires g1 = [(1%F, Z.to_nat (g_u g1), Z.to_nat (g_v g1))]).
  { intros g1 E1 Ht. unfold wires. rewrite E1. cbn [In] in Ht.
    decompose [or] Ht; try contradiction; match goal with H : _ = g_ty g |- _ => rewrite <- H end; reflexivity. }
  assert (Ej : j = Z.to_nat (g_ty g)) by lia. clear E.
  zgate_cases Ty; rewrite Ty in *;
    try (specialize (Es ltac:(lia)); cbn [Z.eqb Pos.eqb orb] in Es; destruct Es as [Eu Ev]);
    try (rewrite (EwS h Et), (EwS g Ty) by (rewrite ?Ty; cbn [In]; tauto); rewrite !lsum_cons, !lsum_nil;
         unfold w_c, w_l, w_r; cbn [fst snd]; rewrite Eu, Ev);
    try (replace (Z.to_nat (g_u g + Z.of_nat (k * 2 ^ b))) with (k * 2 ^ b + Z.to_nat (g_u g)) by lia; rewrite HU by lia);
    try (replace (Z.to_nat (g_v g + Z.of_nat (k * 2 ^ b))) with (k * 2 ^ b + Z.to_nat (g_v g)) by lia; rewrite HU' by lia;
         subst j; match goal with |- context [v0_type ?x] => let e := eval compute in (v0_type x) in change (v0_type x) with e end; cbv iota; ring).
  - (* dummy *) rewrite (wires_dummy h Et), (wires_dummy g Ty), !lsum_nil. ring.
  - (* sum *) unfold wires. rewrite Et, Ty, Eu, Ev, !lsum_map, !lsum_seq.
    replace (Z.to_nat (g_v g + Z.of_nat (k * 2 ^ b)) - Z.to_nat (g_u g + Z.of_nat (k * 2 ^ b))) with (Z.to_nat (g_v g) - Z.to_nat (g_u g)) by lia.
    subst j. change (v0_type (Z.to_nat 5)) with true. cbv iota.
    rewrite (sumn_ext _ _ (fun q => (Uh k * Uh' 0%nat) * (w_c (1%F, Z.to_nat (g_u g) + q, 0)%nat * Ul (w_l (1%F, Z.to_nat (g_u g) + q, 0)%nat) * Ul' (w_r (1%F, Z.to_nat (g_u g) + q, 0)%nat)))%F).
    + rewrite sumn_scal. ring.
    + intros q Hq. unfold w_c, w_l, w_r. cbn [fst snd].
      replace (Z.to_nat (g_u g + Z.of_nat (k * 2 ^ b)) + q) with (k * 2 ^ b + (Z.to_nat (g_u g) + q)) by lia.
      rewrite HU by lia. rewrite HU0 by lia. ring.
  - (* not *) rewrite (H6 eq_refl). change (Z.to_nat 0) with 0. rewrite HU0 by lia. subst j. change (v0_type (Z.to_nat 6)) with true. cbv iota. ring.
  - (* relay *) destruct HP as [_ Hv0]. rewrite Hv0. change (Z.to_nat 0) with 0. rewrite HU0 by lia. subst j. change (v0_type (Z.to_nat 10)) with true. cbv iota. ring.
  - (* exp sum *) unfold wires. rewrite Et, Ty, Eu, Ev, !lsum_map, !lsum_seq.
    replace (Z.to_nat (g_v g + Z.of_nat (k * 2 ^ b)) + 1 - Z.to_nat (g_u g + Z.of_nat (k * 2 ^ b))) with (Z.to_nat (g_v g) + 1 - Z.to_nat (g_u g)) by lia.
    subst j. change (v0_type (Z.to_nat 12)) with true. cbv iota. cbn [Nat.add].
    rewrite (sumn_ext _ _ (fun q => (Uh k * Uh' 0%nat) * (w_c (Fpow two q, Z.to_nat (g_u g) + q, 0)%nat * Ul (w_l (Fpow two q, Z.to_nat (g_u g) + q, 0)%nat) * Ul' (w_r (Fpow two q, Z.to_nat (g_u g) + q, 0)%nat)))%F).
    + rewrite sumn_scal. ring.
    + intros q Hq. unfold w_c, w_l, w_r. cbn [fst snd].
      replace (Z.to_nat (g_u g + Z.of_nat (k * 2 ^ b)) + q) with (k * 2 ^ b + (Z.to_nat (g_u g) + q)) by lia.
      rewrite HU by lia. rewrite HU0 by lia. ring.
Qed.

Lemma eqg_prs_testbit : forall R O off j i, eqg (prs R O off (S j)) i =
  (eqg (prs R O off j) i * (if Nat.testbit i j then nth (j + off) R 0 else nth (j + off) O 0))%F.
Proof.
  intros R O off j i. rewrite prs_S, eqg_app, eqg_mod, prs_length. cbn [eqg].
  rewrite Nat.testbit_odd, Nat.shiftr_div_pow2. destruct (Nat.odd (i / 2 ^ j)); ring.
Qed.
Lemma eqg_prs_0 : forall R O off j, eqg (prs R O off (S j)) 0 = (eqg (prs R O off j) 0 * nth (j + off) O 0)%F.
Proof. intros. rewrite eqg_prs_testbit, Nat.bits_0. reflexivity. Qed.
Lemma block_prefix_ok : forall v0 lb b lr i r0 r1 ru rv R0 R1 Ru Rv,
  reps r0 R0 -> reps r1 R1 -> reps ru Ru -> reps rv Rv ->
  lb + lr <= length R0 -> lb + lr <= length R1 -> b + lr <= length Ru -> b + lr <= length Rv ->
  returns (block_prefix v0 lb b lr i r0 r1 ru rv) (fun p =>
    rep (fst p) (eqg (prs R0 (comp R0) lb lr) i * (eqg (prs Ru (comp Ru) b lr) i * eqg (prs Rv (comp Rv) b lr) (if v0 then 0 else i)%nat))%F /\
    rep (snd p) (eqg (prs R1 (comp R1) lb lr) i * (eqg (prs Ru (comp Ru) b lr) i * eqg (prs Rv (comp Rv) b lr) (if v0 then 0 else i)%nat))%F).
Proof.
  intros v0 lb b lr i r0 r1 ru rv R0 R1 Ru Rv H0 H1 Hu Hv L0 L1 Lu Lv. unfold block_prefix. cbv zeta.
  apply (returns_for _ lr 0 _ (fun j p =>
    rep (fst p) (eqg (prs R0 (comp R0) lb j) i * (eqg (prs Ru (comp Ru) b j) i * eqg (prs Rv (comp Rv) b j) (if v0 then 0 else i)%nat))%F /\
    rep (snd p) (eqg (prs R1 (comp R1) lb j) i * (eqg (prs Ru (comp Ru) b j) i * eqg (prs Rv (comp Rv) b j) (if v0 then 0 else i)%nat))%F)).
  - cbn [fst snd prs seq map eqg]. split; (eapply rep_eq; [exact rep_i1|ring]).
  - intros j [pa pb] Hj [Ra Rb]. cbn [fst snd] in Ra, Rb. simpl in Hj.
    eapply rb_reps; [exact Hu|lia|]. intros xu Xu. eapply rb_reps; [exact Hv|lia|]. intros xv Xv.
    eapply rb_reps; [exact H0|lia|]. intros x0 X0. eapply rb_reps; [exact H1|lia|]. intros x1 X1.
    pose proof rep_i1 as R1'.
    assert (Sub : forall x a, rep x a -> rep (fe_sub (fe_of_int 1) x) (1 - a)%F) by (intros x a Rx; apply rep_sub; assumption).
    rewrite !eqg_prs_testbit. destruct v0; rewrite ?Nat.bits_0; destruct (Nat.testbit i j); cbn [orb];
      apply returns_ok; cbn [fst snd]; rewrite ?comp_nth by lia;
      split; (eapply rep_eq; [apply rep_mul; [apply rep_mul; [eassumption|first [exact X0 | exact X1 | apply Sub; first [exact X0 | exact X1]]]|
        apply rep_mul; [first [exact Xu | apply Sub, Xu]|first [exact Xv | apply Sub, Xv]]]|ring]).
Qed.
Definition lowpt (R O : list F) (lb lr : nat) (k : nat) : F := eqg (prs R O lb lr) k.
Lemma wt_split : forall R O lb lr k x, x < 2 ^ lb ->
  wt R O (lb + lr) (k * 2 ^ lb + x) = (wt R O lb x * lowpt R O lb lr k)%F.
Proof.
  intros R O lb lr k x Hx. unfold wt, lowpt. rewrite prs_app, eqg_app, prs_length.
  rewrite (Nat.add_comm (k * 2 ^ lb)), Nat.mod_add, Nat.mod_small, Nat.div_add, Nat.div_small by lia. reflexivity.
Qed.
Lemma blog_ok : forall L n, log_block_size L = Z.of_nat n -> n < 31 -> blog L = Ok n.
Proof.
  intros L n E H. unfold blog. rewrite E. destruct (Z.leb_spec 0 (Z.of_nat n)); [|lia].
  destruct (Z.ltb_spec (Z.of_nat n) 31); [|lia]. cbn [andb]. rewrite Nat2Z.id. reflexivity.
Qed.
Lemma preds_block_ok : forall NF NS lb b lr L Lm B a be r0 r1 ru rv R0 R1 Ru Rv,
  reps r0 R0 -> reps r1 R1 -> reps ru Ru -> reps rv Rv ->
  lb + lr <= length R0 -> lb + lr <= length R1 -> b + lr <= length Ru -> b + lr <= length Rv ->
  log_block_size L = Z.of_nat lb -> lb < 31 -> log_block_size Lm = Z.of_nat b -> b < 31 ->
  block_size L = (2 ^ Z.of_nat lb)%Z -> log_repeat_num L = Z.of_nat lr -> repeat_num L = Z.of_nat (2 ^ lr) ->
  (forall k, k < 2 ^ lb -> exists g, nth_error (gates L) k = Some g) ->
  block_layer lb b lr L ->
  ztabs NF NS lb b B a be R0 (comp R0) R1 (comp R1) Ru (comp Ru) Rv (comp Rv) ->
  returns (preds_block L Lm B r0 r1 ru rv) (fun ret => tab 14 ret 14 (fun j =>
    pred (2 ^ lr * 2 ^ lb) (gate_at L) (fun k => a * wt R0 (comp R0) (lb + lr) k + be * wt R1 (comp R1) (lb + lr) k)%F (Z.of_nat j)
      (wt Ru (comp Ru) (b + lr)) (wt Rv (comp Rv) (b + lr)))).
Proof.
  intros NF NS lb b lr L Lm B a be r0 r1 ru rv R0 R1 Ru Rv H0 H1 Hu Hv L0 L1 Lu Lv E1 K1 E2 K2 Ebs Elr Ern HG [Hbg Hbs] [T1 T2 T3 T4 T5 T6 T7 T8].
  unfold preds_block. rewrite (blog_ok _ _ E1 K1). cbn [bind]. apply rb_assert; [rewrite Ebs; apply Z.eqb_refl|].
  rewrite (blog_ok _ _ E2 K2). cbn [bind]. cbv zeta. rewrite Elr, Ern, !Nat2Z.id.
  set (Wa := fun k => (a * wt R0 (comp R0) lb k)%F). set (Wb := fun k => (be * wt R1 (comp R1) lb k)%F).
  set (Ul := wt Ru (comp Ru) b). set (Ul' := wt Rv (comp Rv) b).
  set (Uh := lowpt Ru (comp Ru) b lr). set (Uh' := lowpt Rv (comp Rv) b lr).
  set (Pa := lowpt R0 (comp R0) lb lr). set (Pb := lowpt R1 (comp R1) lb lr).
  assert (Haw : forall op k, op = fe_weight \/ op = u_weight -> k < 2 ^ lb -> returns (op (zb_g0f B) (zb_g0s B) (lb / 2) k) (fun x => rep x (Wa k)))
    by (intros op k Ho Hk; apply (two_weight_ok op NF NS _ _ lb R0 (comp R0) a k Ho T1 T2 Hk)).
  assert (Hbw : forall op k, op = fe_weight \/ op = u_weight -> k < 2 ^ lb -> returns (op (zb_g1f B) (zb_g1s B) (lb / 2) k) (fun x => rep x (Wb k)))
    by (intros op k Ho Hk; apply (two_weight_ok op NF NS _ _ lb R1 (comp R1) be k Ho T3 T4 Hk)).
  assert (Huw : forall op k, op = fe_weight \/ op = u_weight -> k < 2 ^ b -> returns (op (zb_uf B) (zb_us B) (b / 2) k) (fun x => rep x (Ul k))).
  { intros op k Ho Hk. eapply returns_conseq; [apply (two_weight_ok op NF NS _ _ b Ru (comp Ru) 1%F k Ho T5 T6 Hk)|].
    intros x Rx. cbv beta in Rx. eapply rep_eq; [exact Rx|unfold Ul; ring]. }
  assert (Hvw : forall op k, op = fe_weight \/ op = u_weight -> k < 2 ^ b -> returns (op (zb_vf B) (zb_vs B) (b / 2) k) (fun x => rep x (Ul' k))).
  { intros op k Ho Hk. eapply returns_conseq; [apply (two_weight_ok op NF NS _ _ b Rv (comp Rv) 1%F k Ho T7 T8 Hk)|].
    intros x Rx. cbv beta in Rx. eapply rep_eq; [exact Rx|unfold Ul'; ring]. }
  set (SA := fun n j => sumn n (fun i => contrib (gate_at L i) (Wa i) Ul Ul' j)).
  set (SB := fun n j => sumn n (fun i => contrib (gate_at L i) (Wb i) Ul Ul' j)).
  eapply returns_bind.
  - apply (returns_for _ (2 ^ lb) 0 _ (fun i p => tab 14 (fst p) 14 (SA i) /\ tab 14 (snd p) 14 (SB i))).
    + cbn [fst snd]. split; apply tab_zeros.
    + intros i [al bt] Hi [Ta Tb]. cbn [fst snd] in Ta, Tb. simpl in Hi. destruct (HG i ltac:(lia)) as [g Eg].
      eapply rb_nth; [exact Eg|]. assert (Ega : gate_at L i = g) by (unfold gate_at; apply nth_error_nth, Eg).
      eapply returns_conseq; [apply (block_gate_ok lb b B Wa Wb Ul Ul' Haw Hbw Huw Hvw i g al bt (SA i) (SB i) ltac:(lia)); [rewrite <- Ega; apply Hbg; lia|exact Ta|exact Tb]|].
      intros p [Ta' Tb']. unfold SA, SB. cbn [sumn]. rewrite Ega. split; assumption.
  - cbv beta. simpl (0 + _). intros [al bt] [Ta Tb]. cbn [fst snd] in Ta, Tb.
    set (blk := fun k j => (Uh k * Uh' (if v0_type j then 0 else k)%nat * (Pa k * SA (2 ^ lb) j + Pb k * SB (2 ^ lb) j))%F).
    eapply returns_conseq.
    + apply (returns_for _ (2 ^ lr) 0 _ (fun k r => tab 14 r 14 (fun j => sumn k (fun q => blk q j)))).
      * apply tab_zeros.
      * intros k r Hk T. simpl in Hk.
        eapply returns_bind; [apply (block_prefix_ok false lb b lr k r0 r1 ru rv R0 R1 Ru Rv); assumption|].
        intros [pa pb] [Rpa Rpb]. cbn [fst snd] in Rpa, Rpb. cbv iota in Rpa, Rpb.
        eapply returns_bind; [apply (block_prefix_ok true lb b lr k r0 r1 ru rv R0 R1 Ru Rv); assumption|].
        intros [pa0 pb0] [Rpa0 Rpb0]. cbn [fst snd] in Rpa0, Rpb0. cbv iota in Rpa0, Rpb0.
        eapply returns_conseq.
        -- apply (returns_for _ gate_type_count 0 _ (fun m r => tab 14 r 14 (fun j => if j <? m then sumn (S k) (fun q => blk q j) else sumn k (fun q => blk q j)))).
           ++ eapply tab_ext; [exact T|]. intros j _. reflexivity.
           ++ intros m r' Hm Tr. simpl in Hm. unfold gate_type_count in Hm.
              eapply rb_tab; [exact Ta|lia|]. intros xa Xa. eapply rb_tab; [exact Tb|lia|]. intros xb Xb.
              eapply returns_conseq; [apply (upd_at_ok _ m _ _ (blk k m) Tr); [lia|]|].
              ** destruct (Nat.ltb_spec m m); [lia|]. generalize (sumn k (fun q => blk q m)). intros s y Ry. unfold blk. destruct (v0_type m).
                 { clear Rpa Rpb. unfold Uh, Uh', Pa, Pb, lowpt. lzr. }
                 { clear Rpa0 Rpb0. unfold Uh, Uh', Pa, Pb, lowpt. lzr. }
              ** intros r'' T''. eapply tab_ext; [exact T''|]. intros j Hj. cbv beta.
                 destruct (Nat.eqb_spec m j) as [<-|Nj]; cbn [ind].
                 --- destruct (Nat.ltb_spec m m); [lia|]. destruct (Nat.ltb_spec m (S m)); [|lia]. cbn [sumn]. ring.
                 --- destruct (Nat.ltb_spec j m), (Nat.ltb_spec j (S m)); try lia; ring.
        -- cbv beta. simpl (0 + _). intros r' Tr. eapply tab_ext; [exact Tr|]. intros j Hj. cbv beta.
           destruct (Nat.ltb_spec j gate_type_count); [reflexivity|unfold gate_type_count in *; lia].
    + cbv beta. simpl (0 + _). intros r T. eapply tab_ext; [exact T|]. intros j Hj. cbv beta.
      unfold pred. rewrite sumn_mul_blocks. apply sumn_ext. intros k Hk. unfold blk, SA, SB.
      rewrite <- !sumn_scal, <- sumn_add, <- sumn_scal. apply sumn_ext. intros i Hi.
      set (w := (a * wt R0 (comp R0) (lb + lr) (k * 2 ^ lb + i) + be * wt R1 (comp R1) (lb + lr) (k * 2 ^ lb + i))%F).
      change (ind _ * (w * _))%F with (contrib (gate_at L (k * 2 ^ lb + i)) w (wt Ru (comp Ru) (b + lr)) (wt Rv (comp Rv) (b + lr)) j).
      rewrite (contrib_shift b k (gate_at L i) _ w _ _ Ul Uh Ul' Uh' j (Hbs k i Hk Hi) (Hbg i Hi))
        by (intros k' x Hx; apply wt_split, Hx).
      unfold w. rewrite !wt_split by exact Hi. fold Pa Pb. unfold contrib, Wa, Wb. ring.
Qed.

(** ** The verifier's tables and predicates for one layer *)
(** What a layer that carries the parallel flag must satisfy. *)
Definition zpar_ok (L Lm : layer) : Prop := is_parallel L = true -> exists lb b lr,
  lb + lr = bit_length L /\ b + lr = bit_length Lm /\
  log_block_size L = Z.of_nat lb /\ lb < 31 /\ log_block_size Lm = Z.of_nat b /\ b < 31 /\
  block_size L = (2 ^ Z.of_nat lb)%Z /\ log_repeat_num L = Z.of_nat lr /\ repeat_num L = Z.of_nat (2 ^ lr) /\
  block_layer lb b lr L.
Definition bsizes (m : nat) (BB : zbetas * zbetas) : Prop :=
  zsizes (2 ^ (m / 2)) (2 ^ (m - m / 2)) (fst BB) /\ zsizes (2 ^ (m / 2)) (2 ^ (m - m / 2)) (snd BB).
Lemma init_bsizes : forall m, bsizes m (init_zbetas m, init_zbetas m).
Proof. intro m. split; constructor; apply repeat_length. Qed.
(** The tables of layer [L]: in the block arrays for a parallel layer. *)
Definition btables (m : nat) (L Lm : layer) (BB : zbetas * zbetas) (a be : F) (R0 O0 R1 O1 Ru Ou Rv Ov : list F) : Prop :=
  if is_parallel L
  then ztabs (2 ^ (m / 2)) (2 ^ (m - m / 2)) (Z.to_nat (log_block_size L)) (Z.to_nat (log_block_size Lm)) (snd BB) a be R0 O0 R1 O1 Ru Ou Rv Ov
  else ztabs (2 ^ (m / 2)) (2 ^ (m - m / 2)) (bit_length L) (bit_length Lm) (fst BB) a be R0 O0 R1 O1 Ru Ou Rv Ov.
Lemma half_mono : forall n m, n <= m -> n / 2 <= m / 2 /\ n - n / 2 <= m - m / 2.
Proof.
  intros n m H. pose proof (Nat.div_le_mono n m 2 ltac:(lia) H). split; [assumption|].
  pose proof (Nat.div_mod n 2 ltac:(lia)). pose proof (Nat.mod_upper_bound n 2 ltac:(lia)).
  pose proof (Nat.div_mod m 2 ltac:(lia)). pose proof (Nat.mod_upper_bound m 2 ltac:(lia)). lia.
Qed.
Lemma zbeta_init_ok : forall m depth L Lm alpha beta r0 r1 ru rv o0 o1 ou ov BB a be R0 R1 Ru Rv O0 O1 Ou Ov,
  reps r0 R0 -> reps r1 R1 -> reps ru Ru -> reps rv Rv -> reps o0 O0 -> reps o1 O1 -> reps ou Ou -> reps ov Ov ->
  length R0 = bit_length L -> length R1 = bit_length L -> length O0 = bit_length L -> length O1 = bit_length L ->
  length Ru = bit_length Lm -> length Rv = bit_length Lm -> length Ou = bit_length Lm -> length Ov = bit_length Lm ->
  bit_length L <= m -> bit_length Lm <= m -> bsizes m BB -> rep alpha a -> rep beta be ->
  (depth = 1 -> is_parallel L = false) -> zpar_ok L Lm ->
  returns (zbeta_init depth L Lm alpha beta r0 r1 ru rv o0 o1 ou ov BB) (fun BB' =>
    bsizes m BB' /\ btables m L Lm BB' a be R0 O0 R1 O1 Ru Ou Rv Ov).
Proof.
  intros m depth L Lm alpha beta r0 r1 ru rv o0 o1 ou ov [B Bb] a be R0 R1 Ru Rv O0 O1 Ou Ov
    H0 H1 Hu Hv K0 K1 Ku Kv L0 L1 L2 L3 L4 L5 L6 L7 M1 M2 [S1 S2] Ra Rb Hd Hp. cbn [fst snd] in S1, S2.
  unfold zbeta_init, btables. 
  assert (Hm : forall n, n <= m -> 2 ^ (n / 2) <= 2 ^ (m / 2) /\ 2 ^ (n - n / 2) <= 2 ^ (m - m / 2)).
  { intros n Hn. destruct (half_mono n m Hn). split; apply Nat.pow_le_mono_r; lia. }
  destruct (is_parallel L) eqn:Ep.
  - destruct (Nat.eqb_spec depth 1) as [E|_]; [discriminate (Hd E)|].
    destruct (Hp Ep) as (lb & b & lr & E1 & E2 & E3 & E4 & E5 & E6 & _).
    rewrite (blog_ok _ _ E3 E4). cbn [bind]. rewrite (blog_ok _ _ E5 E6). cbn [bind]. rewrite E3, E5, !Nat2Z.id.
    destruct (Hm lb ltac:(lia)), (Hm b ltac:(lia)).
    eapply returns_bind; [eapply (zbeta_fill_ok (2 ^ (m / 2)) (2 ^ (m - m / 2)) lb b) with (R0 := R0) (R1 := R1) (Ru := Ru) (Rv := Rv);
      try eassumption; lia|].
    intros B' [S' T']. apply returns_ok. split; [split; assumption|exact T'].
  - destruct (Hm (bit_length L) M1), (Hm (bit_length Lm) M2).
    eapply returns_bind; [eapply (zbeta_fill_ok (2 ^ (m / 2)) (2 ^ (m - m / 2)) (bit_length L) (bit_length Lm)) with (R0 := R0) (R1 := R1) (Ru := Ru) (Rv := Rv);
      try eassumption; lia|].
    intros B' [S' T']. apply returns_ok. split; [split; assumption|exact T'].
Qed.

Lemma tab_map : forall n l f h, tab n l n f -> (forall x a, rep x a -> rep (h x) a) -> tab n (map h l) n f.
Proof.
  intros n l f h (L & _ & H) Hh. split; [rewrite map_length; exact L|]. split; [lia|].
  intros i Hi. destruct (H i Hi) as (x & E & R). exists (h x). split; [|apply Hh, R]. rewrite nth_error_map, E. reflexivity.
Qed.
Lemma pred_ext : forall G gt gt' W W' ty U U1 U' U1', (forall g, g < G -> gt g = gt' g) -> (forall g, g < G -> W g = W' g) ->
  (forall x, U x = U1 x) -> (forall x, U' x = U1' x) -> pred G gt W ty U U' = pred G gt' W' ty U1 U1'.
Proof.
  intros G gt gt' W W' ty U U1 U' U1' Eg EW EU EU'. unfold pred. apply sumn_ext. intros g Hg. rewrite (Eg g Hg), (EW g Hg).
  do 2 f_equal. apply lsum_ext. intros w _. rewrite EU, EU'. reflexivity.
Qed.
Lemma predicates_ok : forall m depth L Lm BB r0 r1 ru rv a be R0 R1 Ru Rv,
  depth <> 1 -> reps r0 R0 -> reps r1 R1 -> reps ru Ru -> reps rv Rv ->
  length R0 = bit_length L -> length R1 = bit_length L -> length Ru = bit_length Lm -> length Rv = bit_length Lm ->
  zpar_ok L Lm -> (forall k, k < 2 ^ bit_length L -> exists g, nth_error (gates L) k = Some g) ->
  (forall k, k < 2 ^ bit_length L -> zproto_gate (2 ^ bit_length Lm) (gate_at L k)) ->
  btables m L Lm BB a be R0 (comp R0) R1 (comp R1) Ru (comp Ru) Rv (comp Rv) ->
  returns (predicates depth L Lm BB r0 r1 ru rv) (fun ret => tab 14 ret 14 (fun j =>
    pred (2 ^ bit_length L) (gate_at L) (gw a be R0 R1) (Z.of_nat j) (eqw Ru) (eqw Rv))).
Proof.
  intros m depth L Lm BB r0 r1 ru rv a be R0 R1 Ru Rv Hd H0 H1 Hu Hv L0 L1 Lu Lv Hp HG HP T. unfold predicates.
  destruct (Nat.eqb_spec depth 1) as [E|_]; [contradiction|].
  assert (Hfin : forall ret, tab 14 ret 14 (fun j => pred (2 ^ bit_length L) (gate_at L) (gw a be R0 R1) (Z.of_nat j) (eqw Ru) (eqw Rv)) ->
     returns (Ok (map (fun x => fix_neg (u512_mod x)) ret)) (fun ret => tab 14 ret 14 (fun j => pred (2 ^ bit_length L) (gate_at L) (gw a be R0 R1) (Z.of_nat j) (eqw Ru) (eqw Rv)))).
  { intros ret Tr. apply returns_ok. apply tab_map; [exact Tr|]. intros x c Rx. lzr. }
  assert (EW : forall k, (a * wt R0 (comp R0) (bit_length L) k + be * wt R1 (comp R1) (bit_length L) k)%F = gw a be R0 R1 k).
  { intro k. rewrite !wt_point by assumption. reflexivity. }
  unfold btables in T. destruct (is_parallel L) eqn:Ep.
  - destruct (Hp Ep) as (lb & b & lr & E1 & E2 & E3 & E4 & E5 & E6 & E7 & E8 & E9 & BL).
    rewrite E3, E5, !Nat2Z.id in T.
    eapply returns_bind; [eapply (preds_block_ok _ _ lb b lr) with (R0 := R0) (R1 := R1) (Ru := Ru) (Rv := Rv); try eassumption; try lia|].
    + intros k Hk. apply HG. rewrite <- E1, Nat.pow_add_r. pose proof (pow2_pos lr). nia.
    + intros ret Tr. cbv beta in Tr. apply Hfin. eapply tab_ext; [exact Tr|]. intros j _. cbv beta.
      rewrite <- Nat.pow_add_r, (Nat.add_comm lr lb), E1, E2. apply pred_ext; [reflexivity|intros; apply EW| |];
        intro x; apply wt_point; assumption.
  - destruct T as [T1 T2 T3 T4 T5 T6 T7 T8].
    set (lg := bit_length L) in *. set (b := bit_length Lm) in *.
    set (W := fun k => (a * wt R0 (comp R0) lg k + be * wt R1 (comp R1) lg k)%F).
    set (U := wt Ru (comp Ru) b). set (U' := wt Rv (comp Rv) b).
    assert (Haw : forall op k, op = fe_weight \/ op = u_weight -> k < 2 ^ b -> returns (op (zb_uf (fst BB)) (zb_us (fst BB)) (b / 2) k) (fun x => rep x (U k))).
    { intros op k Ho Hk. eapply returns_conseq; [eapply (two_weight_ok op _ _ _ _ b Ru (comp Ru) 1%F k Ho T5 T6 Hk)|].
      intros x Rx. cbv beta in Rx. eapply rep_eq; [exact Rx|unfold U; ring]. }
    assert (Hbw : forall op k, op = fe_weight \/ op = u_weight -> k < 2 ^ b -> returns (op (zb_vf (fst BB)) (zb_vs (fst BB)) (b / 2) k) (fun x => rep x (U' k))).
    { intros op k Ho Hk. eapply returns_conseq; [eapply (two_weight_ok op _ _ _ _ b Rv (comp Rv) 1%F k Ho T7 T8 Hk)|].
      intros x Rx. cbv beta in Rx. eapply rep_eq; [exact Rx|unfold U'; ring]. }
    eapply returns_bind; [apply (preds_plain_ok lg b L Lm (fst BB) W U U')|].
    + intros k Hk. eapply g_weight_ok2; eassumption.
    + intros k Hk. eapply returns_bind; [eapply (two_weight_ok fe_weight _ _ _ _ lg R0 (comp R0) a k (or_introl eq_refl) T1 T2 Hk)|].
      intros x Rx. cbv beta in Rx.
      eapply returns_bind; [eapply (two_weight_ok fe_weight _ _ _ _ lg R1 (comp R1) be k (or_introl eq_refl) T3 T4 Hk)|].
      intros y Ry. cbv beta in Ry. apply returns_ok. unfold W. apply rep_add; assumption.
    + intros k Hk. apply (Haw u_weight); [right; reflexivity|exact Hk].
    + intros k Hk. apply (Haw fe_weight); [left; reflexivity|exact Hk].
    + intros k Hk. apply (Hbw u_weight); [right; reflexivity|exact Hk].
    + intros k Hk. apply (Hbw fe_weight); [left; reflexivity|exact Hk].
    + reflexivity.
    + reflexivity.
    + exact HG.
    + exact HP.
    + intros ret Tr. cbv beta in Tr. apply Hfin. eapply tab_ext; [exact Tr|]. intros j _. cbv beta.
      apply pred_ext; [reflexivity|intros; apply EW| |]; intro x; apply wt_point; assumption.
Qed.
Lemma predicates_1 : forall L Lm BB r0 r1 ru rv, returns (predicates 1 L Lm BB r0 r1 ru rv) (fun ret => tab 14 ret 14 (fun _ => 0%F)).
Proof. intros. unfold predicates. cbn [Nat.eqb]. apply returns_ok, tab_zeros. Qed.

(** ** The value the verifier multiplies into the last check *)
Definition zptypes : list Z := [0;1;5;6;7;8;9;10;12;13]%Z.
Lemma zptypes_nodup : NoDup zptypes.
Proof. unfold zptypes. repeat constructor; cbn [In]; intuition discriminate. Qed.
Lemma zlayer_types : forall n g, zproto_gate n g -> In (g_ty g) zptypes \/ wires g = [].
Proof.
  intros n g HP. pose proof (zproto_type _ _ HP) as T. zgate_cases T; rewrite T; unfold zptypes; cbn [In]; try tauto.
  right. apply wires_dummy, T.
Qed.
Definition zcombine (PR : Z -> F) (vu vv : F) : F := lsum zptypes (fun ty => fval (form_of ty) vu vv * PR ty)%F.
Lemma zgeneral_ok : forall pv PR v_u v_v vu vv, tab 14 pv 14 (fun j => PR (Z.of_nat j)) -> rep v_u vu -> rep v_v vv ->
  returns (zgeneral pv v_u v_v) (fun x => rep x (zcombine PR vu vv)) /\
  returns (zgeneral' pv v_u v_v) (fun x => rep x (zcombine PR vu vv)).
Proof.
  intros pv PR v_u v_v vu vv T Ru Rv. unfold zgeneral, zgeneral'.
  split; do 10 (eapply rb_tab; [exact T|lia|]; intros ? ?); cbv zeta; apply returns_ok;
    unfold zcombine, zptypes; rewrite !lsum_cons, lsum_nil; unfold fval; cbn [form_of c11 c10 c01 c00 Z.of_nat Pos.of_succ_nat Pos.succ] in *; unfold two; lzr.
Qed.
