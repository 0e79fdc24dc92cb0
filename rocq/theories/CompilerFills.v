(** * The wiring fills every run *)
From Coq Require Import ZArith List Bool Arith Lia Sorted.
From Verif Require Import Base Fp Loader SpecLoader LoaderProofs ZkEval Program SpecCompiler Compiler CompilerMaps CompilerLayers CompilerShape CompilerWiring CompilerTotal.
Import ListNotations.
Open Scope Z_scope.

Lemma out_nums_app : forall w1 w2, out_nums (w1 ++ w2) = out_nums w1 ++ out_nums w2.
Proof. intros. apply flat_map_app. Qed.
Lemma read_wiring : forall rnd w, wiring_ok w -> wiring_regular w -> Z.of_nat (length (out_nums w)) < 2 ^ 31 -> exists s, read_rstmts rnd w = Ok s.
Proof.
  intros rnd w (_ & _ & _ & W) [_ R] B. unfold read_rstmts.
  destruct (each_ok _ _ (read_rstmt rnd) (fun l s => rr_cnt s = Z.of_nat (length (out_nums l))) w (RR [] (fun _ => 0) 1061109567 0 0)) as (s & E & _); [reflexivity| |exists s; exact E].
  intros w1 x w2 s Ew H. assert (Hx : In x w) by (rewrite Ew; apply in_app_iff; right; left; reflexivity). pose proof (W x Hx) as W1. pose proof (R x Hx) as R1. rewrite out_nums_app, app_length. unfold is_int, is_ll in *.
  assert (LE : (length (out_nums w1) + length (out_nums [x]) <= length (out_nums w))%nat).
  { rewrite Ew, out_nums_app, app_length. change (x :: w2) with ([x] ++ w2). rewrite out_nums_app, app_length. lia. }
  destruct x as [t c|t i|o a|t a b|]; cbn [read_rstmt out_nums flat_map app length] in *; unfold read_int.
  - rewrite int_op_ok, read_ll_ok by lia. cbn [bind]. apply returns_ok. cbn [rr_cnt]. lia.
  - rewrite int_op_ok, read_ll_ok by lia. cbn [bind]. apply returns_ok. cbn [rr_cnt]. lia.
  - rewrite int_op_ok by lia. cbn [bind]. rewrite int_op_ok, read_ll_ok by lia. cbn [bind]. apply returns_ok. cbn [rr_cnt]. lia.
  - rewrite int_op_ok, !read_ll_ok by lia. cbn [bind]. apply returns_ok. cbn [rr_cnt]. lia.
  - contradiction.
Qed.
Section Fill.
Variables (rnd : nat -> Z) (w : list rstmt) (s : rread) (ic : Z) (n0 k : nat).
Hypothesis W : wiring_ok w.
Hypothesis WR : wiring_regular w.
Hypothesis RI : rinv rnd w s.
Hypothesis ICP : 0 < ic.
Hypothesis N0 : ic <= Z.of_nat n0 <= 2 * ic.
Hypothesis OUT : Z.of_nat (length (out_nums w)) = 2 ^ Z.of_nat k * ic.
Hypothesis SZ : Z.of_nat n0 * 2 ^ Z.of_nat k < 2 ^ 31.
Hypothesis SRC : Z.of_nat (length (sources w)) < 2 ^ 30.

Lemma pow_pos : 0 < 2 ^ Z.of_nat k.
Proof. apply Z.pow_pos_nonneg; lia. Qed.
Lemma out_in : forall o v, In (ROut o v) w -> In o (out_nums w) /\ 0 <= o <= 1061109567.
Proof. intros o v H. split; [apply in_flat_map; exists (ROut o v); split; [exact H|left; reflexivity]|]. destruct W as (_ & _ & _ & W4). apply (W4 _ H). Qed.
Lemma out_stmt : forall o, In o (out_nums w) -> exists v, In (ROut o v) w.
Proof. intros o H. unfold out_nums in H. apply in_flat_map in H. destruct H as (st & Hst & Ho). destruct st as [| |o' v| |]; try (destruct Ho; fail). destruct Ho as [->|[]]. exists v. exact Hst. Qed.
Lemma min_in : In (rr_min s) (out_nums w).
Proof.
  destruct (rv_min _ _ _ RI) as [M1 [M2|M2]]; [|exact M2]. pose proof pow_pos. assert (NE : out_nums w <> []) by (intro Q; rewrite Q in OUT; cbn [length] in OUT; nia).
  destruct (out_nums w) as [|y l] eqn:E; [contradiction|]. assert (Hy : In y (out_nums w)) by (rewrite E; left; reflexivity). specialize (M1 y ltac:(left; reflexivity)). destruct (out_stmt y Hy) as (v & Hv). destruct (out_in y v Hv). left. lia.
Qed.
Lemma out_range : forall o, In o (out_nums w) -> 0 <= rr_min s <= o /\ o - rr_min s < 2 ^ Z.of_nat k * ic /\ o <= 1061109567.
Proof.
  intros o Ho. destruct (rv_min _ _ _ RI) as [M1 _]. specialize (M1 o Ho). destruct WR as [R1 _]. specialize (R1 o (rr_min s) Ho min_in). destruct (out_stmt _ min_in) as (v & Hv). destruct (out_in _ _ Hv). destruct (out_stmt _ Ho) as (v' & Hv'). destruct (out_in _ _ Hv'). lia.
Qed.
Lemma out_all : forall q, 0 <= q < 2 ^ Z.of_nat k * ic -> In (rr_min s + q) (out_nums w).
Proof.
  intros q Hq. pose proof (proj1 (proj2 W)) as ND.
  assert (Q : incl (map (fun i => rr_min s + Z.of_nat i) (seq 0 (length (out_nums w)))) (out_nums w)).
  { apply NoDup_length_incl; [exact ND|rewrite map_length, seq_length; lia|]. intros o Ho. apply in_map_iff. exists (Z.to_nat (o - rr_min s)). destruct (out_range o Ho) as (A & B & _). split; [rewrite Z2Nat.id by lia; lia|apply in_seq; lia]. }
  apply Q, in_map_iff. exists (Z.to_nat q). split; [rewrite Z2Nat.id by lia; reflexivity|apply in_seq; lia].
Qed.
(** Entries of the map. *)
Lemma entry_cases : forall e, In e (rr_m s) -> (exists v a b o, e = (kV v, RG true a) /\ In (RPass v a b) w /\ In (ROut o v) w /\ rr_out s (kV v) = o) \/ (exists t x, e = (kV t, RG false x) /\ In t (sources w)).
Proof.
  intros [kk g] He. destruct RI as [RS RK RP RSr RO _ _ _]. assert (Hk : In kk (keys (rr_m s))) by (apply in_map_iff; exists (kk, g); split; [reflexivity|exact He]). apply RK in Hk. destruct Hk as (v & -> & Ht).
  pose proof (mget_in _ rg0 _ _ _ (sorted_nodup _ _ RS) He) as EG. destruct (rtarget_cases rnd w v Ht) as [(a & b & Hpass)|(x & Hsrc)].
  - left. rewrite (RP v a b Hpass) in EG. subst g. destruct W as (_ & _ & _ & W4). destruct (W4 _ Hpass) as [Wv _]. unfold out_vars in Wv. apply in_flat_map in Wv. destruct Wv as (st & Hst & Hv). destruct st as [| |o v'| |]; try (destruct Hv; fail). destruct Hv as [->|[]].
    exists v, a, b, o. split; [reflexivity|]. split; [exact Hpass|]. split; [exact Hst|apply RO, Hst].
  - right. rewrite (RSr v x Hsrc) in EG. subst g. exists v, x. split; [reflexivity|]. apply (source_target _ _ _ _ Hsrc).
Qed.
Lemma nonpass_count : Z.of_nat (length (filter nonpass (rr_m s))) <= Z.of_nat (length (sources w)).
Proof.
  assert (Q : (length (map fst (filter nonpass (rr_m s))) <= length (map kV (sources w)))%nat).
  { apply NoDup_incl_length.
    - pose proof (sorted_nodup _ _ (rv_sorted _ _ _ RI)) as ND. unfold keys in ND. revert ND. generalize (rr_m s) as m. clear. induction m as [|e m IH]; intro ND; [constructor|]. cbn [map] in ND. inversion ND as [|? ? N1 N2]; subst. cbn [filter]. destruct (nonpass e); [|apply IH, N2].
      cbn [map]. constructor; [|apply IH, N2]. intro Q. apply N1. apply in_map_iff in Q. destruct Q as (e' & Q & He). apply filter_In in He. apply in_map_iff. exists e'. split; [exact Q|apply He].
    - intros kk Hk. apply in_map_iff in Hk. destruct Hk as (e & <- & He). apply filter_In in He. destruct He as [He Hp]. destruct (entry_cases e He) as [(v & a & b & o & -> & _)|(t & x & -> & Ht)]; [discriminate Hp|]. cbn [fst]. apply in_map, Ht. }
  rewrite !map_length in Q. lia.
Qed.
Lemma number_total : exists c pos, number_rdl s ic n0 = Ok (c, pos).
Proof.
  unfold number_rdl. match goal with |- exists c pos, each ?f _ _ = _ => destruct (each_ok _ _ f (fun l st => fst st = Z.of_nat (length (filter nonpass l))) (rr_m s) (0, fun _ => 0)) as ([c pos] & E & _) end; [reflexivity| |exists c, pos; exact E].
  intros m1 e m2 [c pos] Em Hc. cbn [fst] in Hc. change (Z * Z)%type with key in *. assert (He : In e (rr_m s)) by (rewrite Em; apply in_app_iff; right; left; reflexivity).
  assert (LE : (length (filter nonpass (m1 ++ [e])) <= length (filter nonpass (rr_m s)))%nat).
  { rewrite Em. change (e :: m2) with ([e] ++ m2). rewrite app_assoc, (filter_app _ (m1 ++ [e])), app_length. apply Nat.le_add_r. }
  rewrite filter_app, app_length in *. pose proof nonpass_count. destruct (entry_cases e He) as [(v & a & b & o & -> & Hp & Ho & EO)|(t & x & -> & Ht)]; cbn [rg_pass snd fst kV filter nonpass negb length] in *; fold (kV) in *.
  - change (86, v) with (kV v). rewrite EO. destruct (out_range o (proj1 (out_in o v Ho))) as (A & B & C). rewrite int_op_ok by lia. cbn [bind]. apply returns_ok. cbn [fst]. lia.
  - rewrite int_op_ok by lia. cbn [bind]. apply returns_ok. cbn [fst]. lia.
Qed.
(** A cell that is written. *)
Definition filled (row : list (option sgate)) (i : nat) : Prop := exists g, nth_error row i = Some (Some g).
Lemma filled_upd : forall row i g j, (i < length row)%nat -> filled row j \/ j = i -> filled (upd row i (Some g)) j.
Proof.
  intros row i g j Hi H. unfold filled. rewrite nth_error_upd by exact Hi. destruct (Nat.eqb_spec j i) as [->|N]; [exists g; reflexivity|]. destruct H as [H|H]; [exact H|contradiction].
Qed.
Lemma pass_pos : forall c pos v a b o, number_rdl s ic n0 = Ok (c, pos) -> In (RPass v a b) w -> In (ROut o v) w ->
  In (kV v, RG true a) (rr_m s) /\ pos (kV v) = (o - rr_min s) / ic * Z.of_nat n0 + (o - rr_min s) mod ic /\ 0 <= pos (kV v) < Z.of_nat (n0 * 2 ^ k).
Proof.
  intros c pos v a b o EN Hp Ho. destruct RI as [RS RK RP RSr RO _ _ _]. assert (Hk : In (kV v) (keys (rr_m s))) by (apply RK; exists v; split; [reflexivity|apply (pass_target _ _ _ _ Hp)]).
  apply (in_mget _ rg0) in Hk. rewrite (RP v a b Hp) in Hk. split; [exact Hk|]. apply in_split in Hk. destruct Hk as (m1 & m2 & EM). pose proof (number_rdl_inv _ _ _ _ _ RS EN _ _ _ EM) as PE. cbn [fst snd rg_pass] in PE.
  destruct (out_range o (proj1 (out_in o v Ho))) as (A & B & C). rewrite (out_pos_div s ic n0 o v (rr_min s) (RO o v Ho) eq_refl A C ICP N0) in PE. split; [exact PE|]. rewrite PE.
  pose proof (Z.div_mod (o - rr_min s) ic ltac:(lia)) as DM. pose proof (Z.mod_pos_bound (o - rr_min s) ic ICP) as MB. pose proof (Z.div_pos (o - rr_min s) ic ltac:(lia) ICP) as DP.
  assert (DL : (o - rr_min s) / ic < 2 ^ Z.of_nat k) by (apply Z.div_lt_upper_bound; lia). set (q := (o - rr_min s) / ic) in *. rewrite Nat2Z.inj_mul, Nat2Z.inj_pow. change (Z.of_nat 2) with 2. split; [nia|].
  assert (q * Z.of_nat n0 + Z.of_nat n0 <= Z.of_nat n0 * 2 ^ Z.of_nat k) by nia. lia.
Qed.
Lemma relays_fill : forall c pos pad, number_rdl s ic n0 = Ok (c, pos) -> Z.of_nat n0 = ic + pad ->
  exists l1, rdl_relays s pos ic (2 ^ Z.of_nat k) n0 pad = Ok l1 /\ forall x, In x l1 -> exists g, x = Some g.
Proof.
  intros c pos pad EN HP. unfold rdl_relays. assert (PW : Z.to_nat (2 ^ Z.of_nat k) = (2 ^ k)%nat) by (change 2 with (Z.of_nat 2) at 1; rewrite <- Nat2Z.inj_pow, Nat2Z.id; reflexivity). rewrite PW.
  match goal with |- exists l1, bind (each ?f _ ?r0) _ = _ /\ _ => destruct (each_ok _ _ f (fun l row => length row = (n0 * 2 ^ k)%nat /\ forall e, In e l -> rg_pass (snd e) = true -> filled row (Z.to_nat (pos (fst e)))) (rr_m s) r0) as (row & E & LR & FR) end.
  - split; [apply repeat_length|intros e []].
  - intros m1 e m2 row Em [LR FR]. assert (He : In e (rr_m s)) by (rewrite Em; apply in_app_iff; right; left; reflexivity). destruct (entry_cases e He) as [(v & a & b & o & -> & Hp & Ho & EO)|(t & x & -> & Ht)]; cbn [rg_pass snd fst].
    + destruct (pass_pos c pos v a b o EN Hp Ho) as (_ & _ & B1 & B2). unfold idx. destruct (Z.ltb_spec (pos (kV v)) 0); [lia|]. cbn [bind]. apply returns_wr; [lia|]. split; [rewrite upd_length; exact LR|].
      intros e' He' Hp'. apply filled_upd; [lia|]. apply in_app_iff in He'. destruct He' as [He'|[<-|[]]]; [left; apply FR; assumption|right; reflexivity].
    + apply returns_ok. split; [exact LR|]. intros e' He' Hp'. apply in_app_iff in He'. destruct He' as [He'|[<-|[]]]; [apply FR; assumption|discriminate Hp'].
  - rewrite E. cbn [bind].
    set (P := fun (i jj : nat) (l : list (option sgate)) => length l = (n0 * 2 ^ k)%nat /\ (forall x, filled row x -> filled l x) /\
       forall r j, (r < 2 ^ k)%nat -> (j < n0)%nat -> ic <= Z.of_nat j -> (r < i)%nat \/ (r = i /\ Z.of_nat j < ic + Z.of_nat jj) -> filled l (r * n0 + j)).
    assert (NX : forall i jj l, Z.of_nat jj = pad -> P i jj l -> P (S i) 0%nat l).
    { intros i jj l Hj (P1 & P2 & P3). split; [exact P1|]. split; [exact P2|]. intros r j Hr Hj' Hi H. apply P3; [assumption|assumption|assumption|]. destruct H as [H|[_ H]]; [|lia]. assert (r < i \/ r = i)%nat as [|] by lia; [left; assumption|right; split; [assumption|lia]]. }
    match goal with |- exists l1, for_ ?n _ ?body _ = _ /\ _ => destruct (returns_for _ n 0%nat body (fun i l => P i 0%nat l) row) as (l1 & E2 & P1 & P2 & P3) end.
    + split; [exact LR|]. split; [intros x H; exact H|]. intros r j _ _ Hj H. lia.
    + intros i l Hi HPi. eapply returns_conseq; [|intros l' H; apply (NX i (0 + Z.to_nat pad)%nat l'); [lia|exact H]]. apply (returns_for _ _ _ _ (fun jj l => P i jj l)); [exact HPi|].
      intros jj l' Hjj (Q1 & Q2 & Q3). cbv zeta.
      assert (LE : Z.of_nat i * Z.of_nat n0 + Z.of_nat n0 <= Z.of_nat n0 * 2 ^ Z.of_nat k).
      { replace (Z.of_nat i * Z.of_nat n0 + Z.of_nat n0) with (Z.of_nat n0 * (Z.of_nat i + 1)) by ring. apply Z.mul_le_mono_nonneg_l; [lia|]. change 2 with (Z.of_nat 2) at 1. rewrite <- Nat2Z.inj_pow. lia. }
      assert (LE0 : 0 <= Z.of_nat i * Z.of_nat n0) by (apply Z.mul_nonneg_nonneg; lia).
      rewrite cast_int_id by lia. unfold idx. match goal with |- context [?z <? 0] => destruct (Z.ltb_spec z 0); [lia|]; assert (EI : Z.to_nat z = (i * n0 + (jj + Z.to_nat ic))%nat) by (rewrite <- Nat2Z.inj_mul; lia); rewrite EI end.
      cbn [bind]. assert (HL : (i * n0 + (jj + Z.to_nat ic) < length l')%nat) by (rewrite Q1; nia). apply returns_wr; [exact HL|]. split; [rewrite upd_length; exact Q1|]. split.
      * intros x Hx. apply filled_upd; [exact HL|left; apply Q2, Hx].
      * intros r j Hr Hj Hic HH. apply filled_upd; [exact HL|]. destruct (Nat.eq_dec (r * n0 + j) (i * n0 + (jj + Z.to_nat ic))) as [QE|NE]; [right; exact QE|]. left. apply Q3; [assumption|assumption|assumption|].
        destruct HH as [HH|[-> HH]]; [left; exact HH|right; split; [reflexivity|]]. assert (Z.of_nat j <> ic + Z.of_nat jj) by (intro QQ; apply NE; lia). lia.
    + exists l1. split; [exact E2|]. intros x Hx. apply In_nth_error in Hx. destruct Hx as (i & Hx). assert (Hi : (i < n0 * 2 ^ k)%nat) by (rewrite <- P1; apply nth_error_Some; rewrite Hx; discriminate).
      assert (FI : filled l1 i).
      { assert (N0P : (0 < n0)%nat) by lia. pose proof (Nat.div_mod i n0 ltac:(lia)) as DM. pose proof (Nat.mod_upper_bound i n0 ltac:(lia)) as MB. set (r := (i / n0)%nat) in *. set (j := (i mod n0)%nat) in *.
        assert (Hr : (r < 2 ^ k)%nat) by nia. replace i with (r * n0 + j)%nat by lia. destruct (Z.lt_ge_cases (Z.of_nat j) ic) as [Hj|Hj]; [|apply P3; [exact Hr|exact MB|exact Hj|left; lia]].
        assert (RZ : Z.of_nat r < 2 ^ Z.of_nat k) by (change 2 with (Z.of_nat 2) at 1; rewrite <- Nat2Z.inj_pow; lia).
        apply P2. assert (Ho : In (rr_min s + (Z.of_nat r * ic + Z.of_nat j)) (out_nums w)) by (apply out_all; nia). destruct (out_stmt _ Ho) as (v & Hv). destruct (proj2 WR _ Hv) as (a & b & Hp).
        destruct (pass_pos c pos v a b _ EN Hp Hv) as (He & EP & _). specialize (FR _ He eq_refl). cbn [fst] in FR. rewrite EP in FR.
        replace (rr_min s + (Z.of_nat r * ic + Z.of_nat j) - rr_min s) with (Z.of_nat j + Z.of_nat r * ic) in FR by ring. rewrite Z.div_add, Z.mod_add, Z.div_small, Z.mod_small in FR by lia.
        replace (Z.to_nat ((0 + Z.of_nat r) * Z.of_nat n0 + Z.of_nat j)) with (r * n0 + j)%nat in FR by (rewrite Z.add_0_l, <- Nat2Z.inj_mul; lia). exact FR. }
      destruct FI as (g & Hg). rewrite Hx in Hg. injection Hg as ->. exists g. reflexivity.
Qed.
End Fill.
