(** * The tests of one block, as equations between numbers *)
From Coq Require Import ZArith List Bool Arith Lia Ring.
From Verif Require Import Base Fp Program SpecCompiler SpecSha ShaBits ShaGen ShaSem LoaderProofs CompilerMaps.
Import ListNotations.
Open Scope Z_scope.

(** The variables of the inputs: words W, bits of W_1 .. W_63, K, H, Hout, bits of Hout,
    bits of the working variables, bits of a and e after each round. *)
Definition ranges (a : Z) (n m : nat) : list (list Z) := map (fun i => zrange (a + Z.of_nat m * Z.of_nat i) m) (seq 0 n).
Definition I0 : ins := Ins (zrange 34 64) (ranges 98 15 32 ++ ranges 578 48 34) (zrange 2210 64) (zrange 2274 8) (zrange 2282 8) (ranges 2290 8 33)
  (zrange 2554 32) (zrange 2586 32) (zrange 2618 32) (zrange 2650 32) (zrange 2682 32) (zrange 2714 32) (ranges 2746 64 35) (ranges 4986 64 35).
Lemma block_ins_eq : block_ins 34 = Ok (I0, (zrange 34 7192, []), 7226).
Proof. vm_compute. reflexivity. Qed.

(** The numbers the inputs stand for *)
Record wit := Wit {
  wz : nat -> Z; wbz : nat -> Z; kz : nat -> Z; hz : nat -> Z; oz : nat -> Z; hbz : nat -> Z;
  az : Z; bz : Z; cz : Z; ez : Z; fz' : Z; gz : Z; aoz : nat -> Z; eoz : nat -> Z }.
Fixpoint st (X : wit) (r : nat) : vars :=
  match r with
  | O => Vars (az X) (bz X) (cz X) (hz X 3) (ez X) (fz' X) (gz X) (hz X 7)
  | S r' => let s := st X r' in Vars (aoz X r' mod 2 ^ 32) (va s) (vb s) (vc s) (eoz X r' mod 2 ^ 32) (ve s) (vf s) (vg s)
  end.
Definition zero (x : Z) : Prop := ofZ x = 0%F.
Definition round_eqs (X : wit) (r : nat) : Prop :=
  zero (aoz X r - (T1 (st X r) (kz X r) (wz X r) + T2 (st X r))) /\ zero (eoz X r - (vd (st X r) + T1 (st X r) (kz X r) (wz X r))).
Definition sched (X : wit) (r : nat) : Z :=
  wz X (r - 16) + wz X (r - 7) + (sigma0 (wbz X (r - 15) mod 2 ^ 32) + sigma1 (wbz X (r - 2) mod 2 ^ 32)).
Definition eqs (X : wit) : Prop :=
  Forall (fun i => zero (wbz X i mod 2 ^ 32 - wz X i)) (seq 1 63) /\
  (zero (az X - hz X 0) /\ zero (bz X - hz X 1) /\ zero (cz X - hz X 2) /\ zero (ez X - hz X 4) /\ zero (fz' X - hz X 5) /\ zero (gz X - hz X 6)) /\
  Forall (fun i => zero (hbz X i mod 2 ^ 32 - oz X i)) (seq 0 8) /\
  Forall (fun r => zero (wbz X r - sched X r)) (seq 16 48) /\
  Forall (round_eqs X) (seq 0 64) /\
  Forall (fun i => zero (hbz X i - (nth i (list_of (st X 64)) 0 + hz X i))) (seq 0 8).

Section Values.
Context (val : Z -> F) (val0 : val 0 = 0%F).
Notation tri := (tri val).
Notation bitsn := (bitsn val).
Definition zeros (ts : list Z) : Prop := Forall (fun t => val t = 0%F) ts.
Lemma zeros_app : forall a b, zeros (a ++ b) <-> zeros a /\ zeros b.
Proof. intros a b. unfold zeros. apply Forall_app. Qed.
Lemma zeros_one : forall t x, val t = ofZ x -> (zeros [t] <-> zero x).
Proof. intros t x H. unfold zeros, zero. rewrite <- H. split; [intros Q; inversion Q; assumption|intros Q; constructor; [exact Q|constructor]]. Qed.

Section Wit.
Context (I : ins) (X : wit).
Record reads : Prop := {
  rd_W : forall i x, nth_error (i_W I) i = Some x -> val x = ofZ (wz X i);
  rd_Wb : forall i l, nth_error (i_Wb I) i = Some l -> bitsn (if (i <? 15)%nat then 32 else 34) l (wbz X (S i));
  rd_K : forall i x, nth_error (i_K I) i = Some x -> val x = ofZ (kz X i);
  rd_H : forall i x, nth_error (i_H I) i = Some x -> val x = ofZ (hz X i);
  rd_Ho : forall i x, nth_error (i_Ho I) i = Some x -> val x = ofZ (oz X i);
  rd_Hb : forall i l, nth_error (i_Hb I) i = Some l -> bitsn 33 l (hbz X i);
  rd_a : bitsn 32 (i_a I) (az X); rd_b : bitsn 32 (i_b I) (bz X); rd_c : bitsn 32 (i_c I) (cz X);
  rd_e : bitsn 32 (i_e I) (ez X); rd_f : bitsn 32 (i_f I) (fz' X); rd_g : bitsn 32 (i_g I) (gz X);
  rd_ao : forall i l, nth_error (i_ao I) i = Some l -> bitsn 35 l (aoz X i);
  rd_eo : forall i l, nth_error (i_eo I) i = Some l -> bitsn 35 l (eoz X i) }.
Context (R : reads).

Lemma rd_Wb32 : forall i l, nth_error (i_Wb I) i = Some l -> bitsn 32 (firstn 32 l) (wbz X (S i) mod 2 ^ 32).
Proof. intros i l H. apply (rd_Wb R) in H. apply (bitsn_low val _ _ _ 32) in H; [exact H|]. destruct (i <? 15)%nat; lia. Qed.
Lemma tri_w32 : forall i, (1 <= i)%nat -> tri (glift (w32 I i)) (fun l => bitsn 32 l (wbz X i mod 2 ^ 32)).
Proof.
  intros i Hi. apply tri_lift. intros a E. unfold w32 in E. apply bind_inv in E. destruct E as (l & El & E). apply rd_inv in El. apply Ok_inj in E. subst a.
  apply rd_Wb32 in El. replace (S (i - 1)) with i in El by lia. exact El.
Qed.
Ltac step H := eapply tri_bind; [apply H|cbn beta].
Lemma tri_schedule : forall r, (16 <= r < 64)%nat -> tri (schedule I r) (fun t => val t = ofZ (wbz X r - sched X r)).
Proof.
  intros r Hr. unfold schedule.
  eapply tri_bind; [apply (tri_w32 (r - 15)); lia|cbn beta]. intros x Hx.
  eapply tri_bind; [apply (tri_sigma0 val x _ val0 Hx)|cbn beta]. intros s0b Hs0b.
  eapply tri_bind; [apply (tri_w32 (r - 2)); lia|cbn beta]. intros y Hy.
  eapply tri_bind; [apply (tri_sigma1 val y _ val0 Hy)|cbn beta]. intros s1b Hs1b.
  eapply tri_bind; [apply (tri_add val _ _ _ Hs0b)|cbn beta]. intros s0 Hs0.
  eapply tri_bind; [apply (tri_add val _ _ _ Hs1b)|cbn beta]. intros s1 Hs1.
  eapply tri_bind; [apply (tri_plus val _ _ _ _ Hs0 Hs1)|cbn beta]. intros u Hu.
  eapply tri_bind; [apply tri_rd; exact (rd_W R (r - 16))|cbn beta]. intros w16 Hw16.
  eapply tri_bind; [apply tri_rd; exact (rd_W R (r - 7))|cbn beta]. intros w7 Hw7.
  eapply tri_bind; [apply (tri_plus val _ _ _ _ Hw16 Hw7)|cbn beta]. intros u' Hu'.
  eapply tri_bind; [apply (tri_plus val _ _ _ _ Hu' Hu)|cbn beta]. intros wi Hwi.
  eapply tri_bind; [apply tri_rd; exact (rd_Wb R (r - 1))|cbn beta]. intros l Hl.
  replace (S (r - 1)) with r in Hl by lia. apply (tri_test val _ _ _ _ _ Hl Hwi).
Qed.

(** The variables of a state stand for [S]. *)
Record rel (s : rstate) (S : vars) : Prop := {
  rel_a : bitsn 32 (firstn 32 (r_a s)) (va S); rel_b : bitsn 32 (firstn 32 (r_b s)) (vb S); rel_c : bitsn 32 (firstn 32 (r_c s)) (vc S);
  rel_e : bitsn 32 (firstn 32 (r_e s)) (ve S); rel_f : bitsn 32 (firstn 32 (r_f s)) (vf S); rel_g : bitsn 32 (firstn 32 (r_g s)) (vg S);
  rel_fa : val (f_a s) = ofZ (va S); rel_fb : val (f_b s) = ofZ (vb S); rel_fc : val (f_c s) = ofZ (vc S); rel_fd : val (f_d s) = ofZ (vd S);
  rel_fe : val (f_e s) = ofZ (ve S); rel_ff : val (f_f s) = ofZ (vf S); rel_fg : val (f_g s) = ofZ (vg S); rel_fh : val (f_h s) = ofZ (vh S) }.
Lemma tri_round : forall r s, rel s (st X r) ->
  tri (round_ I r s) (fun '(s', ts) => rel s' (st X (S r)) /\ (zeros ts <-> round_eqs X r)).
Proof.
  intros r s [A B C E F' G fa fb fc fd fe' ff fg fh]. unfold round_. set (S := st X r) in *.
  eapply tri_bind; [apply (tri_Sigma0 val _ _ A)|cbn beta]. intros S0b HS0b.
  eapply tri_bind; [apply (tri_Sigma1 val _ _ E)|cbn beta]. intros S1b HS1b.
  eapply tri_bind; [apply (tri_Maj val _ _ _ _ _ _ A B C)|cbn beta]. intros Mb HMb.
  eapply tri_bind; [apply (tri_Ch val _ _ _ _ _ _ E F' G)|cbn beta]. intros Cb HCb.
  eapply tri_bind; [apply (tri_add val _ _ _ HS0b)|cbn beta]. intros S0 HS0.
  eapply tri_bind; [apply (tri_add val _ _ _ HS1b)|cbn beta]. intros S1 HS1.
  eapply tri_bind; [apply (tri_add val _ _ _ HMb)|cbn beta]. intros M HM.
  eapply tri_bind; [apply (tri_add val _ _ _ HCb)|cbn beta]. intros C' HC.
  eapply tri_bind; [apply (tri_plus val _ _ _ _ HS0 HM)|cbn beta]. intros t2 Ht2.
  eapply tri_bind; [apply (tri_plus val _ _ _ _ HS1 HC)|cbn beta]. intros t1 Ht1.
  eapply tri_bind; [apply tri_rd; exact (rd_K R r)|cbn beta]. intros k Hk.
  eapply tri_bind; [apply tri_rd; exact (rd_W R r)|cbn beta]. intros w Hw.
  eapply tri_bind; [apply (tri_plus val _ _ _ _ Hk Hw)|cbn beta]. intros kiwi Hkw.
  eapply tri_bind; [apply (tri_plus val _ _ _ _ fd fh)|cbn beta]. intros dh Hdh.
  eapply tri_bind; [apply (tri_plus val _ _ _ _ Hkw Hdh)|cbn beta]. intros x Hx.
  eapply tri_bind; [apply (tri_plus val _ _ _ _ Hx Ht1)|cbn beta]. intros en Hen.
  eapply tri_bind; [apply (tri_plus val _ _ _ _ Ht2 fh)|cbn beta]. intros y Hy.
  eapply tri_bind; [apply (tri_plus val _ _ _ _ Hy Hkw)|cbn beta]. intros y' Hy'.
  eapply tri_bind; [apply (tri_plus val _ _ _ _ Hy' Ht1)|cbn beta]. intros an Han.
  eapply tri_bind; [apply tri_rd; exact (rd_ao R r)|cbn beta]. intros ao Hao.
  eapply tri_bind; [apply tri_rd; exact (rd_eo R r)|cbn beta]. intros eo Heo.
  eapply tri_bind; [apply (tri_test val _ _ _ _ _ Hao Han)|cbn beta]. intros ta Hta.
  eapply tri_bind; [apply (tri_test val _ _ _ _ _ Heo Hen)|cbn beta]. intros te Hte.
  pose proof (bitsn_low val _ _ _ 32 Hao ltac:(lia)) as Lao. pose proof (bitsn_low val _ _ _ 32 Heo ltac:(lia)) as Leo.
  eapply tri_bind; [apply (tri_add val _ _ _ Leo)|cbn beta]. intros fe2 Hfe2.
  eapply tri_bind; [apply (tri_add val _ _ _ Lao)|cbn beta]. intros fa2 Hfa2.
  apply tri_ret. split.
  - cbn [st]. fold S. constructor; cbn; assumption.
  - change [ta; te] with ([ta] ++ [te]). rewrite zeros_app, (zeros_one _ _ Hta), (zeros_one _ _ Hte). unfold round_eqs. fold S. unfold T1, T2.
    assert (Q : forall a b c d, a = b -> c = d -> (zero a /\ zero c <-> zero b /\ zero d)) by (intros a b c d -> ->; reflexivity).
    apply Q; ring.
Qed.
Lemma tri_rounds : forall s, rel s (st X 0) ->
  tri (gfor 64 0 (fun r '(s, ts) => ' (s, t) <~ round_ I r s ;; gret (s, ts ++ t)) (s, []))
    (fun '(s, ts) => rel s (st X 64) /\ (zeros ts <-> Forall (round_eqs X) (seq 0 64))).
Proof.
  intros s Hs. apply (tri_for val _ (fun r '(s, ts) => rel s (st X r) /\ (zeros ts <-> Forall (round_eqs X) (seq 0 r)))).
  - intros r (s' & ts) _ (H1 & H2). eapply tri_bind; [apply tri_round; exact H1|cbn beta]. intros (s'' & t) (H3 & H4). apply tri_ret. split; [exact H3|].
    rewrite seq_S, Forall_app, zeros_app, H2, H4, Nat.add_0_l. split; intros (Q1 & Q2); (split; [exact Q1|]); [repeat constructor; apply Q2|inversion Q2; assumption].
  - split; [exact Hs|]. split; intros _; constructor.
Qed.
Lemma verify_zero : forall l bl, bitv val l bl -> tri (verify_bits l) zeros.
Proof.
  intros l bl H. unfold verify_bits. eapply tri_mono.
  - apply (tri_map val _ _ _ (fun _ t => val t = 0%F)). intros x Hx. apply tri_emit. intros t Ht. cbn [holds op_val] in Ht. rewrite Ht.
    assert (Q : exists b, val x = ind b).
    + unfold bitv in H. apply (in_map val) in Hx. rewrite H in Hx. apply in_map_iff in Hx. destruct Hx as (b & <- & _). exists b. reflexivity.
    + destruct Q as (b & ->). destruct b; cbn [ind]; ring.
  - intros ts Hts. clear H. unfold zeros. induction Hts; constructor; assumption.
Qed.
Lemma verify_bitsn : forall n l x, bitsn n l x -> tri (verify_bits l) zeros.
Proof. intros n l x (bl & H & _). exact (verify_zero l bl H). Qed.
Lemma tri_check_words : tri (check_words I) (fun '(bt, rt) => zeros bt /\ (zeros rt <-> Forall (fun i => zero (wbz X i mod 2 ^ 32 - wz X i)) (seq 1 63))).
Proof.
  apply (tri_for val _ (fun r '(bt, rt) => zeros bt /\ (zeros rt <-> Forall (fun i => zero (wbz X i mod 2 ^ 32 - wz X i)) (seq 1 (r - 1))))).
  - intros i (bt & rt) Hi (H1 & H2). eapply tri_bind; [apply tri_rd; intros l Hl; exact (conj (rd_Wb R _ _ Hl) (rd_Wb32 _ _ Hl))|cbn beta]. intros l (Hl & Hl').
    eapply tri_bind; [apply (verify_bitsn _ _ _ Hl)|cbn beta]. intros tmp Htmp.
    eapply tri_bind; [apply tri_rd; exact (rd_W R i)|cbn beta]. intros w Hw.
    eapply tri_bind; [apply (tri_test val _ _ _ _ _ Hl' Hw)|cbn beta]. intros t Ht. apply tri_ret. split; [apply zeros_app; auto|].
    replace (S (i - 1)) with i in * by lia. replace (S i - 1)%nat with (S (i - 1)) by lia. rewrite seq_S, Forall_app, zeros_app, H2, (zeros_one _ _ Ht). replace (1 + (i - 1))%nat with i by lia.
    split; intros (Q1 & Q2); (split; [exact Q1|]); [repeat constructor; apply Q2|inversion Q2; assumption].
  - split; [constructor|]. split; intros _; constructor.
Qed.
Lemma tri_check_bits : tri (check_bits I) zeros.
Proof.
  unfold check_bits. eapply tri_bind.
  - apply (tri_map val _ _ _ (fun _ => zeros)). intros l Hl. apply in_app_iff in Hl. destruct Hl as [Hl|Hl].
    + apply In_nth_error in Hl. destruct Hl as (i & Hi). exact (verify_bitsn _ _ _ (rd_Hb R _ _ Hi)).
    + apply in_app_iff in Hl. destruct Hl as [Hl|Hl].
      * cbn [In] in Hl. destruct R as [_ _ _ _ _ _ A B C E F' G _ _]. destruct Hl as [<-|[<-|[<-|[<-|[<-|[<-|[]]]]]]]; eapply verify_bitsn; eassumption.
      * apply in_app_iff in Hl. destruct Hl as [Hl|Hl]; apply In_nth_error in Hl; destruct Hl as (i & Hi); [exact (verify_bitsn _ _ _ (rd_ao R _ _ Hi))|exact (verify_bitsn _ _ _ (rd_eo R _ _ Hi))].
  - cbn beta. intros ls H. apply tri_ret. unfold zeros in *. induction H as [|x y l l' Hy H IH]; cbn [concat]; [constructor|]. apply Forall_app. auto.
Qed.
End Wit.

Lemma tri_map_idx : forall (A : Type) (f : A -> gen Z) (C : nat -> Prop) l, (forall i x, nth_error l i = Some x -> tri (f x) (fun t => val t = 0%F <-> C i)) ->
  tri (gmap f l) (fun ts => zeros ts <-> Forall C (seq 0 (0 + length l))).
Proof.
  intros A f C l. rewrite Nat.add_0_l.
  assert (Q : forall k, (forall i x, nth_error l i = Some x -> tri (f x) (fun t => val t = 0%F <-> C (k + i)%nat)) -> tri (gmap f l) (fun ts => zeros ts <-> Forall C (seq k (length l)))).
  - induction l as [|x l IH]; intros k H; cbn [gmap length seq].
    + apply tri_ret. split; intros _; constructor.
    + eapply tri_bind; [apply (H O); reflexivity|cbn beta]. intros y Hy. rewrite Nat.add_0_r in Hy. eapply tri_bind; [apply (IH (S k))|cbn beta].
      * intros i z Hi. replace (S k + i)%nat with (k + S i)%nat by lia. apply H. exact Hi.
      * intros ys Hys. apply tri_ret. unfold zeros in *. rewrite !Forall_cons_iff, Hy, Hys. reflexivity.
  - intros H. apply (Q O). exact H.
Qed.
Lemma combine_nth_error : forall A B (l : list A) (m : list B) i x y, nth_error (combine l m) i = Some (x, y) -> nth_error l i = Some x /\ nth_error m i = Some y.
Proof.
  intros A B. induction l as [|a l IH]; intros [|b m] [|i] x y H; cbn in *; try discriminate H; [injection H as -> ->; auto|]. exact (IH _ _ _ _ H).
Qed.
Lemma tri_block : forall X, reads I0 X -> tri (block_tests I0) (fun ts => zeros ts <-> eqs X).
Proof.
  intros X R. unfold block_tests.
  eapply tri_bind; [apply tri_rd; exact (rd_H _ _ R 3)|cbn beta]. intros d Hd.
  eapply tri_bind; [apply tri_rd; exact (rd_H _ _ R 7)|cbn beta]. intros h Hh.
  eapply tri_bind; [apply (tri_add val _ _ _ (rd_a _ _ R))|cbn beta]. intros a Ha.
  eapply tri_bind; [apply (tri_add val _ _ _ (rd_b _ _ R))|cbn beta]. intros b Hb.
  eapply tri_bind; [apply (tri_add val _ _ _ (rd_c _ _ R))|cbn beta]. intros c Hc.
  eapply tri_bind; [apply (tri_add val _ _ _ (rd_e _ _ R))|cbn beta]. intros e He.
  eapply tri_bind; [apply (tri_add val _ _ _ (rd_f _ _ R))|cbn beta]. intros f Hf.
  eapply tri_bind; [apply (tri_add val _ _ _ (rd_g _ _ R))|cbn beta]. intros g Hg.
  eapply tri_bind; [apply (tri_check_words I0 X R)|cbn beta]. intros (bt1 & rt1) (B1 & Q1).
  eapply tri_bind; [apply (tri_check_bits I0 X R)|cbn beta]. intros bt2 B2.
  pose proof (rd_H _ _ R) as RH. pose proof (rd_Ho _ _ R) as RO. pose proof (rd_Hb _ _ R) as RB.
  eapply (tri_bind _ _ _ _ _ (fun ts => zeros ts <-> (zero (az X - hz X 0) /\ zero (bz X - hz X 1) /\ zero (cz X - hz X 2) /\ zero (ez X - hz X 4) /\ zero (fz' X - hz X 5) /\ zero (gz X - hz X 6)))).
  { change (firstn 3 (i_H I0) ++ firstn 3 (skipn 4 (i_H I0))) with [2274; 2275; 2276; 2278; 2279; 2280]. cbn [combine gmap]. unfold test_field_field.
    assert (D : forall u v y z, val u = ofZ y -> val v = ofZ z -> tri (emit (fun t => Op OMinus t u v)) (fun t => val t = ofZ (y - z))).
    { intros u v y z Hu Hv. apply tri_emit. intros t Ht. cbn [holds op_val] in Ht. rewrite Ht, Hu, Hv, ofZ_sub. reflexivity. }
    eapply tri_bind; [apply (D _ _ _ _ Ha (RH 0%nat _ eq_refl))|cbn beta]. intros t0 T0'.
    eapply tri_bind; [|intros ts Hts; apply tri_ret; exact Hts].
    eapply tri_bind; [apply (D _ _ _ _ Hb (RH 1%nat _ eq_refl))|cbn beta]. intros t1 T1'.
    eapply tri_bind; [|intros ts Hts; apply tri_ret; exact Hts].
    eapply tri_bind; [apply (D _ _ _ _ Hc (RH 2%nat _ eq_refl))|cbn beta]. intros t2 T2'.
    eapply tri_bind; [|intros ts Hts; apply tri_ret; exact Hts].
    eapply tri_bind; [apply (D _ _ _ _ He (RH 4%nat _ eq_refl))|cbn beta]. intros t3 T3'.
    eapply tri_bind; [|intros ts Hts; apply tri_ret; exact Hts].
    eapply tri_bind; [apply (D _ _ _ _ Hf (RH 5%nat _ eq_refl))|cbn beta]. intros t4 T4'.
    eapply tri_bind; [|intros ts Hts; apply tri_ret; exact Hts].
    eapply tri_bind; [apply (D _ _ _ _ Hg (RH 6%nat _ eq_refl))|cbn beta]. intros t5 T5'.
    eapply tri_bind; [|intros ts Hts; apply tri_ret; exact Hts].
    apply tri_ret. unfold zeros. rewrite !Forall_cons_iff, T0', T1', T2', T3', T4', T5'. unfold zero. intuition constructor. }
  intros rt2 Q2.
  eapply (tri_bind _ _ _ _ _ (fun ts => zeros ts <-> Forall (fun i => zero (hbz X i mod 2 ^ 32 - oz X i)) (seq 0 8))).
  { change 8%nat with (0 + length (combine (i_Hb I0) (i_Ho I0)))%nat. apply tri_map_idx. intros i (l & o) Hi. apply combine_nth_error in Hi. destruct Hi as (Hl & Ho).
    eapply tri_mono; [apply (tri_test val _ _ _ _ _ (bitsn_low val _ _ _ 32 (RB i l Hl) ltac:(lia)) (RO i o Ho))|]. intros t Ht. cbn beta in Ht. rewrite Ht. reflexivity. }
  intros rt3 Q3.
  eapply (tri_bind _ _ _ _ _ (fun ts => zeros ts <-> Forall (fun r => zero (wbz X r - sched X r)) (seq 16 48))).
  { eapply tri_mono; [apply (tri_map val _ _ _ (fun r t => val t = ofZ (wbz X r - sched X r))); intros r Hr; apply in_seq in Hr; apply (tri_schedule I0 X R); lia|].
    intros ts Hts. unfold zeros. induction Hts as [|x y l l' Hy H' IH]; [split; constructor|]. rewrite !Forall_cons_iff, Hy, IH. reflexivity. }
  intros rt4 Q4.
  eapply tri_bind; [apply (tri_rounds I0 X R)|cbn beta].
  { constructor; cbn [r_a r_b r_c r_e r_f r_g f_a f_b f_c f_d f_e f_f f_g f_h st va vb vc vd ve vf vg vh]; try assumption.
    - rewrite (bitsn_same val _ _ _ (rd_a _ _ R)). exact (rd_a _ _ R).
    - rewrite (bitsn_same val _ _ _ (rd_b _ _ R)). exact (rd_b _ _ R).
    - rewrite (bitsn_same val _ _ _ (rd_c _ _ R)). exact (rd_c _ _ R).
    - rewrite (bitsn_same val _ _ _ (rd_e _ _ R)). exact (rd_e _ _ R).
    - rewrite (bitsn_same val _ _ _ (rd_f _ _ R)). exact (rd_f _ _ R).
    - rewrite (bitsn_same val _ _ _ (rd_g _ _ R)). exact (rd_g _ _ R). }
  intros (s & rt5) (RS & Q5).
  eapply (tri_bind _ _ _ _ _ (fun ts => zeros ts <-> Forall (fun i => zero (hbz X i - (nth i (list_of (st X 64)) 0 + hz X i))) (seq 0 8))).
  { change 8%nat with (0 + length (combine (combine [f_a s; f_b s; f_c s; f_d s; f_e s; f_f s; f_g s; f_h s] (i_H I0)) (i_Hb I0)))%nat. apply tri_map_idx. intros i ((x & hh) & l) Hi.
    apply combine_nth_error in Hi. destruct Hi as (Hi & Hl). apply combine_nth_error in Hi. destruct Hi as (Hx & Hhh).
    assert (Vx : val x = ofZ (nth i (list_of (st X 64)) 0)).
    { destruct RS as [_ _ _ _ _ _ fa fb fc fd fe' ff fg fh]. unfold list_of. do 8 (destruct i as [|i]; [injection Hx as <-; cbn [nth]; assumption|]). destruct i; discriminate Hx. }
    eapply tri_bind; [apply (tri_plus val _ _ _ _ Vx (RH i hh Hhh))|cbn beta]. intros t Ht.
    eapply tri_mono; [apply (tri_test val _ _ _ _ _ (RB i l Hl) Ht)|]. intros t' Ht'. cbn beta in Ht'. rewrite Ht'. reflexivity. }
  intros rt6 Q6. apply tri_ret. rewrite !zeros_app, Q1, Q2, Q3, Q4, Q5, Q6. unfold eqs. tauto.
Qed.
End Values.
