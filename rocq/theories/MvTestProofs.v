(** * Proofs about the commitment of multivariate_test.cpp *)
From Coq Require Import ZArith List Bool Arith Lia Ring.
From Verif Require Import Base Limbs Field FieldProofs Fp ArithProofs MleSpec SpecVpd VpdGroup VpdGroupProofs MvTest.
Import ListNotations.
Open Scope nat_scope.

(** ** Arrays with entries of given properties *)
Definition arrp {A} (l : list A) (n : nat) (Q : nat -> A -> Prop) : Prop :=
  n <= length l /\ forall i, i < n -> exists x, nth_error l i = Some x /\ Q i x.
Lemma rb_arrp : forall A B (l : list A) n Q i (k : A -> outcome B) R,
  arrp l n Q -> i < n -> (forall x, nth_error l i = Some x -> Q i x -> returns (k x) R) -> returns (bind (rd l i) k) R.
Proof.
  intros A B l n Q i k R [_ H] L K. destruct (H i L) as (x & E & q).
  eapply returns_bind; [eapply (returns_rd _ _ _ _ (eq x)); [exact E|reflexivity]|]. intros a <-. apply K; assumption.
Qed.
Lemma arr_arrp : forall A (l : list A) n f, arr l n f -> arrp l n (fun i x => x = f i).
Proof. intros A l n f [L H]. split; [exact L|]. intros i Hi. exists (f i). split; [apply H, Hi|reflexivity]. Qed.
Lemma arrp_arr : forall A (l : list A) n f, arrp l n (fun i x => x = f i) -> arr l n f.
Proof. intros A l n f [L H]. split; [exact L|]. intros i Hi. destruct (H i Hi) as (x & E & ->). exact E. Qed.
Lemma arrp_le : forall A (l : list A) n m Q, arrp l n Q -> m <= n -> arrp l m Q.
Proof. intros A l n m Q [L H] E. split; [lia|]. intros i Hi. apply H. lia. Qed.
Lemma arrp_snoc : forall A (l : list A) n Q x, arrp l n Q -> length l = n -> Q n x -> arrp (l ++ [x]) (S n) Q.
Proof.
  intros A l n Q x [L H] E q. split; [rewrite app_length; simpl; lia|]. intros j Hj.
  destruct (Nat.eq_dec j n) as [->|N].
  - exists x. split; [|exact q]. rewrite nth_error_app2 by lia. rewrite E, Nat.sub_diag. reflexivity.
  - destruct (H j) as (y & Ey & qy); [lia|]. exists y. split; [|exact qy]. rewrite nth_error_app1 by lia. exact Ey.
Qed.

(** ** Signed representatives *)
Definition srep (a : F) (z : Z) : Prop := ofZ z = a /\ (- P < z < P)%Z.
Lemma rem_bound : forall z, (- P < Z.rem z P < P)%Z.
Proof. intro z. pose proof P_pos. pose proof (Z.rem_bound_abs z P). lia. Qed.
Lemma ofZ_rem : forall z, ofZ (Z.rem z P) = ofZ z.
Proof.
  intro z. pose proof P_nz. rewrite (Z.quot_rem' z P) at 2. rewrite ofZ_add, ofZ_mul, ofZ_P. ring.
Qed.
Lemma srep_rem : forall z a, ofZ z = a -> srep a (Z.rem z P).
Proof. intros z a E. split; [rewrite ofZ_rem; exact E|apply rem_bound]. Qed.
Lemma fix_neg_srep : forall z a, srep a z -> fix_neg_z z = fz a.
Proof.
  intros z a [<- B]. unfold fix_neg_z. destruct (Z.ltb_spec z 0).
  - rewrite <- (fz_ofZ_small (z + P)) by lia. f_equal. rewrite ofZ_add, ofZ_P. ring.
  - symmetry. apply fz_ofZ_small. lia.
Qed.
Lemma ofZ_fix_neg : forall z, ofZ (fix_neg_z z) = ofZ z.
Proof. intro z. unfold fix_neg_z. destruct (z <? 0)%Z; [rewrite ofZ_add, ofZ_P; ring|reflexivity]. Qed.

(** ** Doubling tables of any length *)
Lemma doublings_arr : forall n g, arr (doublings n g) n (fun i => (g * ofZ (2 ^ Z.of_nat i))%F).
Proof.
  intros n g.
  assert (L : forall n x, length (doublings n x) = n) by (induction n0; intro x; simpl; auto).
  split; [rewrite L; lia|]. clear L. revert g.
  induction n; intros x i Hi; [lia|]. destruct i as [|i]; cbn [doublings nth_error].
  - f_equal. change (Z.of_nat 0) with 0%Z. change (2 ^ 0)%Z with 1%Z. change (ofZ 1) with 1%F. ring.
  - rewrite IHn by lia. f_equal. rewrite two_pow_S, ofZ_mul. change (ofZ 2) with (1 + 1)%F. ring.
Qed.
Lemma pre_exp_table : forall m g n, 1 <= m -> (0 <= n < 2 ^ Z.of_nat m)%Z -> pre_exp (doublings m g) n = Ok (g * ofZ n)%F.
Proof.
  intros m g n Hm Hn. apply returns_eq_ok. unfold pre_exp. pose proof (doublings_arr m g) as A.
  eapply rb_arr; [exact A|lia|].
  assert (S5 : sizeinbase2 n <= m) by (apply size_le; [exact Hn|lia]).
  eapply returns_conseq.
  - apply (returns_for _ _ _ _ (fun i t => t = (g * ofZ (n mod 2 ^ Z.of_nat i))%F)).
    + rewrite gmul_0. change (2 ^ Z.of_nat 0)%Z with 1%Z. rewrite Z.mod_1_r. change (ofZ 0) with 0%F. ring.
    + intros i t Hi ->. rewrite mod_pow_S by lia. destruct (Z.testbit n (Z.of_nat i)).
      * eapply rb_arr; [exact A|lia|]. apply returns_ok. rewrite ofZ_add. ring.
      * apply returns_ok. rewrite Z.add_0_r. reflexivity.
  - intros t ->. rewrite Z.mod_small; [reflexivity|]. split; [lia|]. apply size_bound. lia.
Qed.
Lemma two254 : (2 ^ Z.of_nat scalar_bits = 2 ^ 254)%Z.
Proof. reflexivity. Qed.
Lemma pre_exp_254 : forall g a, pre_exp (doublings scalar_bits g) (fz a) = Ok (g * a)%F.
Proof.
  intros g a. rewrite pre_exp_table; [rewrite ofZ_fz; reflexivity|unfold scalar_bits; lia|].
  rewrite two254. split; [apply fz_pos|apply fz_lt_254].
Qed.

(** ** [multi_scalar] *)
Definition pair_sums (f : nat -> F) (j : nat) : F := (f (2 * j)%nat + f (2 * j + 1)%nat)%F.
(** The code combines the scalars in pairs; an unpaired last scalar is not used. *)
Lemma V_multi_scalar_ok : forall pub pre e pf, let h := length e / 2 in
  arr pub (2 * h) pf -> arr pre h (pair_sums pf) -> (forall k, k < 2 * h -> (0 <= nth k e 0 < 2 ^ 254)%Z) ->
  V_multi_scalar pub pre e = Ok (sumn (2 * h) (fun k => pf k * ent e k)%F).
Proof.
  intros pub pre e pf h Ap Apre He. apply returns_eq_ok. unfold V_multi_scalar, W_window. fold h.
  assert (Lh : 2 * h <= length e) by (unfold h; pose proof (Nat.div_mod (length e) 2); lia).
  assert (Ae : arr e (2 * h) (fun k => nth k e 0%Z)).
  { split; [exact Lh|]. intros k Hk. apply nth_error_nth'. lia. }
  set (T := fun i => sumn (2 * h) (fun k => pf k * ofZ (nth k e 0%Z / 2 ^ Z.of_nat i))%F).
  eapply returns_conseq.
  - apply (returns_for _ _ _ _ (fun ii t => t = if ii =? scalar_bits then T 0 else (T (scalar_bits - ii)%nat * ofZ 2)%F)).
    + change (0 =? scalar_bits) with false. cbv iota. rewrite gmul_0. unfold T. rewrite sumn_zero'; [ring|].
      intros k Hk. rewrite Z.div_small by apply He, Hk. change (ofZ 0) with 0%F. ring.
    + intros ii t Hii ->. unfold scalar_bits in *. replace (ii =? 254) with false by (symmetry; apply Nat.eqb_neq; lia).
      set (i := 254 - 1 - ii). replace (254 - ii) with (S i) by lia.
      apply (returns_bind _ _ _ _ (fun t => t = T i)).
      { eapply returns_conseq.
        - apply (returns_for _ _ _ _ (fun j t => t = (T (S i) * ofZ 2
            + sumn (2 * j) (fun k => pf k * ind (Z.testbit (nth k e 0%Z) (Z.of_nat i))))%F)).
          + change (2 * 0) with 0. cbn [sumn]. ring.
          + intros j t Hj ->. rewrite !(Nat.mul_comm j 2).
            eapply rb_arr; [exact Ae|lia|]. eapply rb_arr; [exact Ae|lia|]. cbv zeta.
            replace (2 * S j) with (2 * j + 2) by lia. rewrite sumn_app. cbn [sumn].
            rewrite Nat.add_0_r.
            destruct (Z.testbit (nth (2 * j + 1) e 0%Z) (Z.of_nat i)), (Z.testbit (nth (2 * j) e 0%Z) (Z.of_nat i)); cbn [Nat.b2n ind];
              [change (1 * 2 + 1) with 3|change (1 * 2 + 0) with 2|change (0 * 2 + 1) with 1|change (0 * 2 + 0) with 0]; cbv iota.
            * eapply rb_arr; [exact Apre|lia|]. apply returns_ok. unfold pair_sums. ring.
            * eapply rb_arr; [exact Ap|lia|]. apply returns_ok. ring.
            * eapply rb_arr; [exact Ap|lia|]. apply returns_ok. ring.
            * apply returns_ok. ring.
        - intros t ->. unfold T. rewrite <- sumn_scal_r, <- sumn_add. apply sumn_ext. intros k Hk. cbn [Nat.add].
          rewrite (div2_pow_step (nth k e 0%Z) i) by (apply He, Hk). unfold bit.
          rewrite ofZ_add, ofZ_mul. destruct (Z.testbit (nth k e 0%Z) (Z.of_nat i)); cbn [ind];
            [change (ofZ 1) with 1%F|change (ofZ 0) with 0%F]; ring. }
      intros t ->. apply returns_ok. destruct (Nat.eqb_spec i 0) as [E|E].
      * replace (S ii =? 254) with true by (symmetry; apply Nat.eqb_eq; lia). rewrite E. reflexivity.
      * replace (S ii =? 254) with false by (symmetry; apply Nat.eqb_neq; lia). reflexivity.
  - intros t ->. change (0 + scalar_bits =? scalar_bits) with true. cbv iota. unfold T. apply sumn_ext. intros k Hk. cbv beta.
    change (2 ^ Z.of_nat 0)%Z with 1%Z. rewrite Z.div_1_r. reflexivity.
Qed.

(** ** Key generation *)
(** Weight of index [x] of level [i]: the last [i] coordinates of the secret. *)
Definition wt (s : list F) (i x : nat) : F := eqw (skipn (length s - i) s) x.
Lemma skipn_nth : forall (s : list F) k, k < length s -> skipn k s = nth k s 0%F :: skipn (S k) s.
Proof.
  induction s as [|a s IH]; intros k H; [simpl in H; lia|]. destruct k; [reflexivity|].
  simpl in H. cbn [nth]. change (skipn (S k) (a :: s)) with (skipn k s). rewrite IH by lia. reflexivity.
Qed.
Lemma wt_0 : forall s x, wt s 0 x = 1%F.
Proof. intros s x. unfold wt. rewrite Nat.sub_0_r, skipn_all. reflexivity. Qed.
Lemma wt_skip : forall s i, 1 <= i <= length s ->
  skipn (length s - i) s = nth (length s - i) s 0%F :: skipn (length s - (i - 1)) s.
Proof. intros s i H. rewrite skipn_nth by lia. do 2 f_equal. lia. Qed.
Lemma wt_odd : forall s i j, 1 <= i <= length s -> wt s i (2 * j + 1) = (nth (length s - i) s 0 * wt s (i - 1) j)%F.
Proof. intros s i j H. unfold wt. rewrite wt_skip by exact H. apply eqw_21. Qed.
Lemma wt_even : forall s i j, 1 <= i <= length s -> wt s i (2 * j) = ((1 - nth (length s - i) s 0) * wt s (i - 1) j)%F.
Proof. intros s i j H. unfold wt. rewrite wt_skip by exact H. apply eqw_2. Qed.

Definition row_ok {A} (Q : nat -> nat -> A -> Prop) (i : nat) (row : list A) : Prop :=
  length row = 2 ^ i /\ arrp row (2 ^ i) (Q i).
Lemma pair_split : forall j x, x < 2 * S j -> x < 2 * j \/ x = 2 * j \/ x = 2 * j + 1.
Proof. intros. lia. Qed.
Lemma row_step : forall A (row : list A) (Q : nat -> A -> Prop) j x y, 2 * j + 1 < length row -> arrp row (2 * j) Q ->
  Q (2 * j + 1) x -> Q (2 * j) y -> arrp (upd (upd row (2 * j + 1) x) (2 * j) y) (2 * S j) Q.
Proof.
  intros A row Q j x y L [_ H] qx qy. split; [rewrite !upd_length; lia|]. intros i Hi.
  destruct (Nat.eq_dec i (2 * j)) as [->|N1].
  - exists y. split; [apply nth_upd_same; rewrite upd_length; lia|exact qy].
  - rewrite nth_upd_other by congruence. destruct (Nat.eq_dec i (2 * j + 1)) as [->|N2].
    + exists x. split; [apply nth_upd_same; lia|exact qx].
    + rewrite nth_upd_other by congruence. apply H. lia.
Qed.

Section Key.
Variables (s : list F).
Let D := length s.

Lemma V_vars_ok : returns (V_vars D (map fz s)) (fun vars => length vars = S D /\
  arrp vars (S D) (row_ok (fun i x => srep (wt s i x)))).
Proof.
  unfold V_vars.
  assert (As : arr (map fz s) D (fun i => fz (nth i s 0%F))).
  { split; [rewrite map_length; reflexivity|]. intros i Hi. rewrite nth_error_map, (nth_error_nth' s 0%F Hi). reflexivity. }
  eapply returns_conseq.
  - apply (returns_for _ _ _ _ (fun i vars => length vars = i /\ arrp vars i (row_ok (fun i x => srep (wt s i x))))).
    + split; [reflexivity|]. split; [simpl; lia|]. intros i Hi. exists [1%Z]. replace i with 0 by lia. split; [reflexivity|].
      split; [reflexivity|]. split; [simpl; lia|]. intros x Hx. exists 1%Z. simpl in Hx. replace x with 0 by lia.
      split; [reflexivity|]. rewrite wt_0. split; [reflexivity|]. vm_compute. split; reflexivity.
    + intros i vars Hi [L A]. eapply rb_arrp; [exact A|lia|]. intros prev _ [Lp Ap].
      apply (returns_bind _ _ _ _ (fun row => length row = 2 ^ i /\ arrp row (2 * 2 ^ (i - 1)) (fun x => srep (wt s i x)))).
      * eapply returns_conseq.
        -- apply (returns_for _ _ _ _ (fun j row => length row = 2 ^ i /\ arrp row (2 * j) (fun x => srep (wt s i x)))).
           ++ split; [apply repeat_length|]. split; [lia|]. intros x Hx. lia.
           ++ intros j row Hj [Lr Ar]. eapply rb_arrp; [exact Ap|lia|]. intros v _ [Ev Bv].
              eapply rb_arr; [exact As|lia|].
              assert (2 ^ i = 2 * 2 ^ (i - 1)) by (rewrite <- pow2_S; f_equal; lia).
              apply rb_wr'; [lia|]. apply returns_wr; [rewrite upd_length; lia|].
              split; [rewrite !upd_length; exact Lr|]. apply row_step; [lia|exact Ar| |].
              ** apply srep_rem. rewrite ofZ_mul, ofZ_fz, Ev, wt_odd by (fold D; lia). fold D. ring.
              ** apply srep_rem. rewrite ofZ_mul, ofZ_sub, ofZ_fz, Ev, wt_even by (fold D; lia). fold D. change (ofZ 1) with 1%F. ring.
        -- intros row H. exact H.
      * intros row [Lr Ar]. apply returns_ok. split; [rewrite app_length; simpl; lia|].
        apply arrp_snoc; [exact A|exact L|]. split; [exact Lr|].
        replace (2 ^ i) with (2 * 2 ^ (i - 1)); [exact Ar|]. rewrite <- pow2_S. f_equal. lia.
  - intros vars H. replace (1 + D) with (S D) in H by lia. exact H.
Qed.

Variables (a : F).
Definition lev (c : F) (i x : nat) : F := (c * wt s i x)%F.
Definition rows_of (c : F) (l : list (list F)) : Prop := length l = S D /\ arrp l (S D) (row_ok (fun i x y => y = lev c i x)).

Lemma V_pubs_ok : forall vars, length vars = S D -> arrp vars (S D) (row_ok (fun i x => srep (wt s i x))) ->
  returns (V_pubs D (doublings scalar_bits gen1) (fz a) a vars) (fun st => rows_of 1%F (fst st) /\ rows_of a (snd st)).
Proof.
  intros vars Lv Av. unfold V_pubs.
  assert (R0 : forall c, row_ok (fun i x y => y = lev c i x) 0 [c]).
  { intro c. split; [reflexivity|]. split; [simpl; lia|]. intros x Hx. exists c. simpl in Hx. replace x with 0 by lia.
    split; [reflexivity|]. unfold lev. rewrite wt_0. ring. }
  eapply returns_conseq.
  - apply (returns_for _ _ _ _ (fun i st => (length (fst st) = i /\ arrp (fst st) i (row_ok (fun i x y => y = lev 1%F i x))) /\
      (length (snd st) = i /\ arrp (snd st) i (row_ok (fun i x y => y = lev a i x))))).
    + cbn [fst snd]. split; (split; [reflexivity|]; split; [simpl; lia|]; intros i Hi; replace i with 0 by lia).
      * exists [gen1]. split; [reflexivity|apply R0].
      * exists [a]. split; [reflexivity|apply R0].
    + intros i [g1 g1a] Hi [[L1 A1] [La Aa]]. cbn [fst snd] in L1, A1, La, Aa.
      eapply rb_arrp; [exact A1|lia|]. intros prev _ [Lp Ap].
      eapply rb_arrp; [exact Aa|lia|]. intros preva _ [Lpa Apa].
      eapply rb_arrp; [exact Av|lia|]. intros vrow _ [Lw Aw].
      assert (E2 : 2 ^ i = 2 * 2 ^ (i - 1)) by (rewrite <- pow2_S; f_equal; lia).
      set (J := fun j (st : list F * list F) => (length (fst st) = 2 ^ i /\ arrp (fst st) (2 * j) (fun x y => y = lev 1%F i x)) /\
          (length (snd st) = 2 ^ i /\ arrp (snd st) (2 * j) (fun x y => y = lev a i x))).
      apply (returns_bind _ _ _ _ (J (2 ^ (i - 1)))).
      * eapply returns_conseq; [apply (returns_for _ _ _ _ J)|intros st H; exact H].
        -- unfold J. cbn [fst snd]. rewrite !repeat_length. split; (split; [reflexivity|]; split; [lia|intros x Hx; lia]).
        -- intros j [row rowa] Hj [[Lr Ar] [Lra Ara]]. cbn [fst snd] in Lr, Ar, Lra, Ara.
           eapply rb_arrp; [exact Aw|lia|]. intros v _ Sv. cbv zeta. rewrite (fix_neg_srep _ _ Sv).
           rewrite pre_exp_254. cbn [bind].
           apply rb_wr'; [lia|]. eapply rb_arrp; [exact Ap|lia|]. intros y _ ->.
           apply rb_wr'; [rewrite upd_length; lia|].
           rewrite (rem_fz (fz (wt s i (2 * j + 1)) * fz a) (wt s i (2 * j + 1) * a)%F);
             [|apply Z.mul_nonneg_nonneg; apply fz_pos|rewrite ofZ_mul, !ofZ_fz; reflexivity].
           rewrite pre_exp_254. cbn [bind].
           apply rb_wr'; [lia|]. eapply rb_arrp; [exact Apa|lia|]. intros ya _ ->.
           apply rb_wr'; [rewrite upd_length; lia|]. apply returns_ok. unfold J. cbn [fst snd]. rewrite !upd_length.
           unfold gen1.
           split; (split; [assumption|]); (apply row_step; [lia|assumption| |]); unfold lev;
             rewrite ?wt_odd, ?wt_even by (fold D; lia); change F1 with 1%F; ring.
      * intros [row rowa] [[Lr Ar] [Lra Ara]]. cbn [fst snd] in Lr, Ar, Lra, Ara. rewrite <- E2 in Ar, Ara.
        apply returns_ok. cbn [fst snd]. rewrite !app_length. cbn [length].
        split; (split; [lia|]; apply arrp_snoc; [assumption|assumption|]; split; assumption).
  - intros [g1 g1a]. cbn [fst snd]. replace (1 + D) with (S D) by lia. intro H. exact H.
Qed.

Definition pairs_of (c : F) (l : list (list F)) : Prop := length l = S D /\
  arrp l (S D) (fun i row => 1 <= i -> arr row (2 ^ (i - 1)) (pair_sums (lev c i))).
Lemma V_pairs_ok : forall c l, rows_of c l -> returns (V_pairs D l) (pairs_of c).
Proof.
  intros c l [Ll Al]. unfold V_pairs. eapply returns_conseq.
  - apply (returns_for _ _ _ _ (fun i pre => length pre = i /\
      arrp pre i (fun i row => 1 <= i -> arr row (2 ^ (i - 1)) (pair_sums (lev c i))))).
    + split; [reflexivity|]. split; [simpl; lia|]. intros i Hi. exists []. replace i with 0 by lia. split; [reflexivity|lia].
    + intros i pre Hi [L A]. eapply rb_arrp; [exact Al|lia|]. intros row _ [Lr Ar]. apply arrp_arr in Ar.
      assert (E2 : 2 ^ i = 2 ^ (i - 1) * 2) by (rewrite Nat.mul_comm, <- pow2_S; f_equal; lia).
      unfold W_window. rewrite E2 at 1. rewrite Nat.div_mul by lia.
      apply (returns_bind _ _ _ _ (fun sums => length sums = 2 ^ (i - 1) /\ arr sums (2 ^ (i - 1)) (pair_sums (lev c i)))).
      * eapply returns_conseq.
        -- apply (returns_for _ _ _ _ (fun j sums => length sums = j /\ arr sums j (pair_sums (lev c i)))).
           ++ split; [reflexivity|]. split; [simpl; lia|intros; lia].
           ++ intros j sums Hj [Ls As]. eapply rb_arr; [exact Ar|lia|]. eapply rb_arr; [exact Ar|lia|].
              apply returns_ok. split; [rewrite app_length; simpl; lia|].
              eapply arr_ext; [apply arr_app1; [exact As|exact Ls]|]. intros k Hk. cbv beta.
              destruct (Nat.eqb_spec k j) as [->|N]; [|reflexivity]. unfold pair_sums. rewrite (Nat.mul_comm 2 j). reflexivity.
        -- intros sums H. exact H.
      * intros sums [Ls As]. apply returns_ok. split; [rewrite app_length; simpl; lia|].
        apply arrp_snoc; [exact A|exact L|]. intros _. exact As.
  - intros pre H. replace (1 + D) with (S D) in H by lia. exact H.
Qed.

Record key_ok (K : keyV) : Prop := {
  ko_D : kv_D K = D;
  ko_ga : kv_ga K = a;
  ko_g1p : kv_g1_pre K = doublings scalar_bits gen1;
  ko_g2p : kv_g2_pre K = doublings scalar_bits gen2;
  ko_g1 : rows_of 1%F (kv_g1 K);
  ko_g1a : rows_of a (kv_g1a K);
  ko_g2 : arr (kv_g2 K) D (fun i => nth i s 0%F);
  ko_pre : kv_pre K = doublings scalar_bits 1%F;
  ko_prea : kv_prea K = doublings scalar_bits a;
  ko_pre2 : pairs_of 1%F (kv_pre2 K);
  ko_pre2a : pairs_of a (kv_pre2a K) }.

Lemma V_keygen_ok : D < 31 -> returns (V_keygen D (fz a) (map fz s)) key_ok.
Proof.
  intro HD. unfold V_keygen, pow2_int. destruct (Nat.ltb_spec D 31); [|lia]. cbn [bind].
  unfold gmulz at 1 2. rewrite vuint_fz. cbn [bind]. rewrite !gmul_fz.
  eapply returns_bind; [apply V_vars_ok|]. intros vars [Lv Av].
  replace (gen1 * a)%F with a by (unfold gen1; change F1 with 1%F; ring).
  replace (gen2 * a)%F with a by (unfold gen2; change F1 with 1%F; ring).
  eapply returns_bind; [apply V_pubs_ok; assumption|]. intros [g1 g1a] [R1 Ra]. cbn [fst snd] in R1, Ra.
  apply (returns_bind _ _ _ _ (fun g2 => length g2 = D /\ arr g2 D (fun i => nth i s 0%F))).
  { eapply returns_conseq.
    - apply (returns_for _ _ _ _ (fun i g2 => length g2 = i /\ arr g2 i (fun i => nth i s 0%F))).
      + split; [reflexivity|]. split; [simpl; lia|intros; lia].
      + intros i g2 Hi [L A].
        eapply (rb_eq _ _ _ (fz (nth i s 0%F))).
        { eapply returns_rd; [|reflexivity]. rewrite nth_error_map, (nth_error_nth' s 0%F) by exact (proj2 Hi). reflexivity. }
        unfold gmulz. rewrite vuint_fz. cbn [bind]. rewrite gmul_fz. apply returns_ok.
        split; [rewrite app_length; simpl; lia|]. eapply arr_ext; [apply arr_app1; [exact A|exact L]|].
        intros k Hk. cbv beta. destruct (Nat.eqb_spec k i) as [->|N]; [|reflexivity]. unfold gen2. change F1 with 1%F. ring.
    - intros g2 H0. exact H0. }
  intros g2 [Lg Ag].
  assert (Z : forall c l (k : F -> outcome keyV) R, rows_of c l -> returns (k c) R ->
    returns (row0 <- rd l 0 ;; x0 <- rd row0 0 ;; k x0) R).
  { intros c l k R [Ll Al] H0. eapply rb_arrp; [exact Al|lia|]. intros row _ [Lr Ar]. eapply rb_arrp; [exact Ar|simpl; lia|].
    intros x _ ->. unfold lev. rewrite wt_0. replace (c * 1)%F with c by ring. exact H0. }
  eapply Z; [exact R1|]. eapply Z; [exact Ra|].
  eapply returns_bind; [apply (V_pairs_ok 1%F), R1|]. intros pre2 P1.
  eapply returns_bind; [apply (V_pairs_ok a), Ra|]. intros pre2a Pa.
  apply returns_ok. constructor; cbn [kv_D kv_ga kv_g1_pre kv_g2_pre kv_g1 kv_g1a kv_g2 kv_pre kv_prea kv_pre2 kv_pre2a]; first [reflexivity | assumption].
Qed.

(** Combining the elements of a level. *)
Lemma level_sum_ok : forall c rows prs l e, rows_of c rows -> pairs_of c prs -> 1 <= l <= D ->
  length e <= 2 ^ l -> (forall k, k < length e -> (0 <= nth k e 0 < 2 ^ 254)%Z) -> forall B (k : F -> outcome B),
  bind (rd rows l) (fun pub => pre <- rd prs l ;; x <- V_multi_scalar pub pre e ;; k x)
  = k (c * sumn (2 * (length e / 2)) (fun x => wt s l x * ent e x))%F.
Proof.
  intros c rows prs l e [Lr Ar] [Lp Ap] Hl Le He B k.
  destruct Ar as [_ Ar]. destruct (Ar l) as (row & E1 & Lrow & Arow); [lia|]. apply arrp_arr in Arow.
  destruct Ap as [_ Ap]. destruct (Ap l) as (pr & E2 & Apr); [lia|].
  unfold rd. rewrite E1, E2. cbn [bind].
  assert (2 ^ l = 2 * 2 ^ (l - 1)) by (rewrite <- pow2_S; f_equal; lia).
  assert (Hh : length e / 2 <= 2 ^ (l - 1)) by (apply Nat.div_le_upper_bound; lia).
  pose proof (Nat.div_mod (length e) 2) as DM.
  rewrite (V_multi_scalar_ok row pr e (lev c l)).
  - cbn [bind]. f_equal. rewrite <- sumn_scal. apply sumn_ext. intros i _. unfold lev. ring.
  - eapply arr_le; [exact Arow|]. lia.
  - eapply arr_le; [apply Apr; lia|]. exact Hh.
  - intros i Hi. apply He. lia.
Qed.
End Key.
