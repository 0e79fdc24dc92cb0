(** * Commitment, opening and verification of multivariate_test.cpp *)
From Coq Require Import ZArith List Bool Arith Lia Ring.
From Verif Require Import Base Limbs Field FieldProofs Fp ArithProofs MleSpec SpecVpd VpdGroup VpdGroupProofs MvTest MvTestProofs.
Import ListNotations.
Open Scope nat_scope.

(** Integers the commitment takes without loss. *)
Definition fits254 (z : Z) : Prop := (- P <= z < 2 ^ 254)%Z.
Lemma fix_neg_fits : forall z, fits254 z -> (0 <= fix_neg_z z < 2 ^ 254)%Z.
Proof.
  intros z [H1 H2]. pose proof P_lt_254. unfold fix_neg_z. destruct (Z.ltb_spec z 0); lia.
Qed.
Lemma ent_fix_neg : forall l i, ent (map fix_neg_z l) i = ent l i.
Proof.
  intros l i. unfold ent. destruct (Nat.lt_ge_cases i (length l)) as [H|H].
  - rewrite (nth_indep _ 0%Z (fix_neg_z 0)) by (rewrite map_length; exact H). rewrite map_nth. apply ofZ_fix_neg.
  - rewrite !nth_overflow by (rewrite ?map_length; exact H). reflexivity.
Qed.
Lemma ent_over : forall l i, length l <= i -> ent l i = 0%F.
Proof. intros l i H. unfold ent. rewrite nth_overflow by exact H. reflexivity. Qed.

(** ** Commitment *)
Section Commit.
Variables (s : list F) (a : F) (K : keyV).
Hypothesis HK : key_ok s a K.

Lemma V_commit_ok : forall l, let d := Nat.log2_up (length l) in 1 <= d <= length s -> Forall fits254 l ->
  let c := sumn (2 * (length l / 2)) (fun x => wt s d x * ent l x)%F in
  V_commit K l = Ok (c, (a * c)%F).
Proof.
  intros l d Hd Hl c. unfold V_commit. fold d.
  assert (B : length (map fix_neg_z l) <= 2 ^ d).
  { rewrite map_length. destruct (Nat.le_gt_cases (length l) 1) as [L|L].
    - pose proof (pow2_pos d). lia.
    - apply Nat.log2_up_spec in L. unfold d. lia. }
  assert (V : forall k, k < length (map fix_neg_z l) -> (0 <= nth k (map fix_neg_z l) 0 < 2 ^ 254)%Z).
  { intros k Hk. rewrite (nth_indep _ 0%Z (fix_neg_z 0)) by exact Hk. rewrite map_nth. apply fix_neg_fits.
    rewrite Forall_forall in Hl. apply Hl, nth_In. rewrite map_length in Hk. exact Hk. }
  rewrite (level_sum_ok s 1%F (kv_g1 K) (kv_pre2 K) d (map fix_neg_z l) (ko_g1 _ _ _ HK) (ko_pre2 _ _ _ HK) Hd B V).
  rewrite (level_sum_ok s a (kv_g1a K) (kv_pre2a K) d (map fix_neg_z l) (ko_g1a _ _ _ HK) (ko_pre2a _ _ _ HK) Hd B V).
  rewrite map_length. fold (ent (map fix_neg_z l)).
  rewrite (sumn_ext _ (fun x => wt s d x * ent (map fix_neg_z l) x)%F (fun x => wt s d x * ent l x)%F)
    by (intros x _; rewrite ent_fix_neg; reflexivity).
  fold c. do 2 f_equal. ring.
Qed.
End Commit.

(** ** The claimed value *)
Lemma arr_fz : forall r : list F, arr (map fz r) (length r) (fun i => fz (nth i r 0%F)).
Proof.
  intro r. split; [rewrite map_length; lia|]. intros i Hi. rewrite nth_error_map, (nth_error_nth' r 0%F Hi). reflexivity.
Qed.
Lemma firstn_S_nth : forall (r : list F) i, i < length r -> firstn (S i) r = firstn i r ++ [nth i r 0%F].
Proof.
  induction r as [|x r IH]; intros i H; [simpl in H; lia|]. destruct i; [reflexivity|]. simpl in H.
  cbn [nth]. change (firstn (S (S i)) (x :: r)) with (x :: firstn (S i) r). rewrite IH by lia. reflexivity.
Qed.

Section Open.
Variables (r : list F).
Let n := length r.

Lemma V_products_ok : returns (V_products (map fz r)) (fun l => arrp l (2 ^ n) (fun x => srep (eqw r x))).
Proof.
  unfold V_products. rewrite map_length. fold n.
  set (J := fun i (st : list Z * nat) => length (fst st) = 2 ^ n /\ snd st = 2 ^ i /\
    arrp (fst st) (2 ^ i) (fun x => srep (eqw (firstn i r) x))).
  apply (returns_bind _ _ _ _ (J n)).
  - eapply returns_conseq; [apply (returns_for _ _ _ _ J)|intros st H; exact H].
    + unfold J. cbn [fst snd]. rewrite upd_length, repeat_length. split; [reflexivity|]. split; [reflexivity|].
      pose proof (pow2_pos n). split; [rewrite upd_length, repeat_length; simpl; lia|]. intros x Hx. simpl in Hx.
      replace x with 0 by lia. exists 1%Z. split; [apply nth_upd_same; rewrite repeat_length; lia|].
      split; [reflexivity|]. vm_compute. split; reflexivity.
    + intros i [l index] Hi (L & EI & A). cbn [fst snd] in L, EI, A. subst index.
      assert (PL : 2 ^ i + 2 ^ i <= 2 ^ n).
      { replace (2 ^ i + 2 ^ i) with (2 ^ S i) by (simpl; lia). apply Nat.pow_le_mono_r; lia. }
      pose proof (firstn_S_nth r i ltac:(fold n; lia)) as FS.
      assert (LF : length (point (firstn i r)) = i) by (rewrite point_length, firstn_length; fold n; lia).
      apply (returns_bind _ _ _ _ (fun l => length l = 2 ^ n /\ arrp l (2 ^ S i) (fun x => srep (eqw (firstn (S i) r) x)))).
      * eapply returns_conseq.
        -- apply (returns_for _ _ _ _ (fun j l => length l = 2 ^ n /\
             (forall x, x < j -> exists z, nth_error l x = Some z /\ srep (eqw (firstn (S i) r) x) z) /\
             (forall x, j <= x < 2 ^ i -> exists z, nth_error l x = Some z /\ srep (eqw (firstn i r) x) z) /\
             (forall x, x < j -> exists z, nth_error l (2 ^ i + x) = Some z /\ srep (eqw (firstn (S i) r) (2 ^ i + x)) z))).
           ++ split; [exact L|]. split; [intros; lia|]. split; [|intros; lia]. intros x Hx. apply A. lia.
           ++ intros j l' Hj (L' & B1 & B2 & B3). destruct (B2 j) as (z & Ez & Oz & _); [lia|].
              eapply (rb_eq _ _ _ z); [eapply returns_rd; [exact Ez|reflexivity]|].
              eapply rb_arr; [apply arr_fz|fold n; lia|].
              apply rb_wr'; [lia|].
              eapply (rb_eq _ _ _ z); [eapply returns_rd; [rewrite nth_upd_other by lia; exact Ez|reflexivity]|].
              apply returns_wr; [rewrite upd_length; lia|]. split; [rewrite !upd_length; exact L'|].
              split; [|split].
              ** intros x Hx. destruct (Nat.eq_dec x j) as [->|N].
                 --- eexists. split; [apply nth_upd_same; rewrite upd_length; lia|]. apply srep_rem.
                     rewrite ofZ_mul, ofZ_sub, ofZ_fz, Oz, FS. change (ofZ 1) with 1%F. unfold eqw. rewrite point_app. cbn [point map].
                     rewrite eqg_snoc_lo by (rewrite LF; lia). reflexivity.
                 --- rewrite !nth_upd_other by lia. apply B1. lia.
              ** intros x Hx. rewrite !nth_upd_other by lia. apply B2. lia.
              ** intros x Hx. rewrite (nth_upd_other _ _ j) by lia. destruct (Nat.eq_dec x j) as [->|N].
                 --- eexists. split; [apply nth_upd_same; lia|]. apply srep_rem.
                     rewrite ofZ_mul, ofZ_fz, Oz, FS. unfold eqw. rewrite point_app. cbn [point map].
                     pose proof (eqg_snoc_hi (point (firstn i r)) (nth i r 0%F) (1 - nth i r 0)%F j) as SH. rewrite LF in SH.
                     rewrite Nat.add_comm, SH by lia. reflexivity.
                 --- rewrite nth_upd_other by lia. apply B3. lia.
        -- intros l' (L' & B1 & _ & B3). split; [exact L'|]. split; [rewrite L'; rewrite pow2_S; lia|].
           intros x Hx. rewrite pow2_S in Hx. destruct (Nat.lt_ge_cases x (2 ^ i)) as [C|C]; [apply B1; lia|].
           replace x with (2 ^ i + (x - 2 ^ i)) by lia. apply B3. lia.
      * intros l' [L' A']. apply returns_ok. unfold J. cbn [fst snd]. split; [exact L'|]. split; [rewrite pow2_S; lia|exact A'].
  - intros [l index] (L & _ & A). apply returns_ok. cbn [fst] in A. unfold n in A at 2. rewrite firstn_all in A. exact A.
Qed.

Lemma V_answer_ok : forall input, length input <= 2 ^ n -> V_answer (map fz r) input = Ok (fz (mle r (ent input))).
Proof.
  intros input Li. apply returns_eq_ok. unfold V_answer. eapply returns_bind; [apply V_products_ok|]. intros l A.
  apply (returns_bind _ _ _ _ (fun ans => ofZ ans = mle r (ent input))).
  - eapply returns_conseq.
    + apply (returns_for _ _ _ _ (fun i ans => ofZ ans = sumn i (fun x => eqw r x * ent input x)%F)).
      * reflexivity.
      * intros i ans Hi E. eapply rb_arrp; [exact A|lia|]. intros x _ [Ex _].
        eapply (rb_eq _ _ _ (nth i input 0%Z)); [eapply returns_rd; [apply nth_error_nth'; lia|reflexivity]|].
        apply returns_ok. cbn [sumn]. rewrite ofZ_add, ofZ_mul, E, Ex. reflexivity.
    + intros ans E. rewrite E. unfold mle. fold n. cbn [Nat.add].
      replace (2 ^ n) with (length input + (2 ^ n - length input)) by lia. rewrite sumn_app.
      rewrite (sumn_zero' (2 ^ n - length input)); [ring|]. intros i _. rewrite ent_over by lia. ring.
  - intros ans E. apply returns_ok. symmetry. apply fix_neg_srep, srep_rem, E.
Qed.

(** ** Quotients *)
Definition part (f : nat -> F) (i : nat) : nat -> F := folds (firstn i r) f.
Definition quo (f : nat -> F) (i j : nat) : F := (part f i (2 * j + 1)%nat - part f i (2 * j)%nat)%F.
Lemma part_S : forall f i j, i < n -> part f (S i) j = fold1 (nth i r 0%F) (part f i) j.
Proof. intros f i j Hi. unfold part. rewrite firstn_S_nth by exact Hi. rewrite folds_snoc. reflexivity. Qed.
Definition first_of (i : nat) : nat := 2 ^ n - 2 ^ (n - i).
Lemma first_S : forall i, i < n -> first_of (S i) = first_of i + 2 ^ (n - i - 1).
Proof.
  intros i Hi. unfold first_of. assert (E : 2 ^ (n - i) = 2 * 2 ^ (n - i - 1)) by (rewrite <- pow2_S; f_equal; lia).
  assert (2 ^ (n - i) <= 2 ^ n) by (apply Nat.pow_le_mono_r; lia). replace (n - S i) with (n - i - 1) by lia. lia.
Qed.
Lemma first_mono : forall i k, i < k -> k <= n -> first_of i + 2 ^ (n - i - 1) <= first_of k.
Proof.
  intros i k L Hk. rewrite <- first_S by lia. unfold first_of.
  assert (2 ^ (n - k) <= 2 ^ (n - S i)) by (apply Nat.pow_le_mono_r; lia). lia.
Qed.
Definition quos_ok (f : nat -> F) (wc : list Z) (k : nat) : Prop := length wc = 2 ^ n /\
  forall i j, i < k -> j < 2 ^ (n - i - 1) -> exists z, nth_error wc (first_of i + j) = Some z /\ srep (quo f i j) z.

Lemma V_quotients_ok : forall input, length input <= 2 ^ n ->
  returns (V_quotients (map fz r) input) (fun wc => length wc = 2 ^ n /\
    forall i j, i < n -> j < 2 ^ (n - i - 1) -> nth_error wc (first_of i + j) = Some (fz (quo (ent input) i j))).
Proof.
  intros input Li. unfold V_quotients. rewrite map_length. fold n. set (f := ent input).
  rewrite firstn_all2 by exact Li.
  assert (A0 : arrp (input ++ repeat 0%Z (2 ^ n - length input)) (2 ^ n) (fun x z => ofZ z = f x)).
  { split; [rewrite app_length, repeat_length; lia|]. intros x Hx. destruct (Nat.lt_ge_cases x (length input)) as [C|C].
    - exists (nth x input 0%Z). rewrite nth_error_app1 by exact C. split; [apply nth_error_nth', C|reflexivity].
    - exists 0%Z. rewrite nth_error_app2 by exact C. split; [apply nth_error_repeat; lia|]. unfold f. rewrite ent_over by exact C. reflexivity. }
  set (J := fun i (st : list Z * list Z * nat) => arrp (fst (fst st)) (2 ^ (n - i)) (fun x z => ofZ z = part f i x) /\
    quos_ok f (snd (fst st)) i /\ snd st = first_of i).
  apply (returns_bind _ _ _ _ (J n)).
  - eapply returns_conseq; [apply (returns_for _ _ _ _ J)|intros st H; exact H].
    + unfold J. cbn [fst snd]. rewrite Nat.sub_0_r. split; [exact A0|]. split; [|unfold first_of; rewrite Nat.sub_0_r; lia].
      split; [apply repeat_length|]. intros; lia.
    + intros i [[tc wc] start] Hi (A & [Lw Q] & E). cbn [fst snd] in A, Lw, Q, E. subst start.
      assert (E2 : 2 ^ (n - i) = 2 * 2 ^ (n - i - 1)) by (rewrite <- pow2_S; f_equal; lia).
      assert (PN : 2 ^ (n - i) <= 2 ^ n) by (apply Nat.pow_le_mono_r; lia).
      set (G := fun j (st : list Z * list Z) => 2 ^ (n - i) <= length (fst st) /\
        (forall x, x < j -> exists z, nth_error (fst st) x = Some z /\ ofZ z = part f (S i) x) /\
        (forall x, 2 * j <= x < 2 ^ (n - i) -> exists z, nth_error (fst st) x = Some z /\ ofZ z = part f i x) /\
        quos_ok f (snd st) i /\
        (forall x, x < j -> exists z, nth_error (snd st) (first_of i + x) = Some z /\ srep (quo f i x) z)).
      apply (returns_bind _ _ _ _ (G (2 ^ (n - i - 1)))).
      * eapply returns_conseq; [apply (returns_for _ _ _ _ G)|intros st H; exact H].
        -- unfold G. cbn [fst snd]. destruct A as [LA A]. split; [exact LA|]. split; [intros; lia|]. split; [intros x Hx; apply A; lia|].
           split; [split; assumption|intros; lia].
        -- intros j [tc' wc'] Hj (Lt & B1 & B2 & [Lw' Q'] & B4). cbn [fst snd] in Lt, B1, B2, Lw', Q', B4.
           destruct (B2 (2 * j)) as (lo & El & Ol); [lia|]. destruct (B2 (2 * j + 1)) as (hi & Eh & Oh); [lia|].
           eapply (rb_eq _ _ _ lo); [eapply returns_rd; [exact El|reflexivity]|].
           eapply (rb_eq _ _ _ hi); [eapply returns_rd; [exact Eh|reflexivity]|].
           eapply rb_arr; [apply arr_fz|fold n; lia|].
           assert (FB : first_of i + j < 2 ^ n) by (unfold first_of; lia).
           apply rb_wr'; [lia|]. apply rb_wr'; [lia|]. apply returns_ok. unfold G. cbn [fst snd]. rewrite !upd_length.
           split; [exact Lt|]. split; [|split; [|split]].
           ++ intros x Hx. destruct (Nat.eq_dec x j) as [->|N].
              ** eexists. split; [apply nth_upd_same; lia|]. rewrite ofZ_rem, ofZ_add, !ofZ_mul, ofZ_opp, ofZ_sub, ofZ_fz, Ol, Oh.
                 rewrite part_S by lia. unfold fold1. change (ofZ 1) with 1%F. ring.
              ** rewrite nth_upd_other by lia. apply B1. lia.
           ++ intros x Hx. rewrite nth_upd_other by lia. apply B2. lia.
           ++ split; [rewrite upd_length; exact Lw'|]. intros i' j' Hi' Hj'. pose proof (first_mono i' i Hi' ltac:(lia)).
              rewrite nth_upd_other by lia. apply Q'; assumption.
           ++ intros x Hx. destruct (Nat.eq_dec x j) as [->|N].
              ** eexists. split; [apply nth_upd_same; lia|]. apply srep_rem. rewrite ofZ_add, ofZ_opp, Ol, Oh. unfold quo. ring.
              ** rewrite nth_upd_other by lia. apply B4. lia.
      * intros [tc' wc'] (Lt & B1 & _ & [Lw' Q'] & B4). cbn [fst snd] in *. apply returns_ok. unfold J. cbn [fst snd].
        split; [|split].
        -- replace (n - S i) with (n - i - 1) by lia. split; [lia|]. exact B1.
        -- split; [exact Lw'|]. intros i' j' Hi' Hj'. destruct (Nat.eq_dec i' i) as [->|N]; [apply B4, Hj'|apply Q'; [lia|exact Hj']].
        -- symmetry. apply first_S. lia.
  - intros [[tc wc] start] (_ & [Lw Q] & _). apply returns_ok. cbn [fst snd] in *. split; [rewrite map_length; exact Lw|].
    intros i j Hi Hj. destruct (Q i j Hi Hj) as (z & E & Z). rewrite nth_error_map, E. cbn [option_map]. f_equal.
    apply fix_neg_srep, Z.
Qed.
End Open.

(** ** Dividing by the linear factors *)
Lemma fold1_diff : forall (x y : F) f j, (fold1 x f j - fold1 y f j = (x - y) * (f (2 * j + 1)%nat - f (2 * j)%nat))%F.
Proof. intros. unfold fold1. ring. Qed.
Lemma quo_S : forall a r f i j, quo (a :: r) f (S i) j = quo r (fold1 a f) i j.
Proof. intros. reflexivity. Qed.
Lemma quo_0 : forall r f j, quo r f 0 j = (f (2 * j + 1)%nat - f (2 * j)%nat)%F.
Proof. intros. reflexivity. Qed.
Lemma sumn_head : forall n f, sumn (S n) f = (f O + sumn n (fun i => f (S i)))%F.
Proof. induction n; intro f; [simpl; ring|]. change (sumn (S (S n)) f) with (sumn (S n) f + f (S n))%F. rewrite IHn. simpl. ring. Qed.
Theorem mle_quotients : forall S r f, length S = length r ->
  (mle S f - mle r f = sumn (length r) (fun i => (nth i S 0 - nth i r 0) * mle (skipn (i + 1) S) (quo r f i)))%F.
Proof.
  intros S r. revert S. induction r as [|b r IH]; intros [|x S] f L; try discriminate; [unfold mle; simpl; ring|].
  injection L as L. cbn [length]. rewrite sumn_head. cbn [nth Nat.add]. change (skipn 1 (x :: S)) with S.
  rewrite (sumn_ext _ _ (fun i => (nth i S 0 - nth i r 0) * mle (skipn (i + 1) S) (quo r (fold1 b f) i))%F).
  2:{ intros i Hi. cbn [nth Nat.add skipn]. rewrite Nat.add_1_r. cbn [skipn]. do 2 f_equal. }
  rewrite <- IH by exact L. rewrite !mle_cons.
  replace (mle S (fold1 x f) - mle r (fold1 b f))%F
    with ((mle S (fold1 x f) - mle S (fold1 b f)) + (mle S (fold1 b f) - mle r (fold1 b f)))%F by ring.
  f_equal. rewrite <- mle_scal.
  rewrite (mle_ext S (fun i => (x - b) * quo (b :: r) f 0 i)%F (fun i => fold1 x f i + (0 - 1) * fold1 b f i)%F).
  - rewrite mle_add, mle_scal. ring.
  - intros i _. rewrite quo_0, <- fold1_diff. ring.
Qed.

(** ** The proof elements *)
Lemma V_last_term_ok : forall g q w, V_last_term (doublings scalar_bits g) (fz q) w = Ok (w + g * q)%F.
Proof.
  intros g q w. unfold V_last_term. destruct (Z.eqb_spec (fz q) 0) as [E|E].
  - replace q with 0%F by (apply F_eq; rewrite E; reflexivity). f_equal. ring.
  - destruct (str_length (fz q) <? str_length (fz q - P)); [rewrite pre_exp_254; reflexivity|].
    replace (- (fz q - P))%Z with (fz (- q)%F).
    + rewrite pre_exp_254. cbn [bind]. f_equal. ring.
    + pose proof (fz_range q). rewrite <- (fz_ofZ_small (- (fz q - P))) by lia. f_equal.
      rewrite ofZ_opp, ofZ_sub, ofZ_fz, ofZ_P. ring.
Qed.

Section Prove.
Variables (s : list F) (a : F) (K : keyV) (r : list F).
Hypothesis HK : key_ok s a K.
Let n := length r.
Let D := length s.
Hypothesis Hn : 1 <= n <= D.
(** The part of the secret that belongs to the variables. *)
Definition tailp : list F := skipn (D - n) s.
Definition welem (f : nat -> F) (i : nat) : F := mle (skipn (i + 1) tailp) (quo r f i).
Lemma tailp_length : length tailp = n.
Proof. unfold tailp. rewrite skipn_length. fold D. lia. Qed.
Lemma tailp_nth : forall i, nth i tailp 0%F = nth (D - n + i) s 0%F.
Proof.
  intro i. unfold tailp. revert i. generalize (D - n) as k. clear. revert s.
  induction s as [|x l IH]; intros k i; [destruct k, i; reflexivity|]. destruct k; [reflexivity|]. cbn [skipn Nat.add nth]. apply IH.
Qed.
Lemma skipn_add : forall A (l : list A) i k, skipn i (skipn k l) = skipn (k + i) l.
Proof. intros A l i k. revert l. induction k; intro l; [reflexivity|]. destruct l; [destruct i; reflexivity|]. apply IHk. Qed.
Lemma welem_level : forall f i, i < n -> welem f i = sumn (2 ^ (n - i - 1)) (fun x => wt s (n - i - 1) x * quo r f i x)%F.
Proof.
  intros f i Hi. unfold welem, mle, wt. rewrite skipn_length, tailp_length. replace (n - (i + 1)) with (n - i - 1) by lia.
  unfold tailp. rewrite skipn_add. fold D. replace (D - n + (i + 1)) with (D - (n - i - 1)) by lia. reflexivity.
Qed.

Lemma V_witness_ok : forall f wc, length wc = 2 ^ n ->
  (forall i j, i < n -> j < 2 ^ (n - i - 1) -> nth_error wc (first_of r i + j) = Some (fz (quo r f i j))) ->
  returns (V_witness K n wc) (fun st => length (fst st) = n /\ length (snd st) = n /\
    (forall i, i < n -> nth_error (fst st) i = Some (welem f i)) /\
    (forall i, 1 <= i < n -> nth_error (snd st) i = Some (a * welem f i)%F)).
Proof.
  intros f wc Lw Q. unfold V_witness. destruct (Nat.eqb_spec n 0); [lia|].
  set (J := fun i (st : list F * list F * nat) => length (fst (fst st)) = n /\ length (snd (fst st)) = n /\
    (forall k, k < i -> nth_error (fst (fst st)) k = Some (welem f k)) /\
    (forall k, 1 <= k < i -> nth_error (snd (fst st)) k = Some (a * welem f k)%F) /\ snd st = first_of r i).
  apply (returns_bind _ _ _ _ (J (n - 1))).
  - eapply returns_conseq; [apply (returns_for _ _ _ _ J)|intros st H; exact H].
    + unfold J. cbn [fst snd]. rewrite !repeat_length. split; [reflexivity|]. split; [reflexivity|].
      split; [intros; lia|]. split; [intros; lia|]. unfold first_of. rewrite Nat.sub_0_r. lia.
    + intros i [[w wa] start] Hi (L1 & L2 & B1 & B2 & E). cbn [fst snd] in L1, L2, B1, B2, E. subst start.
      set (l := n - i - 1).
      apply (returns_bind _ _ _ _ (fun e => length e = 2 ^ l /\ forall j, j < 2 ^ l -> nth_error e j = Some (fz (quo r f i j)))).
      { eapply returns_conseq.
        - apply (returns_for _ _ _ _ (fun k e => length e = k /\ forall j, j < k -> nth_error e j = Some (fz (quo r f i j)))).
          + split; [reflexivity|intros; lia].
          + intros k e Hk [Le Ae]. eapply (rb_eq _ _ _ (fz (quo r f i k))).
            { eapply returns_rd; [apply Q; unfold l in *; lia|reflexivity]. }
            apply returns_ok. split; [rewrite app_length; simpl; lia|]. intros j Hj.
            destruct (Nat.eq_dec j k) as [->|N]; [rewrite nth_error_app2, Le, Nat.sub_diag by lia; reflexivity|].
            rewrite nth_error_app1 by lia. apply Ae. lia.
        - intros e H. exact H. }
      intros e [Le Ae].
      assert (EV : forall k, k < length e -> (0 <= nth k e 0 < 2 ^ 254)%Z).
      { intros k Hk. rewrite (nth_error_nth e k 0%Z (Ae k ltac:(lia))). split; [apply fz_pos|apply fz_lt_254]. }
      assert (PE : 2 * (2 ^ l / 2) = 2 ^ l).
      { replace l with (S (l - 1)) by (unfold l; lia). rewrite pow2_S, (Nat.mul_comm 2 (2 ^ (l - 1))), Nat.div_mul by lia. lia. }
      assert (SE : sumn (2 * (length e / 2)) (fun x => wt s l x * ent e x)%F = welem f i).
      { rewrite Le, PE, welem_level by lia. fold l. apply sumn_ext. intros x Hx. unfold ent.
        rewrite (nth_error_nth e x 0%Z (Ae x Hx)), ofZ_fz. reflexivity. }
      rewrite (level_sum_ok s 1%F (kv_g1 K) (kv_pre2 K) l e (ko_g1 _ _ _ HK) (ko_pre2 _ _ _ HK) ltac:(unfold l; fold D; lia) ltac:(lia) EV).
      rewrite SE. apply rb_wr'; [lia|].
      assert (W : forall k, k < S i -> nth_error (upd w i (1 * welem f i)%F) k = Some (welem f k)).
      { intros k Hk. destruct (Nat.eq_dec k i) as [->|N]; [rewrite nth_upd_same by lia; f_equal; ring|].
        rewrite nth_upd_other by lia. apply B1. lia. }
      destruct (Nat.eqb_spec i 0) as [->|N0].
      * cbn [bind]. apply returns_ok. unfold J. cbn [fst snd]. rewrite upd_length. split; [exact L1|]. split; [exact L2|].
        split; [exact W|]. split; [intros; lia|]. symmetry. apply first_S. fold n. lia.
      * eapply (rb_eq _ _ _ (upd wa i (a * welem f i)%F)).
        { rewrite (level_sum_ok s a (kv_g1a K) (kv_pre2a K) l e (ko_g1a _ _ _ HK) (ko_pre2a _ _ _ HK) ltac:(unfold l; fold D; lia) ltac:(lia) EV).
          rewrite SE. apply returns_wr; [lia|reflexivity]. }
        apply returns_ok. unfold J. cbn [fst snd]. rewrite !upd_length. split; [exact L1|]. split; [exact L2|]. split; [exact W|].
        split; [|symmetry; apply first_S; fold n; lia]. intros k Hk.
        destruct (Nat.eq_dec k i) as [->|N]; [apply nth_upd_same; lia|]. rewrite nth_upd_other by lia. apply B2. lia.
  - intros [[w wa] start] (L1 & L2 & B1 & B2 & E). cbn [fst snd] in L1, L2, B1, B2, E. subst start.
    assert (EQ : nth_error wc (first_of r (n - 1)) = Some (fz (quo r f (n - 1) 0))).
    { rewrite <- (Nat.add_0_r (first_of r (n - 1))). apply Q; [lia|]. apply pow2_pos. }
    eapply (rb_eq _ _ _ (fz (quo r f (n - 1) 0))); [eapply returns_rd; [exact EQ|reflexivity]|].
    rewrite (ko_pre _ _ _ HK), (ko_prea _ _ _ HK), !V_last_term_ok. cbn [bind].
    assert (EW : quo r f (n - 1) 0 = welem f (n - 1)).
    { rewrite welem_level by lia. replace (n - (n - 1) - 1) with 0 by lia. cbn [Nat.pow sumn]. rewrite wt_0. ring. }
    apply rb_wr'; [lia|]. apply rb_wr'; [lia|]. apply returns_ok. cbn [fst snd]. rewrite !upd_length, gmul_0, EW.
    split; [exact L1|]. split; [exact L2|]. split.
    + intros i Hi. destruct (Nat.eq_dec i (n - 1)) as [->|N]; [rewrite nth_upd_same by lia; f_equal; ring|].
      rewrite nth_upd_other by lia. apply B1. lia.
    + intros i Hi. destruct (Nat.eq_dec i (n - 1)) as [->|N]; [rewrite nth_upd_same by lia; f_equal; ring|].
      rewrite nth_upd_other by lia. apply B2. lia.
Qed.

Lemma V_prove_ok : forall input, D < 31 -> length input <= 2 ^ n ->
  returns (V_prove K (map fz r) input) (fun st => let '(ans, w, wa) := st in ans = fz (mle r (ent input)) /\
    length w = n /\ length wa = n /\ (forall i, i < n -> nth_error w i = Some (welem (ent input) i)) /\
    (forall i, 1 <= i < n -> nth_error wa i = Some (a * welem (ent input) i)%F)).
Proof.
  intros input HD Li. unfold V_prove, pow2_int. rewrite map_length. fold n. destruct (Nat.ltb_spec n 31); [|lia]. cbn [bind].
  rewrite V_answer_ok by exact Li. cbn [bind].
  eapply returns_bind; [apply V_quotients_ok, Li|]. intros wc [Lw Q].
  eapply returns_bind; [apply V_witness_ok; [exact Lw|exact Q]|]. intros [w wa] (L1 & L2 & B1 & B2). cbn [fst snd] in *.
  apply returns_ok. repeat (split; [first [reflexivity | assumption]|]). assumption.
Qed.

(** ** Verification *)
Lemma V_verify_eq : forall dg ans w wa, length w = n -> length wa = n ->
  V_verify K (map fz r) dg (fz ans) w wa
  = Ok (forallb (fun i => gt_eqb (nth i wa 0%F) (a * nth i w 0)%F) (seq 1 (n - 1))
        && gt_eqb (dg - ans)%F (sumn n (fun i => (nth i tailp 0 - nth i r 0) * nth i w 0)%F)).
Proof.
  intros dg ans w wa Lw Lwa. apply returns_eq_ok. unfold V_verify. rewrite map_length. fold n. cbv zeta.
  rewrite (ko_ga _ _ _ HK), (ko_g1p _ _ _ HK), (ko_g2p _ _ _ HK), (ko_D _ _ _ HK).
  assert (Aw : arr w n (fun i => nth i w 0%F)) by (split; [lia|intros i Hi; apply nth_error_nth'; lia]).
  assert (Awa : arr wa n (fun i => nth i wa 0%F)) by (split; [lia|intros i Hi; apply nth_error_nth'; lia]).
  set (chk := fun i => gt_eqb (nth i wa 0%F) (a * nth i w 0)%F).
  eapply (rb_eq _ _ _ (forallb chk (seq 1 (n - 1)))).
  { eapply returns_conseq.
    - apply (returns_for _ _ _ _ (fun i b => b = forallb chk (seq 1 (i - 1)))).
      + reflexivity.
      + intros i b Hi ->. destruct (Nat.eqb_spec i 0) as [->|N]; [apply returns_ok; reflexivity|].
        eapply rb_arr; [exact Awa|lia|]. eapply rb_arr; [exact Aw|lia|]. apply returns_ok.
        replace (S i - 1) with (i - 1 + 1) by lia. rewrite seq_app, forallb_app. cbn [seq forallb].
        replace (1 + (i - 1)) with i by lia. rewrite andb_true_r. f_equal. unfold chk, pairing, gen2. f_equal.
        change F1 with 1%F. ring.
    - intros b ->. reflexivity. }
  rewrite pre_exp_254. cbn [bind].
  eapply (rb_eq _ _ _ (sumn n (fun i => (nth i tailp 0 - nth i r 0) * nth i w 0)%F)).
  { eapply returns_conseq.
    - apply (returns_for _ _ _ _ (fun i e => e = sumn i (fun i => (nth i tailp 0 - nth i r 0) * nth i w 0)%F)).
      + reflexivity.
      + intros i e Hi ->.
        eapply (rb_eq _ _ _ (D - n + i)).
        { apply returns_idx; [fold D; lia|]. fold D. lia. }
        eapply rb_arr; [exact (ko_g2 _ _ _ HK)|fold D; lia|].
        eapply rb_arr; [apply arr_fz|fold n; lia|]. cbv beta. rewrite pre_exp_254. cbn [bind].
        eapply rb_arr; [exact Aw|lia|]. apply returns_ok. cbn [sumn]. rewrite tailp_nth. unfold pairing, gen2.
        change F1 with 1%F. ring.
    - intros e ->. reflexivity. }
  apply returns_ok. f_equal. unfold pairing, gen2, gen1. f_equal. change F1 with 1%F. ring.
Qed.
End Prove.
