(** Proofs about tests/mm.cpp (Mm.v). *)
From Coq Require Import ZArith List Bool Arith Lia.
From Verif Require Import Base Field Fp MleSpec Mm ZkPredProofs.
Import ListNotations.
Open Scope nat_scope.

(** Entry [i] of a table as a field element. *)
Definition fent (l : list Z) (i : nat) : F := ofZ (nth i l 0%Z).

Lemma P_gt1 : (1 < P)%Z. Proof. reflexivity. Qed.
Global Opaque P.
Lemma ofZ_rem : forall x, ofZ (Z.rem x P) = ofZ x.
Proof.
  intro x. pose proof P_gt1. assert (E : Z.rem x P = (x - P * Z.quot x P)%Z) by (pose proof (Z.quot_rem' x P); lia).
  rewrite E, ofZ_sub, ofZ_mul, ofZ_P. ring.
Qed.
Lemma rem_bound : forall x, (- P < Z.rem x P < P)%Z.
Proof. intro x. pose proof P_gt1. pose proof (Z.rem_bound_abs x P ltac:(lia)). lia. Qed.

Lemma differ_spec : forall x y, (- P < x < P)%Z -> (- P < y < P)%Z -> differ x y = false <-> ofZ x = ofZ y.
Proof.
  intros x y Hx Hy. pose proof P_gt1. unfold differ.
  rewrite !andb_false_iff, !negb_false_iff, !Z.eqb_eq. split.
  - intros [[->|<-]|<-]; [reflexivity|rewrite ofZ_add|rewrite ofZ_sub]; rewrite ofZ_P; ring.
  - intro E. apply ofZ_eq_inv in E.
    assert (D : ((y - x) mod P = 0)%Z) by (rewrite Zminus_mod, E, Z.sub_diag; apply Zmod_0_l).
    apply Z.mod_divide in D; [|lia]. destruct D as [k Hk].
    assert (k = 0 \/ k = 1 \/ k = -1)%Z as [-> | [-> | ->]] by nia; lia.
Qed.

(** ** Tables *)
Lemma fent_map : forall (f : Z -> Z) l i, i < length l -> fent (map f l) i = ofZ (f (nth i l 0%Z)).
Proof.
  intros. unfold fent. rewrite (nth_indep _ 0%Z (f 0%Z)) by (rewrite map_length; assumption).
  rewrite map_nth. reflexivity.
Qed.
Lemma double_ok : forall t s rk, length t = 2 ^ length s -> (forall i, i < 2 ^ length s -> fent t i = eqw s i) ->
  length (double t rk) = 2 ^ S (length s) /\
  (forall i, i < 2 ^ S (length s) -> fent (double t rk) i = eqw (s ++ [ofZ rk]) i).
Proof.
  intros t s rk L H. unfold double. rewrite Nat.pow_succ_r'. split.
  - rewrite app_length, !map_length. lia.
  - intros i Hi. rewrite eqw_app. destruct (Nat.lt_ge_cases i (2 ^ length s)) as [C|C].
    + rewrite Nat.mod_small, Nat.div_small by assumption.
      change 0 with (2 * 0) at 1. rewrite eqw_2.
      unfold fent. rewrite app_nth1 by (rewrite map_length; lia).
      fold (fent (map (fun o => Z.rem (o * (1 - rk)) P) t) i). rewrite fent_map by lia.
      rewrite ofZ_rem, ofZ_mul, ofZ_sub. fold (fent t i). rewrite H by assumption.
      unfold eqw at 3. simpl. change (ofZ 1) with 1%F. ring.
    + assert (E : i = (i - 2 ^ length s) + 1 * 2 ^ length s) by lia.
      set (k := i - 2 ^ length s) in *. rewrite E at 2 3. clearbody k.
      assert (2 ^ length s <> 0) by (apply Nat.pow_nonzero; lia).
      rewrite Nat.mod_add, Nat.div_add by assumption. rewrite Nat.mod_small, Nat.div_small by lia.
      change (0 + 1) with (2 * 0 + 1). rewrite eqw_21.
      unfold fent. rewrite app_nth2 by (rewrite map_length; lia). rewrite map_length, L, E.
      replace (k + 1 * 2 ^ length s - 2 ^ length s) with k by lia.
      fold (fent (map (fun o => Z.rem (o * rk) P) t) k). rewrite fent_map by lia.
      rewrite ofZ_rem, ofZ_mul. fold (fent t k). rewrite H by lia.
      unfold eqw at 3. simpl. ring.
Qed.
Lemma doubles_ok : forall l t s, length t = 2 ^ length s -> (forall i, i < 2 ^ length s -> fent t i = eqw s i) ->
  length (fold_left double l t) = 2 ^ length (s ++ map ofZ l) /\
  (forall i, i < 2 ^ length (s ++ map ofZ l) -> fent (fold_left double l t) i = eqw (s ++ map ofZ l) i).
Proof.
  induction l as [|a l IH]; intros t s L H; cbn [fold_left map].
  - rewrite app_nil_r. auto.
  - destruct (double_ok t s a L H) as [L' H'].
    specialize (IH (double t a) (s ++ [ofZ a])). rewrite <- app_assoc in IH. cbn [app] in IH.
    assert (E : length (s ++ [ofZ a]) = S (length s)) by (rewrite app_length; simpl; lia).
    rewrite E in IH. exact (IH L' H').
Qed.
Definition pt (r : list Z) : list F := map ofZ (rev r).
Lemma pt_length : forall r, length (pt r) = length r.
Proof. intro. unfold pt. rewrite map_length, rev_length. reflexivity. Qed.
Lemma pt_snoc : forall r a, pt (r ++ [a]) = ofZ a :: pt r.
Proof. intros. unfold pt. rewrite rev_app_distr. reflexivity. Qed.
Lemma weights_ok : forall r, length (weights r) = 2 ^ length r /\
  (forall i, i < 2 ^ length r -> fent (weights r) i = eqw (pt r) i).
Proof.
  intro r. unfold weights, pt.
  pose proof (doubles_ok (rev r) [1%Z] [] eq_refl) as D. cbn [app length] in D.
  rewrite map_length, rev_length in D. apply D. intros i Hi. simpl in Hi.
  assert (i = 0) as -> by lia. reflexivity.
Qed.
Lemma rd_nth : forall (l : list Z) i (Q : Z -> Prop), i < length l -> Q (nth i l 0%Z) -> returns (rd l i) Q.
Proof. intros l i Q H HQ. eapply returns_rd; [apply (nth_error_nth' l 0%Z H)|exact HQ]. Qed.

Lemma random_V_L_ok : forall V r, length V = 2 ^ length r ->
  returns (random_V_L V r) (fun x => ofZ x = mle (pt r) (fent V) /\ (- P < x < P)%Z).
Proof.
  intros V r L. destruct (weights_ok r) as [LW HW]. unfold random_V_L. cbv zeta. pose proof P_gt1.
  eapply returns_conseq.
  - apply (returns_for _ (length V) 0 _ (fun k s => ofZ s = sumn k (fun x => (eqw (pt r) x * fent V x)%F) /\ (- P < s < P)%Z)).
    + split; [reflexivity|lia].
    + intros i s Hi [E B]. eapply returns_bind.
      { apply rd_nth with (Q := fun w => w = nth i (weights r) 0%Z); [lia|reflexivity]. }
      intros w ->. eapply returns_bind.
      { apply rd_nth with (Q := fun w => w = nth i V 0%Z); [lia|reflexivity]. }
      intros v ->. apply returns_ok. split; [|apply rem_bound].
      rewrite ofZ_rem, ofZ_add, ofZ_mul, E. fold (fent (weights r) i) (fent V i). rewrite HW by lia.
      cbn [sumn]. ring.
  - intros s [E B]. split; [|exact B]. rewrite E. unfold mle. rewrite pt_length, <- L. reflexivity.
Qed.

(** ** extrap on two points *)
Lemma extrap2_ok : forall a b r, returns (extrap [a; b] 2 r) (fun x =>
  ofZ x = ((1 - ofZ r) * ofZ a + ofZ r * ofZ b)%F /\ (- P < x < P)%Z).
Proof.
  intros a b r. unfold extrap. cbn [for_ bind rd nth_error]. eexists. split; [reflexivity|].
  split; [|apply rem_bound]. rewrite ofZ_rem. unfold lagrange. cbn [seq fold_left Nat.eqb].
  assert (E0 : mpz_inv (Z.rem (Z.of_nat 0 - Z.of_nat 1) P) = (P - 1)%Z) by (vm_compute; reflexivity).
  assert (E1 : mpz_inv (Z.rem (Z.of_nat 1 - Z.of_nat 0) P) = 1%Z) by (vm_compute; reflexivity).
  rewrite E0, E1. change (Z.of_nat 0) with 0%Z. change (Z.of_nat 1) with 1%Z.
  rewrite !ofZ_add, !ofZ_mul, !ofZ_sub, !ofZ_P. change (ofZ 0) with 0%F. change (ofZ 1) with 1%F. ring.
Qed.

(** ** A layer of additions *)
Lemma addtree_ok : forall logS gates z ri rnew, length z = logS -> length gates = 2 ^ S logS -> (- P < ri < P)%Z ->
  returns (sum_check_addtree logS gates z ri rnew) (fun '(fail, z', r3) =>
    (fail = false <-> ofZ ri = mle (pt z) (fun i => fent gates (2 * i) + fent gates (2 * i + 1))%F) /\
    z' = z ++ [rnew] /\ ofZ r3 = mle (pt z') (fent gates) /\ (- P < r3 < P)%Z).
Proof.
  intros logS gates z ri rnew Lz Lg Hri. unfold sum_check_addtree. rewrite Lz, Nat.ltb_irrefl. cbn [bind].
  rewrite <- Lz, firstn_all. destruct (weights_ok z) as [LW HW]. rewrite <- Lz, Nat.pow_succ_r' in Lg.
  eapply returns_bind.
  { apply (returns_for _ (length (weights z)) 0 _ (fun k (s : Z * Z) =>
      ofZ (fst s) = sumn k (fun x => (eqw (pt z) x * fent gates (2 * x))%F) /\
      ofZ (snd s) = sumn k (fun x => (eqw (pt z) x * fent gates (2 * x + 1))%F))).
    - split; reflexivity.
    - intros i [v0 v1] Hi [A B]. cbn [fst snd] in *. eapply returns_bind.
      { apply rd_nth with (Q := fun w => w = nth i (weights z) 0%Z); [lia|reflexivity]. }
      intros w ->. eapply returns_bind.
      { apply rd_nth with (Q := fun w => w = nth (2 * i) gates 0%Z); [lia|reflexivity]. }
      intros a ->. eapply returns_bind.
      { apply rd_nth with (Q := fun w => w = nth (2 * i + 1) gates 0%Z); [lia|reflexivity]. }
      intros b ->. apply returns_ok. cbn [fst snd]. rewrite !ofZ_add, !ofZ_mul, A, B.
      fold (fent (weights z) i) (fent gates (2 * i)) (fent gates (2 * i + 1)). rewrite HW by lia.
      cbn [sumn]. split; ring. }
  intros [v0 v1] [A B]. cbn [fst snd] in A, B. rewrite Nat.add_0_l, LW in A, B.
  rewrite <- (pt_length z) in A, B.
  change (ofZ v0 = mle (pt z) (fun x => fent gates (2 * x))) in A.
  change (ofZ v1 = mle (pt z) (fun x => fent gates (2 * x + 1))) in B.
  eapply returns_bind; [apply extrap2_ok|]. intros r3 [E3 B3]. apply returns_ok.
  split; [|split; [reflexivity|split; [|exact B3]]].
  - rewrite differ_spec by (apply rem_bound || exact Hri). rewrite ofZ_rem, ofZ_add, A, B, <- mle_add. split; intro; congruence.
  - rewrite pt_snoc, mle_cons, E3, A, B, <- !mle_scal, <- mle_add. apply mle_ext. intros i _. unfold fold1. ring.
Qed.

(** ** The circuit *)
Lemma eval_level_ok : forall S in1 in2 mul below,
  (forall j, j < S -> in1 j < length below /\ in2 j < length below) ->
  returns (eval_level S in1 in2 mul below) (fun l => length l = S /\
    forall j, j < S -> fent l j = (if mul then fent below (in1 j) * fent below (in2 j) else fent below (in1 j) + fent below (in2 j))%F).
Proof.
  intros S in1 in2 mul below H. unfold eval_level.
  apply (returns_for _ S 0 _ (fun k l => length l = k /\ forall j, j < k ->
     fent l j = (if mul then fent below (in1 j) * fent below (in2 j) else fent below (in1 j) + fent below (in2 j))%F)).
  - split; [reflexivity|lia].
  - intros i l Hi [L E]. destruct (H i ltac:(lia)). eapply returns_bind.
    { apply rd_nth with (Q := fun w => w = nth (in1 i) below 0%Z); [lia|reflexivity]. }
    intros a ->. eapply returns_bind.
    { apply rd_nth with (Q := fun w => w = nth (in2 i) below 0%Z); [lia|reflexivity]. }
    intros b ->. apply returns_ok. split; [rewrite app_length; simpl; lia|].
    intros j Hj. destruct (Nat.eq_dec j i) as [->|N].
    + unfold fent. rewrite app_nth2 by lia. rewrite L, Nat.sub_diag. cbn [nth]. rewrite ofZ_rem.
      destruct mul; [apply ofZ_mul|apply ofZ_add].
    + rewrite <- (E j) by lia. unfold fent. rewrite app_nth1 by lia. reflexivity.
Qed.

(** [k] layers of pairwise sums, the first of size [2 ^ m], down to layer [k]. *)
Fixpoint tower (ls : list (list Z)) (m k : nat) : Prop :=
  match k, ls with
  | 0, t :: _ => length t = 2 ^ m
  | S k', t :: ((u :: _) as ls') => length t = 2 ^ m /\
      (forall j, j < 2 ^ m -> fent t j = fent u (2 * j) + fent u (2 * j + 1))%F /\ tower ls' (S m) k'
  | _, _ => False
  end.
Lemma tower_len : forall ls m k, tower ls m k -> exists t r, ls = t :: r /\ length t = 2 ^ m.
Proof.
  intros [|t [|u r]] m [|k] H; simpl in H; try contradiction; try (eexists; eexists; split; [reflexivity|]; tauto).
Qed.
Lemma add_levels_ok : forall k top ls m k0, tower (top :: ls) (m + k) k0 ->
  returns (add_levels k top ls) (fun res => tower res m (k0 + k) /\
    (forall i, nth_error (top :: ls) i = nth_error res (k + i)) /\
    exists L r, res = L :: r /\
    forall i, i < 2 ^ m -> fent L i = sumn (2 ^ k) (fun t => fent top (i * 2 ^ k + t))).
Proof.
  induction k as [|k IH]; intros top ls m k0 T; cbn [add_levels].
  - rewrite Nat.add_0_r in *. apply returns_ok. split; [exact T|]. split; [reflexivity|].
    exists top, ls. split; [reflexivity|]. intros i _. simpl. rewrite Nat.mul_1_r, Nat.add_0_r. ring.
  - destruct (tower_len _ _ _ T) as [t [r [E L]]]. injection E as <- <-.
    rewrite Nat.add_succ_r, Nat.pow_succ_r' in L.
    assert (Hd : length top / 2 = 2 ^ (m + k)) by (rewrite L, Nat.mul_comm; apply Nat.div_mul; lia).
    eapply returns_bind.
    + apply eval_level_ok. rewrite Hd. intros j Hj. lia.
    + rewrite Hd. intros l [Ll El]. eapply returns_conseq.
      * apply (IH l (top :: ls) m (S k0)). cbn [tower]. split; [exact Ll|]. split; [exact El|].
        rewrite <- Nat.add_succ_r. exact T.
      * intros res [R1 [R2 [L0 [r [R3 R4]]]]]. rewrite <- plus_n_Sm. split; [exact R1|]. split.
        -- intro i. rewrite plus_Sn_m, plus_n_Sm, <- (R2 (S i)). reflexivity.
        -- exists L0, r. split; [exact R3|]. intros i Hi. rewrite R4 by exact Hi.
           rewrite Nat.pow_succ_r', sumn_double. apply sumn_ext. intros t Ht.
           assert (i * 2 ^ k + t < 2 ^ (m + k)) by (rewrite Nat.pow_add_r; nia).
           rewrite El by assumption. f_equal; f_equal; lia.
Qed.

Lemma mm_in1_eq : forall d i j k, i < 2 ^ d -> j < 2 ^ d -> k < 2 ^ d ->
  mm_in1 d ((i * 2 ^ d + j) * 2 ^ d + k) = i * 2 ^ d + k.
Proof.
  intros d i j k Hi Hj Hk. unfold mm_in1. cbv zeta.
  assert (O : forall x, Nat.land x (2 ^ d - 1) = x mod 2 ^ d).
  { intro x. replace (2 ^ d - 1) with (Nat.ones d) by (rewrite Nat.ones_equiv; lia). apply Nat.land_ones. }
  assert (2 ^ d <> 0) by (apply Nat.pow_nonzero; lia).
  rewrite !O, Nat.shiftr_div_pow2, Nat.shiftl_mul_pow2.
  replace (2 * d) with (d + d) by lia. rewrite Nat.pow_add_r, <- Nat.div_div by assumption.
  rewrite (Nat.add_comm _ k), Nat.div_add, Nat.mod_add by assumption.
  rewrite (Nat.div_small k), (Nat.mod_small k), Nat.add_0_l by assumption.
  rewrite (Nat.add_comm _ j), Nat.div_add by assumption.
  rewrite (Nat.div_small j), Nat.add_0_l by assumption. rewrite Nat.mod_small by assumption. reflexivity.
Qed.
Lemma mm_in2_eq : forall d i j k, j < 2 ^ d -> k < 2 ^ d ->
  mm_in2 d ((i * 2 ^ d + j) * 2 ^ d + k) = 2 ^ (2 * d) + (j * 2 ^ d + k).
Proof.
  intros d i j k Hj Hk. unfold mm_in2. assert (2 ^ (2 * d) <> 0) by (apply Nat.pow_nonzero; lia).
  replace (2 ^ (2 * d) - 1) with (Nat.ones (2 * d)) by (rewrite Nat.ones_equiv; lia).
  rewrite Nat.land_ones, Nat.ones_equiv.
  assert (E : 2 ^ (2 * d) = 2 ^ d * 2 ^ d) by (rewrite <- Nat.pow_add_r; f_equal; lia).
  replace ((i * 2 ^ d + j) * 2 ^ d + k) with ((j * 2 ^ d + k) + i * 2 ^ (2 * d)) by (rewrite E; ring).
  rewrite Nat.mod_add by assumption. rewrite Nat.mod_small by (rewrite E; nia). lia.
Qed.

Lemma evaluate_ok : forall d input, 3 * d <= 30 -> length input = 2 * 2 ^ (2 * d) ->
  returns (evaluate d input) (fun ls => tower ls (2 * d) d /\
    (exists m, nth d ls [] = m /\ nth_error ls (S d) = Some input /\ forall p, p < 2 ^ (3 * d) ->
       fent m p = fent input (mm_in1 d p) * fent input (mm_in2 d p))%F /\
    exists L r, ls = L :: r /\ length L = 2 ^ (2 * d) /\
    forall i j, i < 2 ^ d -> j < 2 ^ d -> fent L (i * 2 ^ d + j) =
      sumn (2 ^ d) (fun k => fent input (i * 2 ^ d + k) * fent input (2 ^ (2 * d) + (j * 2 ^ d + k)))%F).
Proof.
  intros d input Hd L. unfold evaluate. replace (30 <? 3 * d) with false by (symmetry; apply Nat.ltb_ge; exact Hd).
  clear Hd. assert (E2 : 2 ^ (2 * d) = 2 ^ d * 2 ^ d) by (rewrite <- Nat.pow_add_r; f_equal; lia).
  assert (E3 : 2 ^ (3 * d) = 2 ^ d * 2 ^ d * 2 ^ d) by (rewrite <- !Nat.pow_add_r; f_equal; lia).
  assert (N : 2 ^ d <> 0) by (apply Nat.pow_nonzero; lia).
  assert (split3 : forall p, p < 2 ^ (3 * d) -> exists i j k, i < 2 ^ d /\ j < 2 ^ d /\ k < 2 ^ d /\ p = (i * 2 ^ d + j) * 2 ^ d + k).
  { intros p Hp. exists (p / 2 ^ d / 2 ^ d), ((p / 2 ^ d) mod 2 ^ d), (p mod 2 ^ d).
    split; [|split; [apply Nat.mod_upper_bound, N|split; [apply Nat.mod_upper_bound, N|]]].
    - apply Nat.div_lt_upper_bound; [exact N|]. apply Nat.div_lt_upper_bound; [exact N|]. lia.
    - pose proof (Nat.div_mod p _ N). pose proof (Nat.div_mod (p / 2 ^ d) _ N). nia. }
  eapply returns_bind.
  - apply eval_level_ok. intros p Hp. destruct (split3 p Hp) as [i [j [k [Hi [Hj [Hk ->]]]]]].
    rewrite mm_in1_eq, mm_in2_eq by assumption. rewrite L, E2. split; nia.
  - intros m [Lm Em]. eapply returns_conseq.
    + apply (add_levels_ok d m [input] (2 * d) 0). cbn [tower]. rewrite Lm. f_equal. lia.
    + intros ls [T [Hn [L0 [r [-> R]]]]]. split; [exact T|]. split.
      { exists m. split; [|split; [|exact Em]].
        - specialize (Hn 0). rewrite Nat.add_0_r in Hn. symmetry in Hn. exact (nth_error_nth _ _ _ Hn).
        - specialize (Hn 1). rewrite Nat.add_1_r in Hn. symmetry. exact Hn. }
      exists L0, r. split; [reflexivity|].
      split. { destruct (tower_len _ _ _ T) as [t [r' [E Lt]]]. injection E as <- <-. exact Lt. }
      intros i j Hi Hj. rewrite R by (rewrite E2; nia). apply sumn_ext. intros k Hk.
      rewrite Em by (rewrite E3; nia). rewrite mm_in1_eq, mm_in2_eq by assumption. reflexivity.
Qed.

(** ** The layers of additions in [main] *)
Lemma trees_ok : forall rs ls m z ri f, tower ls m (length rs) -> length z = m -> (- P < ri < P)%Z ->
  ofZ ri = mle (pt z) (fent (hd [] ls)) ->
  returns (trees ls m z ri rs f) (fun '(f', z', ri') => f' = f /\ z' = z ++ rs /\ (- P < ri' < P)%Z /\
    ofZ ri' = mle (pt z') (fent (nth (length rs) ls []))).
Proof.
  induction rs as [|a rs IH]; intros ls m z ri f T Lz B E.
  - replace (trees ls m z ri [] f) with (Ok (f, z, ri)) by (destruct ls; reflexivity).
    apply returns_ok. rewrite app_nil_r. split; [reflexivity|]. split; [reflexivity|]. split; [exact B|].
    rewrite E. destruct ls; reflexivity.
  - cbn [length] in T. destruct ls as [|t [|u ls]]; try (exfalso; exact T). destruct T as [Lt [Ht T]]. cbn [trees].
    destruct (tower_len _ _ _ T) as [u' [r' [Eu Lu]]]. injection Eu as <- <-.
    eapply returns_bind; [apply addtree_ok; [exact Lz|exact Lu|exact B]|].
    intros [[f' z'] r3] [Hf [-> [H3 B3]]]. cbn [hd] in E.
    replace f' with false.
    2:{ symmetry. apply Hf. rewrite E. apply mle_ext. intros i Hi. rewrite pt_length, Lz in Hi. apply Ht, Hi. }
    rewrite orb_false_r. eapply returns_conseq.
    + apply (IH (u :: ls) (S m) (z ++ [a]) r3 f T); [rewrite app_length; simpl; lia|exact B3|exact H3].
    + intros [[f2 z2] r4] [-> [-> [B4 E4]]]. rewrite <- app_assoc in *. cbn [app length nth] in *.
      split; [reflexivity|]. split; [reflexivity|]. split; [exact B4|exact E4].
Qed.

(** ** The checks of sum_check_mm *)
(** A computation that returns or is undefined. *)
Definition ok_or_ub {A} (m : outcome A) : Prop := m = UB \/ exists a, m = Ok a.
Lemma oub_ok : forall A (a : A), ok_or_ub (Ok a). Proof. intros. right. eauto. Qed.
Lemma oub_ub : forall A, ok_or_ub (@UB A). Proof. intros. left. reflexivity. Qed.
Lemma oub_bind : forall A B (m : outcome A) (k : A -> outcome B), ok_or_ub m -> (forall a, ok_or_ub (k a)) -> ok_or_ub (bind m k).
Proof. intros A B m k [->|[a ->]] H; [left; reflexivity|apply H]. Qed.
Lemma oub_rd : forall A (l : list A) i, ok_or_ub (rd l i).
Proof. intros. unfold rd. destruct (nth_error l i); [apply oub_ok|apply oub_ub]. Qed.
Lemma oub_idx : forall z, ok_or_ub (idx z).
Proof. intros. unfold idx. destruct (_ <? _)%Z; [apply oub_ub|apply oub_ok]. Qed.
Lemma oub_for : forall A n st (b : nat -> A -> outcome A) s, (forall i s, ok_or_ub (b i s)) -> ok_or_ub (for_ n st b s).
Proof. induction n; intros; cbn [for_]; [apply oub_ok|]. apply oub_bind; auto. Qed.
Lemma for_last : forall A n st (b : nat -> A -> outcome A) s, for_ (S n) st b s = bind (for_ n st b s) (b (st + n)).
Proof.
  induction n as [|n IH]; intros st b s.
  - cbn [for_ bind]. rewrite Nat.add_0_r. destruct (b st s); reflexivity.
  - change (for_ (S (S n)) st b s) with (bind (b st s) (for_ (S n) (S st) b)).
    change (for_ (S n) st b s) with (bind (b st s) (for_ n (S st) b)).
    destruct (b st s); cbn [bind]; try reflexivity. rewrite IH. rewrite Nat.add_succ_r. reflexivity.
Qed.
Lemma oub_extrap : forall v n r, ok_or_ub (extrap v n r).
Proof.
  intros. unfold extrap. apply oub_bind; [|intro; apply oub_ok]. apply oub_for. intros.
  apply oub_bind; [apply oub_rd|intro; apply oub_ok].
Qed.
Lemma oub_get2 : forall p i, ok_or_ub (get2 p i).
Proof.
  intros. unfold get2. apply oub_bind; [apply oub_idx|]. intro. apply oub_bind; [apply oub_rd|]. intro.
  apply oub_bind; [apply oub_rd|]. intro. apply oub_bind; [apply oub_rd|]. intro. apply oub_ok.
Qed.
Lemma oub_check : forall d poly r n j f, ok_or_ub (mm_check d poly r n j f).
Proof.
  intros. unfold mm_check. apply oub_bind; [apply oub_bind; [apply oub_idx|intro; apply oub_rd]|]. intro.
  apply oub_bind; [apply oub_bind; [apply oub_idx|intro; apply oub_rd]|]. intro.
  apply oub_bind; [apply oub_extrap|]. intro. apply oub_bind; [apply oub_get2|]. intro. apply oub_ok.
Qed.
(** The check of the last round reads [r[-1]]. *)
Lemma mm_check_last : forall d poly r n f, mm_check d poly r n (3 * d - 1) f = UB.
Proof.
  intros. unfold mm_check.
  assert (ok_or_ub (i <- idx (3 * d - 1 - 1) ;; rd poly i)) as [->|[q ->]]
    by (apply oub_bind; [apply oub_idx|intro; apply oub_rd]); [reflexivity|].
  cbn [bind]. replace (3 * d - 1 - (3 * d - 1) - 1)%Z with (-1)%Z by lia. reflexivity.
Qed.
Lemma mm_checks_ub : forall d poly r ri, length poly = 3 * d -> mm_checks d poly r ri = UB.
Proof.
  intros d poly r ri L. unfold mm_checks. destruct d as [|d].
  - destruct poly; [reflexivity|discriminate].
  - cbv zeta. destruct (oub_get2 poly 0) as [->|[s ->]]; [reflexivity|]. cbn [bind].
    assert (ok_or_ub (forz 1 (Z.of_nat (S d) * 2) (mm_check (Z.of_nat (S d)) poly r 3) (differ s ri))) as [->|[f ->]]
      by (unfold forz; apply oub_for; intros; apply oub_check); [reflexivity|].
    cbn [bind]. unfold forz. replace (Z.to_nat (3 * Z.of_nat (S d) - 2 * Z.of_nat (S d))) with (S d) by lia.
    rewrite for_last.
    match goal with |- bind ?m _ = _ => assert (ok_or_ub m) as [->|[g ->]] by (apply oub_for; intros; apply oub_check) end; [reflexivity|].
    cbn [bind]. replace (2 * Z.of_nat (S d) + Z.of_nat (0 + d))%Z with (3 * Z.of_nat (S d) - 1)%Z by lia.
    apply mm_check_last.
Qed.
Lemma extrap_ok : forall v n r, n <= length v -> returns (extrap v n r) (fun _ => True).
Proof.
  intros v n r H. unfold extrap. eapply returns_bind.
  - apply (returns_for _ n 0 _ (fun _ _ => True)); [exact I|]. intros i s Hi _.
    eapply returns_bind; [apply rd_nth with (Q := fun _ => True); [lia|exact I]|]. intros. apply returns_ok, I.
  - intros. apply returns_ok, I.
Qed.
Lemma rd_in : forall A (l : list A) i, i < length l -> returns (rd l i) (fun x => In x l).
Proof.
  intros A l i H. destruct (nth_error l i) as [x|] eqn:E; [|apply nth_error_None in E; lia].
  eapply returns_rd; [exact E|]. eapply nth_error_In, E.
Qed.
Lemma mm_check_before : forall d poly r n j f, length poly = 3 * d -> (forall q, In q poly -> length q = 4) ->
  length r = 3 * d + 1 -> n <= 4 -> (1 <= j < 3 * Z.of_nat d - 1)%Z ->
  returns (mm_check (Z.of_nat d) poly r n j f) (fun _ => True).
Proof.
  intros d poly r n j f Lp Hq Lr Hn Hj. unfold mm_check, get2.
  eapply returns_bind with (Q := fun q => In q poly).
  { eapply returns_bind; [apply returns_idx with (Q := fun i => i = Z.to_nat (j - 1)); [lia|reflexivity]|].
    intros i ->. apply rd_in. lia. }
  intros q Iq. eapply returns_bind with (Q := fun _ => True).
  { eapply returns_bind; [apply returns_idx with (Q := fun i => i = Z.to_nat (3 * Z.of_nat d - 1 - j - 1)); [lia|reflexivity]|].
    intros i ->. eapply returns_conseq; [apply rd_in; lia|]. auto. }
  intros c _. eapply returns_bind; [apply extrap_ok; rewrite (Hq q Iq); exact Hn|].
  intros x _. eapply returns_bind with (Q := fun _ => True); [|intros; apply returns_ok, I].
  eapply returns_bind; [apply returns_idx with (Q := fun i => i = Z.to_nat j); [lia|reflexivity]|].
  intros i ->. eapply returns_bind; [apply rd_in; lia|]. intros q' Iq'. pose proof (Hq q' Iq').
  eapply returns_bind; [apply rd_in; lia|]. intros a _.
  eapply returns_bind; [apply rd_in; lia|]. intros b _. apply returns_ok, I.
Qed.

(** ** The messages of sum_check_mm *)
Lemma shiftr_half : forall n, Nat.shiftr (2 ^ S n) 1 = 2 ^ n.
Proof. intro n. rewrite Nat.shiftr_div_pow2, Nat.pow_1_r, Nat.pow_succ_r', Nat.mul_comm. apply Nat.div_mul. lia. Qed.
Lemma updateV_ok : forall V n ri, 2 * n <= length V -> returns (updateV V n ri) (fun l => length l = n).
Proof.
  intros V n ri H. unfold updateV. apply (returns_for _ n 0 _ (fun k l => length l = k)); [reflexivity|].
  intros i l Hi L. eapply returns_bind; [apply rd_in; lia|]. intros a _. eapply returns_bind; [apply rd_in; lia|]. intros b _.
  apply returns_ok. rewrite app_length, L. simpl. lia.
Qed.
Lemma update_betavals_ok : forall B n z r, n <= length B -> returns (update_betavals B n z r) (fun l => length l = n).
Proof.
  intros B n z r H. unfold update_betavals. cbv zeta. apply (returns_for _ n 0 _ (fun k l => length l = k)); [reflexivity|].
  intros i l Hi L. eapply returns_bind; [apply rd_in; lia|]. intros a _.
  apply returns_ok. rewrite app_length, L. simpl. lia.
Qed.
Lemma at_ok : forall l i, (0 <= i < Z.of_nat (length l))%Z -> returns (at_ l i) (fun _ => True).
Proof.
  intros l i H. unfold at_. eapply returns_bind; [apply returns_idx with (Q := fun k => k = Z.to_nat i); [lia|reflexivity]|].
  intros k ->. eapply returns_conseq; [apply rd_in; lia|]. auto.
Qed.
Lemma mults_ok : forall d nj i k hi B V1 inv1 inv2 bu,
  (forall j, j < nj -> i * 2 ^ (2 * d) + (j * 2 ^ d + k) < length B /\ j * 2 ^ d + k < length V1) ->
  returns (mults d nj i k hi B V1 inv1 inv2 bu) (fun '(m0, m1, _) =>
    (ofZ m0 + ofZ m1 = sumn nj (fun j => fent B (i * 2 ^ (2 * d) + (j * 2 ^ d + k)) * fent V1 (j * 2 ^ d + k)))%F).
Proof.
  intros d nj i k hi B V1 inv1 inv2 bu H. unfold mults.
  apply (returns_for _ nj 0 _ (fun n (s : Z * Z * Z) => let '(m0, m1, _) := s in
    (ofZ m0 + ofZ m1 = sumn n (fun j => fent B (i * 2 ^ (2 * d) + (j * 2 ^ d + k)) * fent V1 (j * 2 ^ d + k)))%F)).
  - cbn [sumn]. change (ofZ 0) with 0%F. ring.
  - intros j [[m0 m1] m2] Hj E. rewrite !Nat.shiftl_mul_pow2. destruct (H j ltac:(lia)) as [H1 H2].
    eapply returns_bind.
    { apply rd_nth with (Q := fun w => w = nth (i * 2 ^ (2 * d) + (j * 2 ^ d + k)) B 0%Z); [exact H1|reflexivity]. }
    intros b ->. eapply returns_bind.
    { apply rd_nth with (Q := fun w => w = nth (j * 2 ^ d + k) V1 0%Z); [exact H2|reflexivity]. }
    intros v ->. apply returns_ok. cbn [sumn]. rewrite <- E. unfold fent.
    destruct (hi j); rewrite ofZ_add, ofZ_mul; ring.
Qed.
Lemma message3_ok : forall d ni nj hi B V0 V1 z,
  (forall i j k, i < ni -> j < nj -> k < 2 ^ d ->
     i * 2 ^ (2 * d) + (j * 2 ^ d + k) < length B /\ j * 2 ^ d + k < length V1) ->
  (forall i k, i < ni -> k < 2 ^ d -> i * 2 ^ d + k < length V0) ->
  returns (message3 d ni nj hi B V0 V1 z) (fun q => length q = 4 /\
    (fent q 0 + fent q 1 = sumn ni (fun i => sumn (2 ^ d) (fun k => fent V0 (i * 2 ^ d + k) *
       sumn nj (fun j => fent B (i * 2 ^ (2 * d) + (j * 2 ^ d + k)) * fent V1 (j * 2 ^ d + k)))))%F).
Proof.
  intros d ni nj hi B V0 V1 z H H0. unfold message3. cbv zeta.
  set (row := fun i k => (fent V0 (i * 2 ^ d + k) *
       sumn nj (fun j => fent B (i * 2 ^ (2 * d) + (j * 2 ^ d + k)) * fent V1 (j * 2 ^ d + k)))%F).
  eapply returns_bind.
  { apply (returns_for _ ni 0 _ (fun n (s : Z * Z * Z) => let '(p0, p1, _) := s in
      (ofZ p0 + ofZ p1 = sumn n (fun i => sumn (2 ^ d) (row i)))%F)).
    - cbn [sumn]. change (ofZ 0) with 0%F. ring.
    - intros i [[p0 p1] p2] Hi E. eapply returns_conseq.
      + apply (returns_for _ (2 ^ d) 0 _ (fun n (s : Z * Z * Z) => let '(p0, p1, _) := s in
          (ofZ p0 + ofZ p1 = sumn i (fun i => sumn (2 ^ d) (row i)) + sumn n (row i))%F)).
        * cbn [sumn]. rewrite E. ring.
        * clear p0 p1 p2 E. intros k [[p0 p1] p2] Hk E. eapply returns_bind.
          { apply mults_ok. intros j Hj. apply H; lia. }
          intros [[m0 m1] m2] Em. rewrite Nat.shiftl_mul_pow2. eapply returns_bind.
          { apply rd_nth with (Q := fun w => w = nth (i * 2 ^ d + k) V0 0%Z); [apply H0; lia|reflexivity]. }
          intros v ->. apply returns_ok. cbn [sumn].
          assert (R : row i k = (fent V0 (i * 2 ^ d + k) * (ofZ m0 + ofZ m1))%F) by (unfold row; rewrite Em; reflexivity).
          rewrite R. transitivity (ofZ p0 + ofZ p1 + fent V0 (i * 2 ^ d + k) * (ofZ m0 + ofZ m1))%F.
          -- rewrite !ofZ_add, !ofZ_mul. unfold fent. ring.
          -- rewrite E. ring.
      + intros [[a b] c] E'. rewrite Nat.add_0_l in E'. cbn [sumn]. exact E'. }
  intros [[p0 p1] p2] E. apply returns_ok. split; [reflexivity|]. unfold fent at 1 2. cbn [nth].
  rewrite !ofZ_rem. exact E.
Qed.
(** All messages have four numbers, and the first has the property [H]. *)
Definition msgs (n : nat) (H : list Z -> Prop) (poly : list (list Z)) : Prop :=
  length poly = n /\ (forall q, In q poly -> length q = 4) /\ match poly with [] => True | q :: _ => H q end.
Lemma msgs_snoc : forall n H poly q, msgs n H poly -> length q = 4 -> (n = 0 -> H q) -> msgs (S n) H (poly ++ [q]).
Proof.
  intros n H poly q [L [F4 Hh]] Lq Hq. split; [rewrite app_length; simpl; lia|]. split.
  - intros x I. apply in_app_or in I. destruct I as [I|[<-|[]]]; auto.
  - destruct poly; cbn [app]; [apply Hq; simpl in L; lia|exact Hh].
Qed.
Definition first_msg (d : nat) (B V0 V1 : list Z) (q : list Z) : Prop :=
  (fent q 0 + fent q 1 = sumn (2 ^ d) (fun i => sumn (2 ^ d) (fun k => fent V0 (i * 2 ^ d + k) *
       sumn (2 ^ d) (fun j => fent B (i * 2 ^ (2 * d) + (j * 2 ^ d + k)) * fent V1 (j * 2 ^ d + k)))))%F.
Lemma rounds_i_ok : forall d z r V1 B V0, length z = 3 * d -> length r = 3 * d + 1 ->
  length B = 2 ^ d * 2 ^ d * 2 ^ d -> length V0 = 2 ^ d * 2 ^ d -> length V1 = 2 ^ d * 2 ^ d ->
  returns (rounds_i d z r V1 (2 ^ d, B, V0)) (fun '(num, B', V0', poly) =>
    num = 1 /\ length B' = 2 ^ d * 2 ^ d /\ length V0' = 2 ^ d /\ msgs d (first_msg d B V0 V1) poly).
Proof.
  intros d z r V1 B V0 Lz Lr LB L0 L1. unfold rounds_i.
  assert (E2 : 2 ^ (2 * d) = 2 ^ d * 2 ^ d) by (rewrite <- Nat.pow_add_r; f_equal; lia).
  eapply returns_conseq.
  - apply (returns_for _ d 0 _ (fun t (s : nat * list Z * list Z * list (list Z)) => let '(num, B', V0', poly) := s in
      t <= d /\ num = 2 ^ (d - t) /\ length B' = num * 2 ^ d * 2 ^ d /\ length V0' = num * 2 ^ d /\
      msgs t (first_msg d B V0 V1) poly /\ (t = 0 -> B' = B /\ V0' = V0))).
    + rewrite Nat.sub_0_r. split; [lia|]. split; [reflexivity|]. split; [exact LB|]. split; [exact L0|].
      split; [|auto]. split; [reflexivity|]. split; [intros q []|exact I].
    + intros t [[[num B'] V0'] poly] Ht [_ [En [LB' [L0' [M S0]]]]].
      eapply returns_bind; [apply at_ok; lia|]. intros zr _.
      eapply returns_bind; [apply at_ok; lia|]. intros rr _.
      eapply returns_bind.
      { apply message3_ok.
        - intros i j k Hi Hj Hk. rewrite E2, LB', L1. split; [|nia].
          assert (j * 2 ^ d + k < 2 ^ d * 2 ^ d) by nia. rewrite <- Nat.mul_assoc. nia.
        - intros i k Hi Hk. rewrite L0'. nia. }
      intros q [Lq Hq]. destruct (d - t) as [|e] eqn:Ed; [lia|].
      assert (Eh : Nat.shiftr num 1 = 2 ^ e) by (rewrite En; apply shiftr_half). rewrite Eh.
      assert (E2n : num = 2 * 2 ^ e) by (rewrite En; apply Nat.pow_succ_r').
      eapply returns_bind; [apply update_betavals_ok; rewrite LB', E2n; rewrite <- !Nat.mul_assoc; set (u := 2 ^ e * (2 ^ d * 2 ^ d)); lia|].
      intros B2 LB2. eapply returns_bind; [apply updateV_ok; rewrite L0', E2n; rewrite <- !Nat.mul_assoc; set (u := 2 ^ e * 2 ^ d); lia|].
      intros V2 LV2. apply returns_ok. split; [lia|]. split; [f_equal; lia|]. split; [exact LB2|]. split; [exact LV2|].
      split; [|intro; lia]. apply msgs_snoc; [exact M|exact Lq|]. intros ->. destruct (S0 eq_refl) as [-> ->].
      unfold first_msg. rewrite Hq. replace num with (2 ^ d) by (rewrite En; f_equal; lia). reflexivity.
  - intros [[[num B'] V0'] poly] [_ [En [LB' [L0' [M _]]]]]. rewrite Nat.add_0_l, Nat.sub_diag in En. subst num.
    split; [reflexivity|]. split; [rewrite LB'; simpl; lia|]. split; [rewrite L0'; simpl; lia|]. exact M.
Qed.
Lemma rounds_j_ok : forall d z r V0 B V1 poly H, length z = 3 * d -> length r = 3 * d + 1 ->
  length B = 2 ^ d * 2 ^ d -> length V0 = 2 ^ d -> length V1 = 2 ^ d * 2 ^ d -> msgs d H poly ->
  returns (rounds_j d z r V0 (2 ^ d, B, V1, poly)) (fun '(num, B', V1', poly') =>
    num = 1 /\ length B' = 2 ^ d /\ length V1' = 2 ^ d /\ msgs (d + d) H poly').
Proof.
  intros d z r V0 B V1 poly H Lz Lr LB L0 L1 M0. unfold rounds_j.
  eapply returns_conseq.
  - apply (returns_for _ d d _ (fun t (s : nat * list Z * list Z * list (list Z)) => let '(num, B', V1', poly) := s in
      t <= d + d /\ num = 2 ^ (d + d - t) /\ length B' = num * 2 ^ d /\ length V1' = num * 2 ^ d /\ msgs t H poly)).
    + replace (d + d - d) with d by lia. split; [lia|]. split; [reflexivity|]. split; [exact LB|]. split; [exact L1|exact M0].
    + clear poly M0. intros t [[[num B'] V1'] poly] Ht [_ [En [LB' [L1' M]]]].
      eapply returns_bind; [apply at_ok; lia|]. intros zr _.
      eapply returns_bind; [apply at_ok; lia|]. intros rr _.
      eapply returns_bind.
      { apply message3_ok.
        - intros i j k Hi Hj Hk. assert (i = 0) as -> by lia. rewrite LB', L1'. split; nia.
        - intros i k Hi Hk. rewrite L0. nia. }
      intros q [Lq _]. destruct (d + d - t) as [|e] eqn:Ed; [lia|].
      assert (Eh : Nat.shiftr num 1 = 2 ^ e) by (rewrite En; apply shiftr_half). rewrite Eh.
      assert (E2n : num = 2 * 2 ^ e) by (rewrite En; apply Nat.pow_succ_r').
      eapply returns_bind; [apply update_betavals_ok; rewrite LB', E2n; rewrite <- !Nat.mul_assoc; set (u := 2 ^ e * 2 ^ d); lia|].
      intros B2 LB2. eapply returns_bind; [apply updateV_ok; rewrite L1', E2n; rewrite <- !Nat.mul_assoc; set (u := 2 ^ e * 2 ^ d); lia|].
      intros V2 LV2. apply returns_ok. split; [lia|]. split; [f_equal; lia|]. split; [exact LB2|]. split; [exact LV2|].
      apply msgs_snoc; [exact M|exact Lq|]. intros ->. lia.
  - intros [[[num B'] V1'] poly'] [_ [En [LB' [L1' M]]]]. rewrite Nat.sub_diag in En. subst num.
    split; [reflexivity|]. split; [rewrite LB'; simpl; lia|]. split; [rewrite L1'; simpl; lia|]. exact M.
Qed.
Lemma bit_set_pow : forall e k, k < 2 * 2 ^ e -> bit_set k (2 * 2 ^ e) = (2 ^ e <=? k).
Proof.
  intros e k Hk. unfold bit_set. rewrite <- Nat.pow_succ_r', shiftr_half.
  assert (N : 2 ^ e <> 0) by (apply Nat.pow_nonzero; lia).
  destruct (2 ^ e <=? k) eqn:C.
  - apply Nat.leb_le in C. apply negb_true_iff, Nat.eqb_neq. intro E.
    assert (T : Nat.testbit (Nat.land k (2 ^ e)) e = true).
    { rewrite Nat.land_spec, Nat.pow2_bits_true, andb_true_r. rewrite Nat.testbit_eqb.
      replace (k / 2 ^ e) with 1; [reflexivity|]. apply Nat.div_unique with (k - 2 ^ e); lia. }
    rewrite E, Nat.bits_0 in T. discriminate.
  - apply Nat.leb_gt in C. apply negb_false_iff, Nat.eqb_eq. apply Nat.bits_inj_0. intro n.
    rewrite Nat.land_spec, Nat.pow2_bits_eqb. destruct (e =? n) eqn:D; [|apply andb_false_r].
    apply Nat.eqb_eq in D. subst n. rewrite Nat.testbit_eqb, Nat.div_small by exact C. reflexivity.
Qed.
Lemma message4_ok : forall e B V0 V1 z, length B = 2 * 2 ^ e -> length V0 = 2 * 2 ^ e -> length V1 = 2 * 2 ^ e ->
  returns (message4 (2 * 2 ^ e) B V0 V1 z) (fun q => length q = 4).
Proof.
  intros e B V0 V1 z LB L0 L1. unfold message4. cbv zeta.
  assert (Eh : Nat.shiftr (2 * 2 ^ e) 1 = 2 ^ e) by (rewrite <- Nat.pow_succ_r'; apply shiftr_half). rewrite Eh.
  eapply returns_bind with (Q := fun _ => True); [|intros [[[p0 p1] p2] p3] _; apply returns_ok; reflexivity].
  apply (returns_for _ (2 * 2 ^ e) 0 _ (fun _ _ => True)); [exact I|].
  intros k [[[p0 p1] p2] p3] Hk _.
  eapply returns_bind; [apply rd_in; lia|]. intros b _. eapply returns_bind; [apply rd_in; lia|]. intros v0 _.
  eapply returns_bind; [apply rd_in; lia|]. intros v1 _. rewrite bit_set_pow by lia.
  destruct (2 ^ e <=? k) eqn:C; [apply Nat.leb_le in C|apply Nat.leb_gt in C];
    (eapply returns_bind; [apply at_ok; lia|]; intros w _; apply returns_ok; exact I).
Qed.
Lemma rounds_k_ok : forall d z r B V0 V1 poly H, length z = 3 * d -> length r = 3 * d + 1 ->
  length B = 2 ^ d -> length V0 = 2 ^ d -> length V1 = 2 ^ d -> msgs (2 * d) H poly ->
  returns (rounds_k d z r (2 ^ d, B, V0, V1, poly)) (fun '(_, _, _, _, poly') => msgs (2 * d + d) H poly').
Proof.
  intros d z r B V0 V1 poly H Lz Lr LB L0 L1 M0. unfold rounds_k.
  eapply returns_conseq.
  - apply (returns_for _ d (2 * d) _ (fun t (s : nat * list Z * list Z * list Z * list (list Z)) => let '(num, B', V0', V1', poly) := s in
      t <= 2 * d + d /\ num = 2 ^ (2 * d + d - t) /\ length B' = num /\ length V0' = num /\ length V1' = num /\ msgs t H poly)).
    + replace (2 * d + d - 2 * d) with d by lia. split; [lia|]. split; [reflexivity|]. split; [exact LB|]. split; [exact L0|]. split; [exact L1|exact M0].
    + clear poly M0. intros t [[[[num B'] V0'] V1'] poly] Ht [_ [En [LB' [L0' [L1' M]]]]].
      eapply returns_bind; [apply at_ok; lia|]. intros zr _.
      eapply returns_bind; [apply at_ok; lia|]. intros rr _.
      destruct (2 * d + d - t) as [|e] eqn:Ed; [lia|].
      assert (Eh : Nat.shiftr num 1 = 2 ^ e) by (rewrite En; apply shiftr_half).
      assert (E2n : num = 2 * 2 ^ e) by (rewrite En; apply Nat.pow_succ_r').
      eapply returns_bind; [rewrite E2n; apply message4_ok; congruence|]. intros q Lq. rewrite Eh.
      eapply returns_bind; [apply update_betavals_ok; lia|]. intros B2 LB2.
      eapply returns_bind; [apply updateV_ok; lia|]. intros V2 LV2.
      eapply returns_bind; [apply updateV_ok; lia|]. intros V3 LV3.
      apply returns_ok. split; [lia|]. split; [f_equal; lia|]. split; [exact LB2|]. split; [exact LV2|]. split; [exact LV3|].
      apply msgs_snoc; [exact M|exact Lq|]. intros ->. lia.
  - intros [[[[num B'] V0'] V1'] poly'] HI. exact (proj2 (proj2 (proj2 (proj2 (proj2 HI))))).
Qed.
Lemma fent_firstn : forall l n i, i < n -> fent (firstn n l) i = fent l i.
Proof.
  intros l n i H. unfold fent. f_equal. revert n i H. induction l as [|a l IH]; intros [|n] [|i] H; try lia; try reflexivity.
  cbn [firstn nth]. apply IH. lia.
Qed.
Lemma fent_skipn : forall l n i, fent (skipn n l) i = fent l (n + i).
Proof.
  intros l n i. unfold fent. f_equal. revert n i. induction l as [|a l IH]; intros [|n] i; try reflexivity.
  - destruct i; reflexivity.
  - cbn [skipn Nat.add nth]. apply IH.
Qed.
Lemma messages_ok : forall d gates z r, length gates = 2 * 2 ^ (2 * d) -> length z = 3 * d -> length r = 3 * d + 1 ->
  returns (mm_messages d gates z r) (fun poly => msgs (3 * d) (fun q =>
    fent q 0 + fent q 1 = mle (pt z) (fun p => fent gates (mm_in1 d p) * fent gates (mm_in2 d p)))%F poly).
Proof.
  intros d gates z r Lg Lz Lr. unfold mm_messages. cbv zeta.
  assert (E2 : 2 ^ (2 * d) = 2 ^ d * 2 ^ d) by (rewrite <- Nat.pow_add_r; f_equal; lia).
  assert (E3 : 2 ^ (3 * d) = 2 ^ d * 2 ^ d * 2 ^ d) by (rewrite <- !Nat.pow_add_r; f_equal; lia).
  rewrite Lz, Nat.ltb_irrefl. cbn [bind].
  replace (length gates <? 2 * 2 ^ d * 2 ^ d) with false by (symmetry; apply Nat.ltb_ge; rewrite Lg, E2, Nat.mul_assoc; lia).
  cbn [bind]. rewrite <- Lz, firstn_all, Lz.
  destruct (weights_ok z) as [LW HW]. rewrite Lz in LW, HW.
  set (V0 := firstn (2 ^ d * 2 ^ d) gates). set (V1 := firstn (2 ^ d * 2 ^ d) (skipn (2 ^ d * 2 ^ d) gates)).
  assert (L0 : length V0 = 2 ^ d * 2 ^ d) by (unfold V0; rewrite firstn_length_le; [reflexivity|rewrite Lg, E2; lia]).
  assert (L1 : length V1 = 2 ^ d * 2 ^ d) by (unfold V1; rewrite firstn_length_le; [reflexivity|rewrite skipn_length, Lg, E2; lia]).
  eapply returns_bind; [apply rounds_i_ok; [exact Lz|exact Lr|rewrite LW; exact E3|exact L0|exact L1]|].
  intros [[[n1 B1] W0] poly] [_ [LB1 [LW0 M]]].
  eapply returns_bind; [apply rounds_j_ok with (H := first_msg d (weights z) V0 V1); [exact Lz|exact Lr|exact LB1|exact LW0|exact L1|exact M]|].
  intros [[[n2 B2] W1] poly2] [_ [LB2 [LW1 M2]]].
  eapply returns_bind; [apply rounds_k_ok with (H := first_msg d (weights z) V0 V1); [exact Lz|exact Lr|exact LB2|exact LW0|exact LW1|]|].
  { replace (2 * d) with (d + d) by lia. exact M2. }
  intros [[[[n3 B3] X0] X1] poly3] [L3 [F3 H3]]. apply returns_ok. split; [rewrite L3; lia|]. split; [exact F3|].
  destruct poly3 as [|q poly3]; [exact I|]. rewrite H3. unfold mle. rewrite pt_length, Lz, E3, !sumn_mul_blocks.
  clear - HW E2 E3. apply sumn_ext. intros i Hi. 
  transitivity (sumn (2 ^ d) (fun k => sumn (2 ^ d) (fun j => fent V0 (i * 2 ^ d + k) *
    (fent (weights z) (i * 2 ^ (2 * d) + (j * 2 ^ d + k)) * fent V1 (j * 2 ^ d + k)))))%F.
  - apply sumn_ext. intros k Hk. symmetry. apply sumn_scal.
  - rewrite sumn_swap. apply sumn_ext. intros j Hj. apply sumn_ext. intros k Hk.
    rewrite mm_in1_eq, mm_in2_eq by assumption.
    replace (i * 2 ^ (2 * d) + (j * 2 ^ d + k)) with ((i * 2 ^ d + j) * 2 ^ d + k) by (rewrite E2; ring).
    rewrite HW by (rewrite E3; nia). unfold V0, V1. rewrite !fent_firstn by nia. rewrite fent_skipn, E2. ring.
Qed.

Lemma main_ok : forall d input z rs r, 3 * d <= 30 -> length input = 2 * 2 ^ (2 * d) ->
  length z = 2 * d -> length rs = d ->
  exists ri', (- P < ri' < P)%Z /\
    ofZ ri' = mle (pt (z ++ rs)) (fun p => fent input (mm_in1 d p) * fent input (mm_in2 d p))%F /\
    mm_main d input z rs r = (g <- sum_check_mm d input (z ++ rs) r ri' ;; Ok (false, g)).
Proof.
  intros d input z rs r Hd L Lz Lr.
  destruct (evaluate_ok d input Hd L) as [ls [E [T [[m [Em [En Hm]]] [L0 [rest [-> [LL _]]]]]]]].
  destruct (random_V_L_ok L0 z) as [ri [Er [Hr Br]]]; [rewrite Lz; exact LL|].
  destruct (trees_ok rs (L0 :: rest) (2 * d) z ri false) as [[[f z'] ri'] [Et [-> [-> [B' E']]]]];
    [rewrite Lr; exact T|exact Lz|exact Br|exact Hr|].
  exists ri'. split; [exact B'|]. split.
  - rewrite E', Lr, Em. apply mle_ext. intros p Hp. apply Hm. rewrite pt_length, app_length, Lz, Lr in Hp.
    replace (3 * d) with (2 * d + d) by lia. exact Hp.
  - unfold mm_main. rewrite E. cbn [bind]. change (rd (L0 :: rest) 0) with (Ok L0). cbn [bind]. rewrite Er. cbn [bind].
    rewrite Et. cbn [bind]. unfold rd at 1. rewrite En. reflexivity.
Qed.
