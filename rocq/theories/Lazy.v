(** * Lazily reduced expressions and arrays of field elements *)
From Coq Require Import ZArith List Bool Arith Lia Ring.
From Verif Require Import Limbs LimbsProofs Field FieldProofs Fp Base Poly FastProver.
Import ListNotations.
Open Scope nat_scope.

(** [lzy x a m n]: the 512-bit value [x] is at most [m P^2 + n P] and is
    congruent to [a]. *)
Definition lzy (x : u512) (a : F) (m n : Z) : Prop :=
  wf512 x /\ (val512 x <= m * P * P + n * P)%Z /\ ofZ (val512 x) = a.

Lemma modv_512 : modv = mod_512. Proof. vm_compute. reflexivity. Qed.
Lemma lz_bound_W512 : (16 * P * P + 1000 * P < W512)%Z. Proof. vm_compute. reflexivity. Qed.
Lemma lz_bound_W508 : (2 * P * P + 1000 * P < W508)%Z. Proof. vm_compute. reflexivity. Qed.
#[global] Opaque modv.

Section Pure.
Local Open Scope Z_scope.
Lemma lz_mono : forall m n m' n' Q, 0 < Q -> m <= m' -> n <= n' -> m * Q * Q + n * Q <= m' * Q * Q + n' * Q.
Proof. intros. pose proof (Z.mul_pos_pos Q Q H H). nia. Qed.
Lemma lz_sum : forall m n m' n' Q a b, a <= m * Q * Q + n * Q -> b <= m' * Q * Q + n' * Q ->
  a + b <= (m + m') * Q * Q + (n + n') * Q.
Proof. intros. lia. Qed.
Lemma lz_prod : forall Q a b, 0 <= a < Q -> 0 <= b < Q -> a * b <= 1 * Q * Q + 0 * Q.
Proof. intros. nia. Qed.
End Pure.

Lemma lzy_rep : forall x a, rep x a -> lzy x a 0 1.
Proof.
  intros x a [W V]. split; [exact W|]. rewrite V. pose proof (fz_range a). split; [lia|apply ofZ_fz].
Qed.
Lemma lzy_mod_raw : lzy modv 0%F 0 1.
Proof.
  rewrite modv_512. split; [apply wf_mod_512|]. rewrite val_mod_512. split; [lia|apply ofZ_P].
Qed.
Lemma lzy_add : forall x y a b m n m' n', lzy x a m n -> lzy y b m' n' ->
  ((m + m' <=? 16) && (n + n' <=? 1000))%Z = true -> lzy (u512_add x y) (a + b)%F (m + m')%Z (n + n')%Z.
Proof.
  intros x y a b m n m' n' (W & B & E) (W' & B' & E') K. apply andb_prop in K. destruct K as [K1 K2].
  apply Z.leb_le in K1. apply Z.leb_le in K2.
  pose proof (lz_sum _ _ _ _ _ _ _ B B') as S. pose proof (lz_mono _ _ _ _ P P_pos K1 K2) as M.
  pose proof lz_bound_W512 as L.
  destruct (u512_add_small x y W W') as [W2 V2]; [lia|].
  split; [exact W2|]. rewrite V2. split; [exact S|]. rewrite ofZ_add, E, E'. reflexivity.
Qed.
Lemma lzy_mul : forall x y a b, rep x a -> rep y b -> lzy (u512_mul x y) (a * b)%F 1 0.
Proof.
  intros x y a b [W V] [W' V']. pose proof (fz_range a) as A. pose proof (fz_range b) as B.
  pose proof P_lt_W256 as L.
  destruct (u512_mul_exact x y W W') as [W2 V2]; [lia|lia|].
  split; [exact W2|]. rewrite V2, V, V'. split; [apply lz_prod; assumption|reflexivity].
Qed.
Lemma lzy_mod : forall x a m n, lzy x a m n -> ((m <=? 2) && (n <=? 1000))%Z = true -> rep (u512_mod x) a.
Proof.
  intros x a m n (W & B & E) K. apply andb_prop in K. destruct K as [K1 K2].
  apply Z.leb_le in K1. apply Z.leb_le in K2.
  pose proof (lz_mono _ _ _ _ P P_pos K1 K2) as M. pose proof lz_bound_W508 as L.
  rewrite <- E. apply raw_mod; [split; auto|lia].
Qed.
(** [x + mod - y] *)
Lemma lzy_add_mod_sub : forall x y a b m n, lzy x a m n -> rep y b ->
  ((m <=? 15) && (n <=? 900))%Z = true -> lzy (u512_sub (u512_add x modv) y) (a - b)%F m (n + 1)%Z.
Proof.
  intros x y a b m n (W & B & E) [W' V'] K. apply andb_prop in K. destruct K as [K1 K2].
  apply Z.leb_le in K1. apply Z.leb_le in K2.
  pose proof (lz_mono _ _ _ _ P P_pos K1 K2) as M. pose proof lz_bound_W512 as L.
  pose proof (fz_range b) as Rb. pose proof P_pos. pose proof (val512_range x W) as Rx.
  assert (PP : (0 < P * P)%Z) by nia.
  rewrite modv_512. destruct (u512_add_small x mod_512 W wf_mod_512) as [W2 V2].
  { rewrite val_mod_512. lia. }
  rewrite val_mod_512 in V2.
  destruct (u512_sub_small (u512_add x mod_512) y W2 W') as [W3 V3]; [lia|].
  split; [exact W3|]. rewrite V3, V2, V'. split; [lia|].
  rewrite ofZ_sub, ofZ_add, ofZ_P, E, ofZ_fz. ring.
Qed.
(** [x - y + mod], where the subtraction may wrap around *)
Lemma lzy_sub_add_mod : forall x y a b m n, lzy x a m n -> rep y b ->
  ((m <=? 15) && (n <=? 900))%Z = true -> lzy (u512_add (u512_sub x y) modv) (a - b)%F m (n + 1)%Z.
Proof.
  intros x y a b m n (W & B & E) [W' V'] K. apply andb_prop in K. destruct K as [K1 K2].
  apply Z.leb_le in K1. apply Z.leb_le in K2.
  pose proof (lz_mono _ _ _ _ P P_pos K1 K2) as M. pose proof lz_bound_W512 as L.
  pose proof (fz_range b) as Rb. pose proof P_pos. pose proof (val512_range x W) as Rx.
  assert (PP : (0 < P * P)%Z) by nia.
  rewrite modv_512. destruct (u512_sub_exact x y W W') as [W2 V2].
  destruct (u512_add_exact (u512_sub x y) mod_512 W2 wf_mod_512) as [W3 V3].
  assert (V4 : val512 (u512_add (u512_sub x y) mod_512) = (val512 x - fz b + P)%Z).
  { rewrite V3, V2, val_mod_512, V'. rewrite Zplus_mod_idemp_l. apply Z.mod_small. lia. }
  split; [exact W3|]. rewrite V4. split; [lia|].
  rewrite ofZ_add, ofZ_sub, ofZ_P, E, ofZ_fz. ring.
Qed.
(** [mod - y] *)
Lemma lzy_mod_sub : forall y b, rep y b -> lzy (u512_sub modv y) (- b)%F 0 1.
Proof.
  intros y b [W' V']. pose proof (fz_range b) as Rb.
  rewrite modv_512. destruct (u512_sub_small mod_512 y wf_mod_512 W') as [W3 V3]; [rewrite val_mod_512; lia|].
  split; [exact W3|]. rewrite V3, val_mod_512, V'. split; [lia|]. rewrite ofZ_sub, ofZ_P, ofZ_fz. ring.
Qed.
(** [s = x + y; if(s >= mod) s = s - mod] *)
Lemma rep_cond_sub : forall x y a b, rep x a -> rep y b ->
  rep (let s := u512_add x y in if u512_ge s modv then u512_sub s modv else s) (a + b)%F.
Proof.
  intros x y a b [W V] [W' V']. pose proof (fz_range a) as Ra. pose proof (fz_range b) as Rb.
  pose proof P_lt_W256 as L. assert (L2 : (W256 + W256 < W512)%Z) by (vm_compute; reflexivity).
  cbv zeta. rewrite modv_512.
  destruct (u512_add_small x y W W') as [W2 V2]; [lia|].
  pose proof (u512_cmp (u512_add x y) mod_512 W2 wf_mod_512) as (G & _).
  rewrite V2, V, V', val_mod_512 in G.
  destruct (u512_ge (u512_add x y) mod_512).
  - destruct G as [G _]. specialize (G eq_refl).
    destruct (u512_sub_small (u512_add x y) mod_512 W2 wf_mod_512) as [W3 V3]; [rewrite val_mod_512; lia|].
    split; [exact W3|]. rewrite V3, V2, V, V', val_mod_512. cbn [fz Fadd ofZ].
    rewrite (Z.mod_eq _ _ P_nz). assert (Q : ((fz a + fz b) / P = 1)%Z).
    { symmetry. apply Z.div_unique with (r := (fz a + fz b - P)%Z); lia. }
    rewrite Q. lia.
  - assert (~ (fz a + fz b >= P)%Z) by (intro K; apply G in K; discriminate).
    split; [exact W2|]. rewrite V2, V, V'. cbn [fz Fadd ofZ]. symmetry. apply Z.mod_small. lia.
Qed.
Lemma rep_fix_neg : forall x a, rep x a -> rep (fix_neg x) a.
Proof.
  intros x a [W V]. unfold fix_neg.
  assert (W0 : wf512 u512_zero) by (vm_compute; intuition congruence).
  pose proof (u512_cmp x u512_zero W W0) as (_ & G & _).
  destruct (u512_lt x u512_zero); [|split; assumption].
  destruct G as [G _]. specialize (G eq_refl). pose proof (fz_range a).
  change (val512 u512_zero) with 0%Z in G. lia.
Qed.
Lemma rep_i0 : rep (fe_of_int 0) 0%F. Proof. apply rep_0. Qed.
Lemma rep_i1 : rep (fe_of_int 1) 1%F. Proof. apply rep_1. Qed.
Lemma rep_i2 : rep (fe_of_int 2) (1 + 1)%F.
Proof.
  apply (rep_eq _ (ofZ 2)); [|unfold F1; rewrite <- ofZ_add; reflexivity].
  apply rep_of_ull_small. rewrite W64_val; lia.
Qed.

(** Discharges [rep e ?a] and [lzy e ?a ?m ?n] goals following the syntax of [e]. *)
Ltac lz :=
  lazymatch goal with
  | |- rep ?x _ =>
    first [ eassumption
          | lazymatch x with
            | u512_mod _ => eapply lzy_mod; [lz | reflexivity]
            | fe_add _ _ => eapply rep_add; lz
            | fe_mul _ _ => eapply rep_mul; lz
            | fe_sub _ _ => eapply rep_sub; lz
            | fe_of_int 0%Z => exact rep_i0
            | fe_of_int 1%Z => exact rep_i1
            | fe_of_int 2%Z => exact rep_i2
            | fe_zero => exact rep_0
            | fix_neg _ => eapply rep_fix_neg; lz
            | _ => fail "lz rep"
            end ]
  | |- lzy ?x _ _ _ =>
    first [ eassumption
          | eapply lzy_rep; lz
          | lazymatch x with
            | u512_sub (u512_add _ modv) _ => eapply lzy_add_mod_sub; [lz | lz | reflexivity]
            | u512_add (u512_sub _ _) modv => eapply lzy_sub_add_mod; [lz | lz | reflexivity]
            | u512_sub modv _ => eapply lzy_mod_sub; lz
            | modv => exact lzy_mod_raw
            | u512_add _ _ => eapply lzy_add; [lz | lz | reflexivity]
            | u512_mul _ _ => eapply lzy_mul; lz
            | _ => fail "lz lzy"
            end ]
  end.
(** Proves [rep e a] from the syntax of [e], leaving the value equation to [ring]. *)
Ltac lzr := eapply rep_eq; [lz | try ring].

(** ** Arrays *)
(** The array [l] of size [N] holds representations of [f 0 .. f (n-1)]. *)
Definition tab (N : nat) (l : list fe) (n : nat) (f : nat -> F) : Prop :=
  length l = N /\ n <= N /\ forall i, i < n -> exists x, nth_error l i = Some x /\ rep x (f i).
(** The same for arrays of linear polynomials. *)
Definition ltab (N : nat) (l : list linear_poly) (n : nat) (fa fb : nat -> F) : Prop :=
  length l = N /\ n <= N /\
  forall i, i < n -> exists x, nth_error l i = Some x /\ rep (l_a x) (fa i) /\ rep (l_b x) (fb i).

Lemma tab_rd : forall N l n f i (Q : fe -> Prop), tab N l n f -> i < n ->
  (forall x, rep x (f i) -> Q x) -> returns (rd l i) Q.
Proof.
  intros N l n f i Q (L & Le & H) Hi K. destruct (H i Hi) as (x & E & R).
  eapply returns_rd; [exact E|]. apply K, R.
Qed.
Lemma tab_ext : forall N l n f g, tab N l n f -> (forall i, i < n -> f i = g i) -> tab N l n g.
Proof.
  intros N l n f g (L & Le & H) E. split; [exact L|]. split; [exact Le|].
  intros i Hi. rewrite <- E by exact Hi. apply H, Hi.
Qed.
Lemma tab_sub : forall N l n m f, tab N l n f -> m <= n -> tab N l m f.
Proof.
  intros N l n m f (L & Le & H) E. split; [exact L|]. split; [lia|]. intros i Hi. apply H. lia.
Qed.
Lemma tab_nil : forall l f, tab (length l) l 0 f.
Proof. intros. split; [reflexivity|]. split; [lia|]. intros. lia. Qed.
Lemma tab_len : forall N l n f, tab N l n f -> length l = N.
Proof. intros N l n f H. apply H. Qed.
Lemma tab_le : forall N l n f, tab N l n f -> n <= N.
Proof. intros N l n f H. apply H. Qed.
(** Writing index [k]. *)
Lemma tab_upd : forall N l n f k x a, tab N l n f -> k < N -> rep x a ->
  tab N (upd l k x) n (fun i => if i =? k then a else f i).
Proof.
  intros N l n f k x a (L & Le & H) Hk R. split; [rewrite upd_length; exact L|]. split; [exact Le|].
  intros i Hi. destruct (Nat.eqb_spec i k) as [->|Nk].
  - exists x. split; [apply nth_upd_same; lia|exact R].
  - rewrite nth_upd_other by congruence. apply H, Hi.
Qed.
(** Appending at the end of the known part. *)
Lemma tab_push : forall N l n f x, tab N l n f -> n < N -> rep x (f n) -> tab N (upd l n x) (S n) f.
Proof.
  intros N l n f x (L & Le & H) Hk R. split; [rewrite upd_length; exact L|]. split; [lia|].
  intros i Hi. destruct (Nat.eq_dec i n) as [->|Nk].
  - exists x. split; [apply nth_upd_same; lia|exact R].
  - rewrite nth_upd_other by congruence. apply H. lia.
Qed.
Lemma tab_wr : forall N l n f k x (Q : list fe -> Prop), tab N l n f -> k < N ->
  Q (upd l k x) -> returns (wr l k x) Q.
Proof. intros N l n f k x Q (L & _) Hk H. apply returns_wr; [lia|exact H]. Qed.
Lemma tab_inj : forall N l n f g, tab N l n f -> tab N l n g -> forall i, i < n -> f i = g i.
Proof.
  intros N l n f g (_ & _ & H) (_ & _ & H') i Hi. destruct (H i Hi) as (x & E & R).
  destruct (H' i Hi) as (y & E' & R'). rewrite E in E'. injection E' as <-. exact (rep_fun _ _ _ R R').
Qed.

Lemma ltab_rd : forall N l n fa fb i (Q : linear_poly -> Prop), ltab N l n fa fb -> i < n ->
  (forall x, rep (l_a x) (fa i) -> rep (l_b x) (fb i) -> Q x) -> returns (rd l i) Q.
Proof.
  intros N l n fa fb i Q (L & Le & H) Hi K. destruct (H i Hi) as (x & E & R1 & R2).
  eapply returns_rd; [exact E|]. apply K; assumption.
Qed.
Lemma ltab_ext : forall N l n fa fb ga gb, ltab N l n fa fb ->
  (forall i, i < n -> fa i = ga i) -> (forall i, i < n -> fb i = gb i) -> ltab N l n ga gb.
Proof.
  intros N l n fa fb ga gb (L & Le & H) Ea Eb. split; [exact L|]. split; [exact Le|].
  intros i Hi. rewrite <- Ea, <- Eb by exact Hi. apply H, Hi.
Qed.
Lemma ltab_sub : forall N l n m fa fb, ltab N l n fa fb -> m <= n -> ltab N l m fa fb.
Proof.
  intros N l n m fa fb (L & Le & H) E. split; [exact L|]. split; [lia|]. intros i Hi. apply H. lia.
Qed.
Lemma ltab_nil : forall l fa fb, ltab (length l) l 0 fa fb.
Proof. intros. split; [reflexivity|]. split; [lia|]. intros. lia. Qed.
Lemma ltab_upd : forall N l n fa fb k x a b, ltab N l n fa fb -> k < N -> rep (l_a x) a -> rep (l_b x) b ->
  ltab N (upd l k x) n (fun i => if i =? k then a else fa i) (fun i => if i =? k then b else fb i).
Proof.
  intros N l n fa fb k x a b (L & Le & H) Hk Ra Rb. split; [rewrite upd_length; exact L|]. split; [exact Le|].
  intros i Hi. destruct (Nat.eqb_spec i k) as [->|Nk].
  - exists x. split; [apply nth_upd_same; lia|]. split; [exact Ra|exact Rb].
  - rewrite nth_upd_other by congruence. apply H, Hi.
Qed.
Lemma ltab_push : forall N l n fa fb x, ltab N l n fa fb -> n < N -> rep (l_a x) (fa n) -> rep (l_b x) (fb n) ->
  ltab N (upd l n x) (S n) fa fb.
Proof.
  intros N l n fa fb x (L & Le & H) Hk Ra Rb. split; [rewrite upd_length; exact L|]. split; [lia|].
  intros i Hi. destruct (Nat.eq_dec i n) as [->|Nk].
  - exists x. split; [apply nth_upd_same; lia|]. split; [exact Ra|exact Rb].
  - rewrite nth_upd_other by congruence. apply H. lia.
Qed.
(** Adding [d] to the constant coefficient of entry [k]. *)
Lemma ltab_upd_b : forall N l n fa fb k d f (Q : list linear_poly -> Prop),
  ltab N l n fa fb -> k < n -> (forall b, rep b (fb k) -> rep (f b) (fb k + d)%F) ->
  (forall l', ltab N l' n fa (fun i => fb i + ind (i =? k) * d)%F -> Q l') ->
  returns (upd_b l k f) Q.
Proof.
  intros N l n fa fb k d f Q T Hk Hf K. unfold upd_b.
  assert (Hn : n <= N) by apply T. assert (HL : length l = N) by apply T.
  eapply returns_bind; [eapply (ltab_rd _ _ _ _ _ _ (fun x => rep (l_a x) (fa k) /\ rep (l_b x) (fb k)) T Hk); auto|].
  intros x [Ra Rb]. apply returns_wr; [lia|]. apply K.
  eapply ltab_ext; [apply (ltab_upd N l n fa fb k _ (fa k) (fb k + d)%F T); [lia|exact Ra|apply Hf, Rb]| |].
  - intros i Hi. cbv beta. destruct (Nat.eqb_spec i k); congruence.
  - intros i Hi. cbv beta. destruct (Nat.eqb_spec i k) as [->|]; cbn [ind]; ring.
Qed.

Lemma nth_repeat_Some : forall A (x : A) n i, i < n -> nth_error (repeat x n) i = Some x.
Proof. induction n; intros [|i] H; simpl; try lia; auto. apply IHn. lia. Qed.

(** A list of representations. *)
Definition reps (l : list fe) (a : list F) : Prop := Forall2 rep l a.
Lemma reps_length : forall l a, reps l a -> length l = length a.
Proof. intros l a H. induction H; simpl; congruence. Qed.
Lemma reps_tab : forall l a, reps l a -> tab (length l) l (length a) (fun i => nth i a 0%F).
Proof.
  intros l a H. split; [reflexivity|]. split; [rewrite (reps_length _ _ H); lia|].
  induction H as [|x b l a R H IH]; intros i Hi; [simpl in Hi; lia|].
  destruct i as [|i]; simpl; [exists x; auto|]. apply IH. simpl in Hi. lia.
Qed.
Lemma reps_rd : forall l a i (Q : fe -> Prop), reps l a -> i < length a ->
  (forall x, rep x (nth i a 0%F) -> Q x) -> returns (rd l i) Q.
Proof. intros l a i Q H Hi K. eapply tab_rd; [apply reps_tab, H|exact Hi|exact K]. Qed.
