(** * Openings by provers that combine the elements of the key

    Root counting for polynomial functions in several variables, and its
    application to the verification equations. *)
From Coq Require Import ZArith List Bool Arith Lia Ring.
From Verif Require Import Base Limbs Field FieldProofs Fp ArithProofs MleSpec Count SpecVpd.
From Verif Require Import VpdGroup VpdR VpdMask VpdInput VpdGroupProofs VpdRProofs VpdMaskProofs VpdInputProofs.
Import ListNotations.
Open Scope nat_scope.

(** ** One variable *)
Fixpoint polyfun (e : nat) (f : F -> F) : Prop :=
  match e with
  | O => exists c, forall t, f t = c
  | S e' => exists c g, polyfun e' g /\ forall t, (f t = c + t * g t)%F
  end.
Lemma polyfun_ext : forall e f g, (forall t, f t = g t) -> polyfun e f -> polyfun e g.
Proof.
  destruct e; simpl; intros f g E.
  - intros [c H]. exists c. intro t. rewrite <- E. apply H.
  - intros (c & h & Ph & H). exists c, h. split; [exact Ph|]. intro t. rewrite <- E. apply H.
Qed.
Lemma polyfun_const : forall e c, polyfun e (fun _ => c).
Proof.
  induction e; intro c; simpl; [exists c; reflexivity|]. exists c, (fun _ => 0%F). split; [apply IHe|].
  intro t. ring.
Qed.
Lemma polyfun_S : forall e f, polyfun e f -> polyfun (S e) f.
Proof.
  induction e; intros f H.
  - destruct H as [c H]. exists c, (fun _ => 0%F). split; [apply polyfun_const|]. intro t. rewrite H. ring.
  - destruct H as (c & g & Pg & H). exists c, g. split; [apply IHe, Pg|exact H].
Qed.
Lemma polyfun_le : forall e e' f, e <= e' -> polyfun e f -> polyfun e' f.
Proof. intros e e' f L H. induction L; [exact H|apply polyfun_S; exact IHL]. Qed.
Lemma polyfun_id : polyfun 1 (fun t => t).
Proof. exists 0%F, (fun _ => 1%F). split; [apply (polyfun_const 0)|]. intro t. ring. Qed.
Lemma polyfun_add : forall e f g, polyfun e f -> polyfun e g -> polyfun e (fun t => f t + g t)%F.
Proof.
  induction e; intros f g Hf Hg.
  - destruct Hf as [c Hf], Hg as [d Hg]. exists (c + d)%F. intro t. rewrite Hf, Hg. reflexivity.
  - destruct Hf as (c & f' & Pf & Hf), Hg as (d & g' & Pg & Hg). exists (c + d)%F, (fun t => f' t + g' t)%F.
    split; [apply IHe; assumption|]. intro t. rewrite Hf, Hg. ring.
Qed.
Lemma polyfun_scal : forall e c f, polyfun e f -> polyfun e (fun t => c * f t)%F.
Proof.
  induction e; intros c f H.
  - destruct H as [d H]. exists (c * d)%F. intro t. rewrite H. reflexivity.
  - destruct H as (d & g & Pg & H). exists (c * d)%F, (fun t => c * g t)%F. split; [apply IHe, Pg|].
    intro t. rewrite H. ring.
Qed.
Lemma polyfun_sub : forall e f g, polyfun e f -> polyfun e g -> polyfun e (fun t => f t - g t)%F.
Proof.
  intros e f g Hf Hg. apply (polyfun_ext _ (fun t => f t + (0 - 1) * g t)%F); [intro t; ring|].
  apply polyfun_add; [exact Hf|apply polyfun_scal, Hg].
Qed.
Lemma polyfun_mul : forall e e' f g, polyfun e f -> polyfun e' g -> polyfun (e + e') (fun t => f t * g t)%F.
Proof.
  induction e; intros e' f g Hf Hg.
  - destruct Hf as [c H]. apply (polyfun_ext _ (fun t => c * g t)%F); [intro t; rewrite H; reflexivity|].
    apply polyfun_scal, Hg.
  - destruct Hf as (c & h & Ph & H).
    apply (polyfun_ext _ (fun t => c * g t + t * (h t * g t))%F); [intro t; rewrite H; ring|].
    apply polyfun_add; [apply (polyfun_le e'); [lia|apply polyfun_scal, Hg]|].
    exists 0%F, (fun t => h t * g t)%F. split; [apply IHe; assumption|]. intro t. ring.
Qed.
Lemma polyfun_sumn : forall n e f, (forall i, i < n -> polyfun e (f i)) -> polyfun e (fun t => sumn n (fun i => f i t)).
Proof.
  induction n; intros e f H; cbn [sumn]; [apply polyfun_const|].
  apply (polyfun_add e (fun t => sumn n (fun i => f i t)) (f n)); [apply IHn; intros; apply H; lia|apply H; lia].
Qed.
Lemma polyfun_pow : forall k e f, polyfun e f -> polyfun (k * e) (fun t => Fpow (f t) k).
Proof.
  induction k; intros e f H; [exact (polyfun_const 0 1%F)|]. cbn [Fpow]. simpl Nat.mul. apply polyfun_mul; [exact H|apply IHk, H].
Qed.

Lemma polyfun_factor : forall e f, polyfun (S e) f -> forall z, exists g, polyfun e g /\
  forall t, (f t = f z + (t - z) * g t)%F.
Proof.
  induction e; intros f (c & h & Ph & H) z.
  - destruct Ph as [d Hd]. exists (fun _ => d). split; [apply (polyfun_const 0)|]. intro t.
    rewrite !H, !Hd. ring.
  - destruct (IHe h Ph z) as (k & Pk & Hk). exists (fun t => h z + t * k t)%F. split.
    + exists (h z), k. split; [exact Pk|reflexivity].
    + intro t. rewrite !H, (Hk t). ring.
Qed.
Lemma polyfun_roots : forall e f, polyfun e f -> (exists a, f a <> 0%F) ->
  exists l, length l <= e /\ forall t, f t = 0%F -> In t l.
Proof.
  induction e; intros f Pf [a Ha].
  - destruct Pf as [c H]. exists []. split; [simpl; lia|]. intros t Ht. rewrite H in Ha. rewrite H in Ht. contradiction.
  - destruct (F_search (fun z => f z = 0%F) (fun z => F_eq_dec _ _)) as [[z Hz]|N].
    + destruct (polyfun_factor e f Pf z) as (g & Pg & Hg).
      destruct (IHe g Pg) as (l & Ll & Hl).
      { exists a. intro G. apply Ha. rewrite Hg, Hz, G. ring. }
      exists (z :: l). split; [simpl; lia|]. intros t Ht.
      destruct (F_eq_dec t z) as [->|Nt]; [left; reflexivity|]. right. apply Hl.
      rewrite Hg, Hz in Ht. assert (E : ((t - z) * g t = 0)%F) by (rewrite <- Ht; ring).
      destruct (F_integral _ _ E) as [E'|E']; [|exact E']. exfalso. apply Nt.
      replace t with ((t - z) + z)%F by ring. rewrite E'. ring.
    + exists []. split; [simpl; lia|]. intros t Ht. exfalso. exact (N t Ht).
Qed.

(** ** Several variables *)
Definition polyvar (n e : nat) (f : list F -> F) : Prop :=
  forall v i, length v = n -> i < n -> polyfun e (fun t => f (upd v i t)).
Lemma upd_app_l : forall A (l m : list A) i x, i < length l -> upd (l ++ m) i x = upd l i x ++ m.
Proof.
  induction l; intros m i x H; [simpl in H; lia|]. destruct i; [reflexivity|]. simpl in *. rewrite IHl by lia. reflexivity.
Qed.
Lemma upd_snoc : forall A (l : list A) y x, upd (l ++ [y]) (length l) x = l ++ [x].
Proof. induction l; intros y x; [reflexivity|]. simpl. rewrite IHl. reflexivity. Qed.
Theorem polyvar_few : forall n e f, polyvar n e f -> (exists v, length v = n /\ f v <> 0%F) ->
  few n (n * e) (fun v => f v = 0%F).
Proof.
  induction n; intros e f Pf (v & Lv & Hv).
  - destruct v; [|discriminate]. apply few_none. intros w Lw. destruct w; [exact Hv|discriminate].
  - destruct (exists_last (l := v)) as (h & a & ->); [intro; subst v; discriminate|].
    rewrite app_length in Lv. simpl in Lv. assert (Lh : length h = n) by lia.
    replace (S n) with (n + 1) by lia. replace ((n + 1) * e) with (n * e + e) by ring.
    apply (few_bind n 1 (n * e) e (fun h' => f (h' ++ [a]) = 0%F)).
    + apply (IHn e (fun h' => f (h' ++ [a]))); [|exists h; auto].
      intros w i Lw Hi. eapply polyfun_ext; [|apply (Pf (w ++ [a]) i); [rewrite app_length; simpl; lia|lia]].
      intro t. cbv beta. rewrite upd_app_l by lia. reflexivity.
    + intros h' Lh' Nz.
      destruct (polyfun_roots e (fun t => f (h' ++ [t]))) as (l & Ll & Hl).
      * eapply polyfun_ext; [|apply (Pf (h' ++ [0%F]) n); [rewrite app_length; simpl; lia|lia]].
        intro t. cbv beta. rewrite <- Lh', upd_snoc. reflexivity.
      * exists a. exact Nz.
      * eapply few_weaken; [apply (few_one e (fun t => f (h' ++ [t]) = 0%F) l Ll Hl)|lia|].
        intros [|t [|]] L1 E; try discriminate. exists t. split; [reflexivity|exact E].
Qed.

(** Coordinates. *)
Lemma nth_upd_F : forall (v : list F) i j t, i < length v ->
  nth j (upd v i t) 0%F = if j =? i then t else nth j v 0%F.
Proof.
  induction v; intros i j t H; [simpl in H; lia|]. destruct i, j; try reflexivity.
  simpl in H. cbn [upd nth]. rewrite IHv by lia. reflexivity.
Qed.
Lemma polyvar_coord : forall n j, polyvar n 1 (fun v => nth j v 0%F).
Proof.
  intros n j v i Lv Hi. apply (polyfun_ext _ (fun t => if j =? i then t else nth j v 0%F)).
  - intro t. rewrite nth_upd_F by lia. reflexivity.
  - destruct (j =? i); [apply polyfun_id|apply polyfun_const].
Qed.
Lemma polyvar_le : forall n e e' f, e <= e' -> polyvar n e f -> polyvar n e' f.
Proof. intros n e e' f L H v i Lv Hi. apply (polyfun_le e); [exact L|apply H; assumption]. Qed.
Lemma polyvar_const : forall n e c, polyvar n e (fun _ => c).
Proof. intros n e c v i _ _. apply polyfun_const. Qed.
Lemma polyvar_add : forall n e f g, polyvar n e f -> polyvar n e g -> polyvar n e (fun v => f v + g v)%F.
Proof. intros n e f g Hf Hg v i L Hi. apply (polyfun_add e (fun t => f (upd v i t)) (fun t => g (upd v i t))); auto. Qed.
Lemma polyvar_sub : forall n e f g, polyvar n e f -> polyvar n e g -> polyvar n e (fun v => f v - g v)%F.
Proof. intros n e f g Hf Hg v i L Hi. apply (polyfun_sub e (fun t => f (upd v i t)) (fun t => g (upd v i t))); auto. Qed.
Lemma polyvar_mul : forall n e e' f g, polyvar n e f -> polyvar n e' g -> polyvar n (e + e') (fun v => f v * g v)%F.
Proof. intros n e e' f g Hf Hg v i L Hi. apply (polyfun_mul e e' (fun t => f (upd v i t)) (fun t => g (upd v i t))); auto. Qed.
Lemma polyvar_sumn : forall m n e f, (forall k, k < m -> polyvar n e (f k)) -> polyvar n e (fun v => sumn m (fun k => f k v)).
Proof. intros m n e f H v i L Hi. apply (polyfun_sumn m e (fun k t => f k (upd v i t))). intros k Hk. apply H; assumption. Qed.
Lemma polyvar_pow : forall k n e f, polyvar n e f -> polyvar n (k * e) (fun v => Fpow (f v) k).
Proof. intros k n e f H v i L Hi. apply (polyfun_pow k e (fun t => f (upd v i t))). apply H; assumption. Qed.
Lemma polyvar_ext : forall n e f g, (forall v, length v = n -> f v = g v) -> polyvar n e f -> polyvar n e g.
Proof.
  intros n e f g E H v i L Hi. eapply polyfun_ext; [|apply (H v i L Hi)]. intro t. apply E. rewrite upd_length. exact L.
Qed.
(** Each monomial is linear in each variable. *)
Lemma polyvar_monomial : forall n m j, polyvar n 1 (fun v => monomial m (fun i => nth i v 0%F) j).
Proof.
  intros n m j v i Lv Hi. unfold monomial.
  assert (G : forall k, polyfun (if i <? k then 1 else 0)
    (fun t => prodn k (fun i0 => if Nat.testbit j i0 then nth i0 (upd v i t) 0%F else 1%F))).
  { induction k; [exact (polyfun_const 0 1%F)|]. cbn [prodn].
    destruct (Nat.ltb_spec i (S k)) as [L|L].
    - destruct (Nat.eq_dec i k) as [->|N].
      + destruct (Nat.ltb_spec k k); [lia|].
        apply (polyfun_mul 0 1 (fun t => prodn k (fun i0 => if Nat.testbit j i0 then nth i0 (upd v k t) 0%F else 1%F))
          (fun t => if Nat.testbit j k then nth k (upd v k t) 0%F else 1%F)); [exact IHk|].
        destruct (Nat.testbit j k); [|apply polyfun_const]. apply (polyvar_coord n k v k Lv Hi).
      + destruct (Nat.ltb_spec i k); [|lia].
        apply (polyfun_mul 1 0 (fun t => prodn k (fun i0 => if Nat.testbit j i0 then nth i0 (upd v i t) 0%F else 1%F))
          (fun t => if Nat.testbit j k then nth k (upd v i t) 0%F else 1%F)); [exact IHk|].
        exists (if Nat.testbit j k then nth k v 0%F else 1%F). intro t. rewrite nth_upd_F by lia.
        destruct (Nat.eqb_spec k i); [lia|reflexivity].
    - destruct (Nat.ltb_spec i k); [lia|].
      apply (polyfun_mul 0 0 (fun t => prodn k (fun i0 => if Nat.testbit j i0 then nth i0 (upd v i t) 0%F else 1%F))
          (fun t => if Nat.testbit j k then nth k (upd v i t) 0%F else 1%F)); [exact IHk|].
      exists (if Nat.testbit j k then nth k v 0%F else 1%F). intro t. rewrite nth_upd_F by lia.
      destruct (Nat.eqb_spec k i); [lia|reflexivity]. }
  eapply polyfun_le; [|apply G]. destruct (i <? m); lia.
Qed.

(** ** The verification equation *)
Definition vequation (n : nat) (r : nat -> F) (D : list F -> F) (W : nat -> list F -> F) (ans : F) (s : list F) : F :=
  (D s - ans - (sumn n (fun i => (nth i s 0 - r i) * W i s) + nth n s 0 * W n s))%F.
Theorem equation_few : forall n e r rl D W ans, length rl = n -> (forall i, i < n -> nth i rl 0%F = r i) ->
  polyvar (n + 1) e D -> (forall k, k <= n -> polyvar (n + 1) e (W k)) -> D (rl ++ [0%F]) <> ans ->
  few (n + 1) ((n + 1) * (1 + e)) (fun s => D s - ans = sumn n (fun i => (nth i s 0 - r i) * W i s) + nth n s 0 * W n s)%F.
Proof.
  intros n e r rl D W ans Lr Hr PD PW N.
  assert (PV : polyvar (n + 1) (1 + e) (vequation n r D W ans) /\ exists v, length v = n + 1 /\ vequation n r D W ans v <> 0%F).
  { split.
  - apply polyvar_sub; [apply polyvar_sub; [apply (polyvar_le _ e); [lia|exact PD]|apply polyvar_const]|].
    apply polyvar_add.
    + apply (polyvar_sumn n (n + 1) (1 + e) (fun i v => (nth i v 0 - r i) * W i v)%F). intros k Hk.
      apply (polyvar_mul (n + 1) 1 e (fun v => nth k v 0 - r k)%F (W k)); [|apply PW; lia].
      apply polyvar_sub; [apply polyvar_coord|apply polyvar_const].
    + apply (polyvar_mul (n + 1) 1 e (fun v => nth n v 0)%F (W n)); [apply polyvar_coord|apply PW; lia].
  - exists (rl ++ [0%F]). split; [rewrite app_length; simpl; lia|]. unfold vequation. intro E. apply N.
    assert (Z0 : (sumn n (fun i => (nth i (rl ++ [0%F]) 0 - r i) * W i (rl ++ [0%F]))
      + nth n (rl ++ [0%F]) 0 * W n (rl ++ [0%F]) = 0)%F).
    { rewrite sumn_zero'.
      - rewrite app_nth2 by lia. rewrite Lr, Nat.sub_diag. cbn [nth]. ring.
      - intros i Hi. rewrite app_nth1 by lia. rewrite Hr by exact Hi. ring. }
    rewrite Z0 in E. replace (D (rl ++ [0%F])) with (D (rl ++ [0%F]) - ans - 0 + ans)%F by ring. rewrite E. ring. }
  destruct PV as [PV EX]. eapply few_weaken; [apply (polyvar_few (n + 1) (1 + e) _ PV EX)|lia|].
  intros v Lv E. unfold vequation. rewrite E. ring.
Qed.

(** ** The three schemes *)
Lemma M_verify_eq : forall d a s K rl r D ans w wf wal waf, keyM_ok d a s K -> length rl = d ->
  arr rl d (fun i => fz (r i)) -> arr w (d + 1) wf -> arr wal (d + 1) waf ->
  M_verify K rl D (fz ans) w wal
  = Ok (forallb (fun k => gt_eqb (waf k) (a * wf k)%F) (seq 0 (d + 1))
        && gt_eqb (D - ans)%F (sumn d (fun i => (s i - r i) * wf i) + s d * wf d)%F).
Proof.
  intros d a s K rl r D ans w wf wal waf HK Lr Ar Aw Awa. pose proof HK as (E1 & E2 & E3 & E4 & E5 & A1 & A2).
  apply returns_eq_ok. unfold M_verify. rewrite Lr, E3, E4, E5. cbv zeta.
  apply (rb_eq _ _ _ (forallb (fun k => gt_eqb (waf k) (a * wf k)%F) (seq 0 (d + 1)))).
  { eapply returns_conseq.
    - apply (returns_for _ _ _ _ (fun i x => forallb (fun k => gt_eqb (waf k) (a * wf k)%F) (seq 0 i) = x)); [reflexivity|].
      intros i x Hi <-. eapply rb_arr; [exact Awa|lia|]. eapply rb_arr; [exact Aw|lia|]. apply returns_ok.
      rewrite seq_S, forallb_app. cbn [forallb Nat.add]. rewrite andb_true_r. unfold pairing, gen2. rewrite mul_1_l. reflexivity.
    - intros x H. exact H. }
  assert (RS : Z.rem (fz ans) P = fz ans) by (apply rem_fz; [apply fz_pos|apply ofZ_fz]).
  rewrite RS. apply rb_pre_exp.
  apply (rb_eq _ _ _ (sumn d (fun i => (s i - r i) * wf i) + s d * wf d)%F).
  { eapply returns_conseq.
    - apply (returns_for _ _ _ _ (fun i x => x =
        if i <=? d then sumn i (fun i => (s i - r i) * wf i)%F
        else (sumn d (fun i => (s i - r i) * wf i) + s d * wf d)%F)).
      + reflexivity.
      + intros i x Hi ->.
        eapply returns_bind; [eapply (returns_rd _ _ _ _ (eq (s i))); [apply A2; lia|reflexivity]|]. intros q <-.
        eapply rb_arr; [exact Aw|lia|]. destruct (Nat.ltb_spec i d) as [Hid|Hid].
        * eapply rb_arr; [exact Ar|exact Hid|]. apply rb_pre_exp. apply returns_ok.
          destruct (Nat.leb_spec i d); [|lia]. destruct (Nat.leb_spec (S i) d); [|lia].
          cbn [sumn]. unfold pairing, gen2. rewrite mul_1_l. reflexivity.
        * apply returns_ok. replace i with d by lia. destruct (Nat.leb_spec d d); [|lia].
          destruct (Nat.leb_spec (S d) d); [lia|]. reflexivity.
    - intros x ->. destruct (Nat.leb_spec (0 + (d + 1)) d); [lia|reflexivity]. }
  apply returns_ok. unfold pairing, gen1, gen2. rewrite !mul_1_l. reflexivity.
Qed.

Lemma nth_map_fz : forall s i, i < length s -> nth_error (map fz s) i = Some (fz (nth i s 0%F)).
Proof. intros s i H. rewrite nth_error_map, (nth_error_nth' s 0%F H). reflexivity. Qed.
Lemma arr_map_fz : forall s n, length s = n -> arr (map fz s) n (fun i => fz (nth i s 0%F)).
Proof.
  intros s n <-. split; [rewrite map_length; lia|]. intros i Hi. apply nth_map_fz, Hi.
Qed.
Lemma nth_arr : forall A (l : list A) n f i d, arr l n f -> i < n -> nth i l d = f i.
Proof. intros A l n f i d [_ H] Hi. apply nth_error_nth, H, Hi. Qed.
Lemma span_arr : forall l n f c, arr l n f -> span n l c = sumn n (fun i => c i * f i)%F.
Proof.
  intros l n f c A. unfold span. apply sumn_ext. intros i Hi. f_equal. apply (nth_arr _ _ _ _ _ _ A Hi).
Qed.
Lemma arr_seq : forall (A : Type) (f : nat -> A) n, arr (map f (seq 0 n)) n f.
Proof.
  intros A f n. split; [rewrite map_length, seq_length; lia|]. intros i Hi.
  rewrite nth_error_map, (nth_error_nth' _ 0) by (rewrite seq_length; exact Hi). rewrite seq_nth by exact Hi. reflexivity.
Qed.

Lemma polyvar_span : forall N n e c (f : nat -> list F -> F), (forall i, i < N -> polyvar n e (f i)) ->
  polyvar n e (fun v => sumn N (fun i => c i * f i v)%F).
Proof.
  intros N n e c f H. apply (polyvar_sumn N n e (fun i v => c i * f i v)%F). intros i Hi.
  apply (polyvar_mul n 0 e (fun _ => c i) (f i)); [apply polyvar_const|apply H, Hi].
Qed.

(** *** vpdR *)
Definition monR (i : nat) (v : list F) : F :=
  let x := nth 0 v 0%F in let y := nth 1 v 0%F in let z := nth 2 v 0%F in
  match i with 0 => 1 | 1 => x | 2 => x * x | 3 => y | 4 => y * y | 5 => x * y | _ => z end%F.
Lemma polyvar_monR : forall i, polyvar 3 2 (monR i).
Proof.
  assert (C : forall j, polyvar 3 2 (fun v => nth j v 0%F)) by (intro j; apply (polyvar_le _ 1); [lia|apply polyvar_coord]).
  assert (M : forall j k, polyvar 3 2 (fun v => nth j v 0 * nth k v 0)%F).
  { intros j k. apply (polyvar_mul 3 1 1 (fun v => nth j v 0%F) (fun v => nth k v 0%F)); apply polyvar_coord. }
  intro i. unfold monR. do 6 (destruct i as [|i]; [first [apply polyvar_const|apply C|apply M]|]). apply C.
Qed.
Theorem R_sound : forall a r0 r1 ans c (w : nat -> nat -> F), 
  (poly_R c r0 r1 <> ans)%F ->
  few 3 9 (fun s => exists K wa0 wa1 wa2,
    R_keygen (fz a) (fz (nth 0 s 0%F)) (fz (nth 1 s 0%F)) (fz (nth 2 s 0%F)) = Ok K /\
    R_verify K [fz r0; fz r1] (span 7 (kr_pub_g1 K) c) (fz ans)
      [span 7 (kr_pub_g1 K) (w 0); span 7 (kr_pub_g1 K) (w 1); span 7 (kr_pub_g1 K) (w 2)] [wa0; wa1; wa2] = Ok true).
Proof.
  intros a r0 r1 ans c w N.
  pose (D := fun v => sumn 7 (fun i => c i * monR i v)%F).
  pose (W := fun k v => sumn 7 (fun i => w k i * monR i v)%F).
  eapply few_weaken.
  - apply (equation_few 2 2 (fun i => nth i [r0; r1] 0%F) [r0; r1] D W ans); [reflexivity|reflexivity| | |].
    + apply polyvar_span. intros. apply polyvar_monR.
    + intros k _. apply polyvar_span. intros. apply polyvar_monR.
    + intro E. apply N. rewrite <- E. unfold D, poly_R. cbv [sumn monR nth app]. ring.
  - lia.
  - intros s Ls (K & wa0 & wa1 & wa2 & HK & HV). rewrite R_keygen_ok in HK. injection HK as <-.
    rewrite R_verify_eq in HV. apply (f_equal (fun o => match o with Ok b => b | _ => false end)) in HV.
    cbv beta iota in HV. apply andb_true_iff in HV. destruct HV as [_ HV]. apply gt_eqb_true in HV.
    unfold D, W. cbn [sumn nth]. cbn [sumn nth] in HV. unfold span, keyR_of, kr_pub_g1 in HV.
    cbn [sumn nth] in HV. unfold monR. cbv zeta. rewrite HV. ring.
Qed.

(** *** The sum-check mask *)
Lemma polyvar_pubM : forall d i, 3 <= d -> polyvar (d + 1) 5 (fun v => pubM d (fun k => nth k v 0%F) i).
Proof.
  intros d i Hd. unfold pubM.
  assert (C : forall j, polyvar (d + 1) 5 (fun v => nth j v 0%F)) by (intro j; apply (polyvar_le _ 1); [lia|apply polyvar_coord]).
  assert (M : forall j k, polyvar (d + 1) 5 (fun v => nth j v 0 * nth k v 0)%F).
  { intros j k. apply (polyvar_le _ 2); [lia|]. apply (polyvar_mul _ 1 1 (fun v => nth j v 0%F) (fun v => nth k v 0%F)); apply polyvar_coord. }
  assert (Q : forall j k, k <= 5 -> polyvar (d + 1) 5 (fun v => Fpow (nth j v 0%F) k)).
  { intros j k Hk. apply (polyvar_le _ (k * 1)); [lia|]. apply (polyvar_pow k _ 1 (fun v => nth j v 0%F)). apply polyvar_coord. }
  destruct (Nat.ltb_spec i (2 * d)); [destruct (Nat.odd i); [apply C|apply M]|].
  destruct (Nat.eqb_spec i (2 * d)); [apply polyvar_const|].
  destruct (Nat.ltb_spec i (2 * d + 4)); [apply Q; lia|].
  destruct (Nat.ltb_spec i (2 * d + 7)); [apply Q; lia|]. apply C.
Qed.
Lemma partM_mask : forall d c x, 3 <= d -> valM d c x = mask_poly d c x.
Proof.
  intros d c x Hd. unfold valM, partM, mask_poly. cbv zeta.
  pose proof (u_lt_v d Hd). rewrite !sumn_add.
  rewrite (sumn_one d (d / 2 - 1) (fun i => deg5 c (2 * d + 1) (x i))) by lia.
  rewrite (sumn_one d (d - 2) (fun i => deg5 c (2 * d + 4) (x i))) by lia.
  unfold deg5. replace (2 * d + 1 + 1) with (2 * d + 2) by lia. replace (2 * d + 1 + 2) with (2 * d + 3) by lia.
  replace (2 * d + 4 + 1) with (2 * d + 5) by lia. replace (2 * d + 4 + 2) with (2 * d + 6) by lia. ring.
Qed.
Lemma mask_poly_ext : forall d c x y, 3 <= d -> (forall i, i < d -> x i = y i) -> mask_poly d c x = mask_poly d c y.
Proof.
  intros d c x y Hd H. pose proof (u_lt_v d Hd). unfold mask_poly. rewrite (H (d / 2 - 1)), (H (d - 2)) by lia.
  rewrite (sumn_ext d _ (fun i => c (2 * i)%nat * (y i * y i) + c (2 * i + 1)%nat * y i)%F); [reflexivity|].
  intros i Hi. rewrite H by exact Hi. reflexivity.
Qed.
Theorem M_sound : forall d a rl ans c (w : nat -> nat -> F), 3 <= d -> length rl = d ->
  mask_poly d c (fun i => nth i rl 0%F) <> ans ->
  few (d + 1) (6 * (d + 1)) (fun s => exists K wa, M_keygen d (fz a) (map fz s) = Ok K /\ length wa = d + 1 /\
    M_verify K (map fz rl) (span (2 * d + 8) (km_pub_g1 K) c) (fz ans)
      (map (fun k => span (2 * d + 8) (km_pub_g1 K) (w k)) (seq 0 (d + 1))) wa = Ok true).
Proof.
  intros d a rl ans c w Hd Lr N.
  pose (D := fun v => sumn (2 * d + 8) (fun i => c i * pubM d (fun k => nth k v 0%F) i)%F).
  pose (W := fun k v => sumn (2 * d + 8) (fun i => w k i * pubM d (fun k => nth k v 0%F) i)%F).
  eapply few_weaken.
  - apply (equation_few d 5 (fun i => nth i rl 0%F) rl D W ans); [exact Lr|reflexivity| | |].
    + apply (polyvar_span _ _ _ c (fun i v => pubM d (fun k => nth k v 0%F) i)). intros. apply polyvar_pubM, Hd.
    + intros k _. apply (polyvar_span _ _ _ (w k) (fun i v => pubM d (fun k => nth k v 0%F) i)). intros. apply polyvar_pubM, Hd.
    + intro E. apply N. rewrite <- E. unfold D.
      rewrite (sumn_ext _ _ (fun i => pubM d (fun k => nth k (rl ++ [0%F]) 0%F) i * c i)%F) by (intros; ring).
      rewrite commit_sum by exact Hd. rewrite app_nth2 by lia. rewrite Lr, Nat.sub_diag. cbn [nth].
      rewrite partM_mask by exact Hd.
      rewrite (mask_poly_ext d c (fun k => nth k (rl ++ [0%F]) 0%F) (fun i => nth i rl 0%F) Hd); [ring|].
      intros i Hi. apply app_nth1. lia.
  - lia.
  - intros s Ls (K & wa & HK & Lw & HV).
    pose proof (M_keygen_ok d a (map fz s) (fun i => nth i s 0%F) Hd (arr_map_fz s (d + 1) Ls)) as R.
    destruct R as (K' & EK & R). rewrite HK in EK. injection EK as <-.
    assert (A1 : arr (km_pub_g1 K) (2 * d + 8) (pubM d (fun i => nth i s 0%F))) by apply R.
    rewrite (M_verify_eq d a (fun i => nth i s 0%F) K (map fz rl) (fun i => nth i rl 0%F) _ ans _
      (fun k => span (2 * d + 8) (km_pub_g1 K) (w k)) wa (fun i => nth i wa 0%F) R) in HV.
    + apply (f_equal (fun o => match o with Ok b => b | _ => false end)) in HV.
      cbv beta iota in HV. apply andb_true_iff in HV. destruct HV as [_ HV]. apply gt_eqb_true in HV.
      rewrite (span_arr _ _ _ c A1) in HV. rewrite (span_arr _ _ _ (w d) A1) in HV.
      unfold D, W. rewrite HV. f_equal. apply sumn_ext. intros i Hi. rewrite (span_arr _ _ _ (w i) A1). reflexivity.
    + rewrite map_length. exact Lr.
    + apply arr_map_fz, Lr.
    + apply arr_seq.
    + split; [lia|]. intros i Hi. apply nth_error_nth'. lia.
Qed.

(** *** The input *)
Definition monI (n : nat) (i : nat) (v : list F) : F :=
  if i =? 2 ^ n then nth n v 0%F else monomial n (fun k => nth k v 0%F) i.
Lemma coef_poly_ext : forall n c x y, (forall i, i < n -> x i = y i) -> coef_poly n c x = coef_poly n c y.
Proof.
  intros n c x y H. apply sumn_ext. intros j Hj. f_equal. unfold monomial. apply prodn_ext. intros i Hi.
  rewrite H by exact Hi. reflexivity.
Qed.
Lemma sum_monI : forall n c v,
  sumn (2 ^ n + 1) (fun i => c i * monI n i v)%F
  = (coef_poly n c (fun k => nth k v 0%F) + c (2 ^ n)%nat * nth n v 0)%F.
Proof.
  intros n c v. rewrite Nat.add_1_r. cbn [sumn]. unfold monI at 2. rewrite Nat.eqb_refl. f_equal.
  apply sumn_ext. intros i Hi. unfold monI. destruct (Nat.eqb_spec i (2 ^ n)); [lia|reflexivity].
Qed.
Theorem I_sound : forall n a rl Zv ans c c2 (w : nat -> nat -> F), 1 <= n < 31 -> length rl = n ->
  coef_poly n (fun j => c j + Zv * c2 j)%F (fun i => nth i rl 0%F) <> ans ->
  few (n + 1) (2 * (n + 1)) (fun s => exists K wa, I_keygen n (fz a) (map fz s) = Ok K /\ length wa = n + 1 /\
    I_verify K (map fz rl) (span (2 ^ n + 1) (ki_pub_g1 K) c) (span (2 ^ n + 1) (ki_pub_g1 K) c2) (fz Zv) (fz ans)
      (map (fun k => span (2 ^ n + 1) (ki_pub_g1 K) (w k)) (seq 0 (n + 1))) wa = Ok true).
Proof.
  intros n a rl Zv ans c c2 w Hn Lr N.
  assert (PM : forall i, polyvar (n + 1) 1 (monI n i)).
  { intro i. unfold monI. destruct (i =? 2 ^ n); [apply polyvar_coord|apply polyvar_monomial]. }
  pose (D := fun v => sumn (2 ^ n + 1) (fun i => (c i + Zv * c2 i) * monI n i v)%F).
  pose (W := fun k v => sumn (2 ^ n + 1) (fun i => w k i * monI n i v)%F).
  eapply few_weaken.
  - apply (equation_few n 1 (fun i => nth i rl 0%F) rl D W ans); [exact Lr|reflexivity| | |].
    + apply (polyvar_span _ _ _ (fun i => c i + Zv * c2 i)%F (monI n)). intros. apply PM.
    + intros k _. apply (polyvar_span _ _ _ (w k) (monI n)). intros. apply PM.
    + intro E. apply N. rewrite <- E. unfold D.
      rewrite (sum_monI n (fun i => c i + Zv * c2 i)%F). rewrite (app_nth2 rl) by lia. rewrite Lr, Nat.sub_diag. cbn [nth].
      rewrite (coef_poly_ext n _ (fun k => nth k (rl ++ [0%F]) 0%F) (fun i => nth i rl 0%F)); [ring|].
      intros i Hi. apply app_nth1. lia.
  - lia.
  - intros s Ls (K & wa & HK & Lw & HV).
    assert (R : returns (I_keygen n (fz a) (map fz s)) (keyI_ok n a (fun i => nth i s 0%F))).
    { apply I_keygen_ok; [lia|]. apply arr_map_fz, Ls. }
    destruct R as (K' & EK & R). rewrite HK in EK. injection EK as <-.
    pose proof R as (X1 & X2 & X3 & X4 & X5 & A1 & B1 & X6).
    assert (A : arr (ki_pub_g1 K) (2 ^ n + 1) (fun i => monI n i s)).
    { split; [assert (2 ^ n < length (ki_pub_g1 K)) by (apply nth_error_Some; rewrite B1; discriminate); lia|]. intros i Hi. unfold monI. destruct (Nat.eqb_spec i (2 ^ n)) as [->|Ne]; [exact B1|].
      apply A1. lia. }
    rewrite (I_verify_eq n a (fun i => nth i s 0%F) K (map fz rl) (fun i => nth i rl 0%F) Hn R
      ltac:(rewrite map_length; exact Lr) (arr_map_fz rl n Lr) Zv _ _ ans _
      (fun k => span (2 ^ n + 1) (ki_pub_g1 K) (w k)) wa (fun i => nth i wa 0%F)) in HV.
    + apply (f_equal (fun o => match o with Ok b => b | _ => false end)) in HV.
      cbv beta iota in HV. apply andb_true_iff in HV. destruct HV as [_ HV]. apply gt_eqb_true in HV.
      rewrite (span_arr _ _ _ c A), (span_arr _ _ _ c2 A), (span_arr _ _ _ (w n) A) in HV.
      assert (ED : D s = (sumn (2 ^ n + 1) (fun i => c i * monI n i s) + sumn (2 ^ n + 1) (fun i => c2 i * monI n i s) * Zv)%F).
      { unfold D. rewrite (sumn_ext _ _ (fun i => c i * monI n i s + (c2 i * monI n i s) * Zv)%F) by (intros; ring).
        rewrite sumn_add, sumn_scal_r. reflexivity. }
      rewrite ED, HV. unfold W. f_equal. apply sumn_ext. intros i Hi. rewrite (span_arr _ _ _ (w i) A). reflexivity.
    + apply arr_seq.
    + split; [lia|]. intros i Hi. apply nth_error_nth'. lia.
Qed.
