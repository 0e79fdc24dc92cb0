(** * The prover of prover_clogc.cpp computes the sumcheck of the layer relation (C54) *)
From Coq Require Import ZArith List Bool Arith Lia Ring String Ascii.
From Verif Require Import Limbs LimbsProofs Field FieldProofs Fp Base MleSpec GkrMath Poly PolyProofs Circuit
  FastProver Lazy TablesProofs FastProverProofs PhaseProofs TradProver.
Import ListNotations.
Open Scope nat_scope.

(** ** Bits *)
Lemma odd_of_nat : forall n, Z.odd (Z.of_nat n) = Nat.odd n.
Proof.
  intro n. rewrite (Nat.div_mod n 2) at 1 2 by lia. rewrite Nat.odd_add, odd_2.
  rewrite Nat2Z.inj_add, Nat2Z.inj_mul, Z.odd_add, Z.odd_mul. change (Z.odd (Z.of_nat 2)) with false.
  cbn [andb]. rewrite !xorb_false_l. pose proof (Nat.mod_upper_bound n 2 ltac:(lia)).
  destruct (n mod 2) as [|[|k]]; [reflexivity|reflexivity|lia].
Qed.
Lemma testbit_of_nat : forall k j, Z.testbit (Z.of_nat k) (Z.of_nat j) = Nat.testbit k j.
Proof.
  intros k j. rewrite Z.testbit_odd, Z.shiftr_div_pow2 by lia. rewrite Nat.testbit_odd, shr_div.
  rewrite <- odd_of_nat. rewrite Nat2Z.inj_div, Nat2Z.inj_pow. reflexivity.
Qed.
(** Bit [j] of [k] splits [k >> j]. *)
Lemma shr_split : forall k j, Nat.shiftr k j = 2 * Nat.shiftr k (j + 1) + (if Nat.testbit k j then 1 else 0).
Proof.
  intros k j. rewrite Nat.testbit_odd. rewrite !shr_div, Nat.add_1_r, pow2_S.
  rewrite (Nat.mul_comm 2 (2 ^ j)), <- Nat.div_div by (pose proof (pow2_pos j); lia).
  generalize (k / 2 ^ j). intro y.
  pose proof (Nat.div_mod y 2 ltac:(lia)) as E. pose proof (Nat.mod_upper_bound y 2 ltac:(lia)).
  assert (OD : Nat.odd y = Nat.odd (y mod 2)) by (rewrite E at 1; rewrite Nat.odd_add, odd_2; apply xorb_false_l).
  rewrite OD. destruct (y mod 2) as [|[|z]]; [change (Nat.odd 0) with false|change (Nat.odd 1) with true|]; cbv iota; lia.
Qed.
Lemma lxor1_even : forall q, Nat.lxor (2 * q) 1 = 2 * q + 1.
Proof.
  intro q. apply Nat.bits_inj. intro j. rewrite Nat.lxor_spec. destruct j as [|j].
  - rewrite Nat.testbit_even_0, Nat.testbit_odd_0. reflexivity.
  - rewrite Nat.testbit_even_succ, Nat.testbit_odd_succ by lia. 
    replace (Nat.testbit 1 (S j)) with false by (symmetry; exact (Nat.bits_0 j)).
    apply xorb_false_r.
Qed.
Lemma lxor1_odd : forall q, Nat.lxor (2 * q + 1) 1 = 2 * q.
Proof. intro q. rewrite <- lxor1_even, Nat.lxor_assoc, Nat.lxor_nilpotent. apply Nat.lxor_0_r. Qed.

Definition pick (b : bool) (a : F) : F := if b then a else (1 - a)%F.
Lemma eqw_snoc : forall R a k, eqw (R ++ [a]) k = (eqw R k * pick (Nat.testbit k (List.length R)) a)%F.
Proof.
  intros R a k. rewrite eqw_app. unfold eqw at 1. rewrite <- point_length, eqg_mod, point_length. f_equal.
  unfold eqw. cbn [point map eqg]. rewrite Nat.testbit_odd, shr_div. unfold pick.
  destruct (Nat.odd _); ring.
Qed.

(** ** Binding variables of scattered tables *)
Lemma scat_ext : forall G ts ts' x, (forall g, g < G -> Forall2 (fun t t' => fst t = fst t' /\ snd t = snd t') (ts g) (ts' g)) ->
  scat G ts x = scat G ts' x.
Proof.
  intros G ts ts' x H. unfold scat. apply sumn_ext. intros g Hg. specialize (H g Hg).
  induction H as [|t t' l l' [E1 E2] H IH]; [reflexivity|]. rewrite !lsum_cons, IH, E1, E2. reflexivity.
Qed.
Lemma fold1_scat : forall a G ts x, fold1 a (scat G ts) x =
  scat G (fun g => map (fun t => ((fst t * pick (Nat.odd (snd t)) a)%F, Nat.div2 (snd t))) (ts g)) x.
Proof.
  intros a G ts x. unfold fold1, scat. rewrite <- !sumn_scal_r, <- sumn_add. apply sumn_ext. intros g _.
  rewrite lsum_map. induction (ts g) as [|[c k] l IH]; [rewrite !lsum_nil; ring|].
  rewrite !lsum_cons. cbn [fst snd].
  transitivity ((ind (2 * x =? k) * c * (1 - a) + ind (2 * x + 1 =? k) * c * a) +
    (lsum l (fun t => ind (2 * x =? snd t) * fst t) * (1 - a) + lsum l (fun t => ind (2 * x + 1 =? snd t) * fst t) * a))%F;
    [ring|].
  rewrite IH. f_equal. clear IH.
  assert (Ek : k = 2 * Nat.div2 k + (if Nat.odd k then 1 else 0)).
  { pose proof (shr_split k 0) as K. rewrite Nat.testbit_odd in K. rewrite !shr_div in K. cbn [Nat.add Nat.pow] in K.
    rewrite Nat.div_1_r in K. rewrite Nat.mul_1_r in K. rewrite Nat.div2_div. exact K. }
  set (q := Nat.div2 k) in *. destruct (Nat.odd k); cbn [pick].
  - destruct (Nat.eqb_spec (2 * x) k); [lia|]. destruct (Nat.eqb_spec (2 * x + 1) k); destruct (Nat.eqb_spec x q); try lia; cbn [ind]; ring.
  - destruct (Nat.eqb_spec (2 * x + 1) k); [lia|]. destruct (Nat.eqb_spec (2 * x) k); destruct (Nat.eqb_spec x q); try lia; cbn [ind]; ring.
Qed.
Lemma folds_ext : forall R f g, (forall i, f i = g i) -> forall i, folds R f i = folds R g i.
Proof. induction R as [|a R IH]; intros f g H i; [apply H|]. cbn [folds]. apply IH. apply fold1_ext, H. Qed.
Lemma folds_scat : forall R G ts x, folds R (scat G ts) x =
  scat G (fun g => map (fun t => ((fst t * eqw R (snd t))%F, snd t / 2 ^ List.length R)) (ts g)) x.
Proof.
  induction R as [|a R IH]; intros G ts x.
  - cbn [folds List.length Nat.pow]. apply scat_ext. intros g _. induction (ts g) as [|[c k] l IH]; constructor; [|exact IH].
    cbn [fst snd]. split; [unfold eqw; cbn [point map eqg]; ring|rewrite Nat.div_1_r; reflexivity].
  - cbn [folds List.length]. rewrite (folds_ext R _ _ (fold1_scat a G ts)), IH. apply scat_ext. intros g _.
    rewrite map_map. induction (ts g) as [|[c k] l IH']; constructor; [|exact IH'].
    cbn [fst snd]. split.
    + unfold eqw. cbn [point map eqg]. fold (point R). unfold pick. ring.
    + rewrite pow2_S, Nat.div2_div, Nat.div_div by (pose proof (pow2_pos (List.length R)); lia). reflexivity.
Qed.

(** ** The constant [inv_2] *)
Fixpoint dec_value (s : string) (z : Z) : Z :=
  match s with EmptyString => z | String c s' => dec_value s' (z * 10 + (Z.of_N (N_of_ascii c) - 48)) end.
Fixpoint digit_string (s : string) : bool :=
  match s with EmptyString => true | String c s' =>
    ((0 <=? Z.of_N (N_of_ascii c) - 48) && (Z.of_N (N_of_ascii c) - 48 <? 10))%Z && digit_string s' end.
Lemma small_mod64 : forall d, (0 <= d <= 10)%Z -> (d mod W64 = d)%Z.
Proof. intros d H. apply Z.mod_small. rewrite W64_val. lia. Qed.
Lemma rep_small : forall d, (0 <= d <= 10)%Z -> rep (fe_of_int d) (ofZ d).
Proof. intros d H. eapply rep_eq; [apply rep_of_int|]. rewrite (small_mod64 d H). reflexivity. Qed.
Lemma digit_step : forall x z d e, (0 <= d <= 10)%Z -> (0 <= e <= 10)%Z -> rep x (ofZ z) ->
  rep (fe_add (fe_mul x (fe_of_int e)) (fe_of_int d)) (ofZ (z * e + d)).
Proof.
  intros x z d e Hd He R. rewrite ofZ_add, ofZ_mul. apply rep_add; [apply rep_mul; [exact R|]|]; apply rep_small; assumption.
Qed.
Lemma from_string_S : forall c s x, from_string_loop (String c s) x =
  from_string_loop s (fe_add (fe_mul x (fe_of_int 10)) (fe_of_int (Z.of_N (N_of_ascii c) - 48))).
Proof. intros. unfold from_string_loop at 1. fold from_string_loop. reflexivity. Qed.
Lemma dec_value_S : forall c s z, dec_value (String c s) z = dec_value s (z * 10 + (Z.of_N (N_of_ascii c) - 48))%Z.
Proof. intros. unfold dec_value at 1. fold dec_value. reflexivity. Qed.
Lemma digit_string_S : forall c s, digit_string (String c s) =
  ((0 <=? Z.of_N (N_of_ascii c) - 48) && (Z.of_N (N_of_ascii c) - 48 <? 10))%Z && digit_string s.
Proof. intros. unfold digit_string at 1. fold digit_string. reflexivity. Qed.
Lemma from_string_ok : forall s x z, digit_string s = true -> rep x (ofZ z) ->
  rep (from_string_loop s x) (ofZ (dec_value s z)).
Proof.
  induction s as [|c s IH]; intros x z D R; [exact R|]. rewrite from_string_S, dec_value_S. rewrite digit_string_S in D.
  apply andb_prop in D. destruct D as [D1 D2]. apply andb_prop in D1. destruct D1 as [D0 D1].
  apply Z.leb_le in D0. apply Z.ltb_lt in D1.
  revert D0 D1. generalize (Z.of_N (N_of_ascii c) - 48)%Z. intros d D0 D1. apply IH; [exact D2|]. apply digit_step; [lia|lia|exact R].
Qed.
Definition half_F : F := ofZ 8399054365507916142470402071115866954879789801702376374514189432082785107975.
Lemma half_twice : (half_F + half_F = 1)%F.
Proof. apply F_eq. vm_compute. reflexivity. Qed.
Lemma inv_2_ok : rep inv_2 half_F.
Proof.
  unfold inv_2, from_string. eapply rep_eq; [apply (from_string_ok _ _ 0); [vm_compute; reflexivity|]|].
  - apply rep_small. lia.
  - unfold half_F. apply (f_equal ofZ). vm_compute. reflexivity.
Qed.

(** ** Arrays of quadratic polynomials *)
Definition qtab (N : nat) (l : list quadratic_poly) (n : nat) (fa fb fc : nat -> F) : Prop :=
  List.length l = N /\ n <= N /\
  forall i, i < n -> exists x, nth_error l i = Some x /\ rep (q_a x) (fa i) /\ rep (q_b x) (fb i) /\ rep (q_c x) (fc i).
Lemma qtab_ext : forall N l n fa fb fc ga gb gc, qtab N l n fa fb fc ->
  (forall i, i < n -> fa i = ga i /\ fb i = gb i /\ fc i = gc i) -> qtab N l n ga gb gc.
Proof.
  intros N l n fa fb fc ga gb gc (L & Le & H) E. split; [exact L|]. split; [exact Le|].
  intros i Hi. destruct (E i Hi) as (<- & <- & <-). apply H, Hi.
Qed.
Lemma qtab_push : forall N l n fa fb fc x, qtab N l n fa fb fc -> n < N ->
  rep (q_a x) (fa n) -> rep (q_b x) (fb n) -> rep (q_c x) (fc n) -> qtab N (upd l n x) (S n) fa fb fc.
Proof.
  intros N l n fa fb fc x (L & Le & H) Hk Ra Rb Rc. split; [rewrite upd_length; exact L|]. split; [lia|].
  intros i Hi. destruct (Nat.eq_dec i n) as [->|Nk].
  - exists x. split; [apply nth_upd_same; lia|]. split; [exact Ra|]. split; assumption.
  - rewrite nth_upd_other by congruence. apply H. lia.
Qed.
(** Adding [da], [db], [dc] to the members of entry [k]. *)
Lemma qtab_add : forall B (R : B -> Prop) N l n fa fb fc k da db dc
  (f : quadratic_poly -> quadratic_poly) (c : list quadratic_poly -> outcome B),
  qtab N l n fa fb fc -> k < n ->
  (forall x, rep (q_a x) (fa k) -> rep (q_b x) (fb k) -> rep (q_c x) (fc k) ->
     rep (q_a (f x)) (fa k + da)%F /\ rep (q_b (f x)) (fb k + db)%F /\ rep (q_c (f x)) (fc k + dc)%F) ->
  (forall l', qtab N l' n (fun i => fa i + ind (i =? k) * da)%F (fun i => fb i + ind (i =? k) * db)%F
     (fun i => fc i + ind (i =? k) * dc)%F -> returns (c l') R) ->
  returns (bind (rd l k) (fun q => bind (wr l k (f q)) c)) R.
Proof.
  intros B R N l n fa fb fc k da db dc f c (L & Le & H) Hk Hf K. destruct (H k Hk) as (x & E & Ra & Rb & Rc).
  eapply rb_nth; [exact E|]. apply rb_wr; [lia|]. apply K. destruct (Hf x Ra Rb Rc) as (Sa & Sb & Sc).
  split; [rewrite upd_length; exact L|]. split; [exact Le|].
  intros i Hi. destruct (Nat.eqb_spec i k) as [->|Nk].
  - exists (f x). split; [apply nth_upd_same; lia|]. cbn [ind].
    split; [eapply rep_eq; [exact Sa|ring]|]. split; [eapply rep_eq; [exact Sb|ring]|eapply rep_eq; [exact Sc|ring]].
  - rewrite nth_upd_other by congruence. destruct (H i Hi) as (y & Ey & Ya & Yb & Yc). exists y. split; [exact Ey|].
    cbn [ind]. split; [eapply rep_eq; [exact Ya|ring]|]. split; [eapply rep_eq; [exact Yb|ring]|eapply rep_eq; [exact Yc|ring]].
Qed.

(** ** One round *)
(** Gates the traditional protocol handles above the input layer. *)
Definition trad_gate (n : nat) (g : gate) : Prop :=
  match g_ty g with
  | 0%Z | 1%Z => (0 <= g_u g < Z.of_nat n /\ 0 <= g_v g < Z.of_nat n)%Z
  | 2%Z => True
  | _ => False
  end.
Lemma trad_type : forall n g, trad_gate n g -> g_ty g = 0%Z \/ g_ty g = 1%Z \/ g_ty g = 2%Z.
Proof.
  intros n [ty u v] R. unfold trad_gate in R. cbn [g_ty] in *.
  destruct ty as [|[p|[p|p|]|]|p]; try contradiction; auto.
Qed.
Lemma trad_proto : forall n g, trad_gate n g -> proto_gate n g.
Proof. intros n g H. unfold trad_gate, proto_gate in *. destruct (trad_type n g H) as [E|[E|E]]; rewrite E in *; exact H. Qed.

Definition two_F : F := (1 + 1)%F.
(** A quadratic is given by its values at 0, 1, 2. *)
Lemma interpolate_ok : forall q a b c, rep (q_a q) a -> rep (q_b q) b -> rep (q_c q) c ->
  rep (q_a (interpolate q)) ((a - c) * half_F - (b - c))%F /\
  rep (q_b (interpolate q)) (two_F * (b - c) - (a - c) * half_F)%F /\ rep (q_c (interpolate q)) c.
Proof.
  intros q a b c Ra Rb Rc. unfold interpolate. cbn [q_a q_b q_c]. unfold two_F.
  generalize inv_2_ok. generalize inv_2 half_F. intros i h Rh.
  split; [lzr|]. split; [lzr|exact Rc].
Qed.
Lemma quad_values : forall (e : F -> F) x y z, (forall t, e t = x * t * t + y * t + z)%F ->
  forall t, e t = (((e two_F - e 0) * half_F - (e 1 - e 0)) * (t * t) +
    (two_F * (e 1 - e 0) - (e two_F - e 0) * half_F) * t + e 0)%F.
Proof.
  intros e x y z H t. rewrite !H. unfold two_F. generalize half_twice. generalize half_F. intros h Hh.
  replace ((x * (1 + 1) * (1 + 1) + y * (1 + 1) + z - (x * 0 * 0 + y * 0 + z)) * h)%F
    with ((x * (1 + 1) + y) * (h + h))%F by ring.
  rewrite Hh. ring.
Qed.

Definition quad (f : F -> F) : Prop := exists x y z, forall t, f t = (x * t * t + y * t + z)%F.
Lemma quad_sum : forall G (f : F -> nat -> F), (forall g, g < G -> quad (fun t => f t g)) ->
  quad (fun t => sumn G (f t)).
Proof.
  induction G as [|G IH]; intros f H.
  - exists 0%F, 0%F, 0%F. intro t. cbn [sumn]. ring.
  - destruct (IH f ltac:(intros; apply H; lia)) as (x & y & z & E). destruct (H G ltac:(lia)) as (x' & y' & z' & E').
    exists (x + x')%F, (y + y')%F, (z + z')%F. intro t. cbn [sumn]. cbv beta in E, E'. rewrite E, E'. ring.
Qed.
Section Round.
Variables (N lg n : nat) (L : layer).
Variable V : nat -> F.                    (* table of the bound variable *)
Variable W : nat -> F.                    (* weights *)
Variable sel : gate -> Z.
Variable K : nat -> nat.                  (* wire being bound *)
Variable X : nat -> F.                    (* value at the other wire *)
Let G := 2 ^ lg.
Hypothesis HG : G <= List.length (gates L).
Hypothesis HN : 2 ^ n <= N.
Hypothesis HGN : G <= N.
Definition livegate (g : nat) : Prop := g_ty (gate_at L g) = 0%Z \/ g_ty (gate_at L g) = 1%Z.
Hypothesis types : forall g, g < G -> livegate g \/ g_ty (gate_at L g) = 2%Z.
Hypothesis HK : forall g, g < G -> livegate g -> sel (gate_at L g) = Z.of_nat (K g) /\ K g < 2 ^ n.
Variable other : gate -> outcome fe.
Hypothesis Hother : forall g, g < G -> livegate g -> returns (other (gate_at L g)) (fun x => rep x (X g)).

(** The terms a gate contributes to the two tables of the sumcheck. *)
Definition rM (g : nat) : list (F * nat) :=
  match g_ty (gate_at L g) with 0%Z => [(W g, K g)] | 1%Z => [((W g * X g)%F, K g)] | _ => [] end.
Definition rA (g : nat) : list (F * nat) :=
  match g_ty (gate_at L g) with 0%Z => [((W g * X g)%F, K g)] | _ => [] end.
Lemma rM_in : forall g t, g < G -> In t (rM g) -> snd t < 2 ^ n.
Proof.
  intros g t Hg Ht. unfold rM in Ht. destruct (types g Hg) as [H|E]; [|rewrite E in Ht; destruct Ht].
  destruct (HK g Hg H) as [_ Kl]. destruct H as [E|E]; rewrite E in Ht; destruct Ht as [<-|[]]; exact Kl.
Qed.
Lemma rA_in : forall g t, g < G -> In t (rA g) -> snd t < 2 ^ n.
Proof.
  intros g t Hg Ht. unfold rA in Ht. destruct (types g Hg) as [H|E]; [|rewrite E in Ht; destruct Ht].
  destruct (HK g Hg H) as [_ Kl]. destruct H as [E|E]; rewrite E in Ht; [destruct Ht as [<-|[]]; exact Kl|destruct Ht].
Qed.

(** The weights of the live gates after binding [Q]. *)
Definition gtab (gsum : list fe) (Q : nat -> list F) : Prop :=
  List.length gsum = N /\ forall g, g < G -> exists x a, nth_error gsum g = Some x /\ rep x a /\
    (livegate g -> a = (W g * eqw (Q g) (K g))%F).
Lemma scale_gates_ok : forall gsum Q r a, gtab gsum (fun _ => Q) -> rep r a ->
  returns (scale_gates sel (gates L) r (List.length Q) G gsum) (fun gs => gtab gs (fun _ => Q ++ [a])).
Proof.
  intros gsum Q r a [HL T] Rr. unfold scale_gates.
  eapply returns_conseq; [apply (returns_for _ G 0 _ (fun i gs => gtab gs (fun g => if g <? i then Q ++ [a] else Q)))|].
  - split; [exact HL|]. intros g Hg. exact (T g Hg).
  - clear T HL gsum. intros i gs Hi [HL T]. simpl in Hi.
    eapply rb_nth; [apply gate_rd; lia|]. destruct (T i ltac:(lia)) as (x & b & E & Rx & Hb).
    eapply rb_nth; [exact E|]. apply returns_wr; [lia|]. split; [rewrite upd_length; exact HL|].
    intros g Hg. destruct (Nat.eq_dec g i) as [->|Ng].
    + eexists. exists (b * pick (Z.testbit (sel (gate_at L i)) (Z.of_nat (List.length Q))) a)%F.
      split; [apply nth_upd_same; lia|]. split.
      * destruct (Z.testbit _ _); unfold pick; lzr.
      * intro Hl. destruct (HK i ltac:(lia) Hl) as [-> _]. rewrite testbit_of_nat, (Hb Hl).
        destruct (Nat.ltb_spec i i); [lia|]. destruct (Nat.ltb_spec i (S i)); [|lia]. rewrite eqw_snoc. ring.
    + rewrite nth_upd_other by congruence. destruct (T g Hg) as (y & c & Ey & Ry & Hc). exists y, c.
      split; [exact Ey|]. split; [exact Ry|]. intro Hl. rewrite (Hc Hl).
      destruct (Nat.ltb_spec g i); destruct (Nat.ltb_spec g (S i)); try lia; reflexivity.
  - intros gs [HL' T']. split; [exact HL'|]. intros g Hg. destruct (T' g Hg) as (x & b & E & Rx & Hb).
    exists x, b. split; [exact E|]. split; [exact Rx|]. intro Hl. rewrite (Hb Hl).
    destruct (Nat.ltb_spec g (0 + G)); [reflexivity|lia].
Qed.
Lemma fold_V_ok : forall l k f r a, tab N l (2 ^ S k) f -> rep r a ->
  returns (fold_V r (2 ^ k) l) (fun l' => tab N l' (2 ^ k) (fold1 a f)).
Proof.
  intros l k f r a T Rr. unfold fold_V. rewrite pow2_S in T.
  eapply returns_conseq; [apply (returns_for _ (2 ^ k) 0 _ (fun i l' => tab N l' (2 * 2 ^ k) (mid i (fold1 a f) f)))|].
  - exact T.
  - clear T l. intros i l Hi T. simpl in Hi. rewrite shl1_or1, shl1. pose proof (tab_le _ _ _ _ T) as Le.
    pose proof (tab_len _ _ _ _ T) as Ll.
    eapply rb_tab; [exact T|lia|]. intros x Rx. rewrite mid_old in Rx by lia.
    eapply rb_tab; [exact T|lia|]. intros y Ry. rewrite mid_old in Ry by lia.
    apply returns_wr; [lia|].
    eapply tab_ext; [apply (tab_upd _ _ _ _ _ _ (fold1 a f i) T); [lia|unfold fold1; lzr]|].
    intros q Hq. cbv beta. apply mid_S.
  - intros l' T'. eapply tab_ext; [eapply tab_sub; [exact T'|lia]|]. intros q Hq. apply mid_new. lia.
Qed.

Variable R : list F.
Hypothesis HR : List.length R < n.
Let j := List.length R.
Let m := n - S j.
Let V' := folds R V.
(** Contribution of gate [g] to the round polynomial at [t]. *)
Definition gadd (t : F) (g : nat) : F :=
  (W g * eqw R (K g) * pick (Nat.testbit (K g) j) t * (fold1 t V' (Nat.shiftr (K g) (j + 1)) + X g))%F.
Definition gmult (t : F) (g : nat) : F :=
  (W g * eqw R (K g) * pick (Nat.testbit (K g) j) t * (X g * fold1 t V' (Nat.shiftr (K g) (j + 1))))%F.
Definition sA (t : F) (g : nat) : list (F * nat) :=
  match g_ty (gate_at L g) with 0%Z => [(gadd t g, Nat.shiftr (K g) (j + 1))] | _ => [] end.
Definition sM (t : F) (g : nat) : list (F * nat) :=
  match g_ty (gate_at L g) with 1%Z => [(gmult t g, Nat.shiftr (K g) (j + 1))] | _ => [] end.
Lemma target_lt : forall g, g < G -> livegate g -> Nat.shiftr (K g) (j + 1) < 2 ^ m.
Proof.
  intros g Hg H. destruct (HK g Hg H) as [_ Kl]. rewrite shr_div. apply Nat.div_lt_upper_bound; [pose proof (pow2_pos (j + 1)); lia|].
  rewrite <- Nat.pow_add_r. replace (j + 1 + m) with n by lia. exact Kl.
Qed.
Definition e (t : F) (g : nat) : F := (lsum (sA t g) fst + lsum (sM t g) fst)%F.
(** The sum of the contributions is the round polynomial. *)
Lemma round_e : forall t, round m V' (folds R (scat G rM)) (folds R (scat G rA)) t = sumn G (e t).
Proof.
  intro t. unfold round, psum. rewrite <- !folds_snoc.
  rewrite (sumn_ext (2 ^ m) _ (fun i => fold1 t V' i *
      scat G (fun g => map (fun u => (fst u * eqw (R ++ [t]) (snd u), snd u / 2 ^ S j)%F) (rM g)) i +
      scat G (fun g => map (fun u => (fst u * eqw (R ++ [t]) (snd u), snd u / 2 ^ S j)%F) (rA g)) i)%F).
  2:{ intros i _. rewrite !folds_scat, app_length. cbn [List.length]. rewrite Nat.add_1_r. reflexivity. }
  assert (BD : forall rt, (forall g u, g < G -> In u (rt g) -> snd u < 2 ^ n) -> forall g u, g < G ->
    In u (map (fun u : F * nat => ((fst u * eqw (R ++ [t]) (snd u))%F, snd u / 2 ^ S j)) (rt g)) -> snd u < 2 ^ m).
  { intros rt H g u Hg Hu. apply in_map_iff in Hu. destruct Hu as (w & <- & Hw). cbn [snd].
    specialize (H g w Hg Hw). apply Nat.div_lt_upper_bound; [pose proof (pow2_pos (S j)); lia|].
    rewrite <- Nat.pow_add_r. replace (S j + m) with n by lia. exact H. }
  rewrite sumn_add, (scat_gath _ _ _ _ (BD rM rM_in)), (sum_scat _ _ _ (BD rA rA_in)).
  unfold gath. rewrite <- sumn_add. apply sumn_ext. intros g Hg. rewrite !lsum_map. unfold e, sA, sM, rM, rA.
  destruct (types g Hg) as [[E|E]|E]; rewrite E; rewrite ?lsum_cons, ?lsum_nil; cbn [fst snd];
    rewrite ?eqw_snoc, <- ?Nat.add_1_r, <- ?shr_div; unfold gadd, gmult; fold j; rewrite ?Nat.add_1_r; ring.
Qed.

Lemma cmt_gate_ok : forall lV gs g A M f2 f1 f0 h2 h1 h0, g < G ->
  tab N lV (2 ^ (n - j)) V' -> gtab gs (fun _ => R) -> qtab N A (2 ^ m) f2 f1 f0 -> qtab N M (2 ^ m) h2 h1 h0 ->
  returns (cmt_gate sel other lV gs j g (gate_at L g) (A, M)) (fun st =>
    qtab N (fst st) (2 ^ m) (adds (sA two_F g) f2) (adds (sA 1%F g) f1) (adds (sA 0%F g) f0) /\
    qtab N (snd st) (2 ^ m) (adds (sM two_F g) h2) (adds (sM 1%F g) h1) (adds (sM 0%F g) h0)).
Proof.
  intros lV gs g A M f2 f1 f0 h2 h1 h0 Hg TV [HLg TG] TA TM. unfold cmt_gate, sA, sM.
  assert (QN : forall l a b c, qtab N l (2 ^ m) a b c -> qtab N l (2 ^ m) (adds [] a) (adds [] b) (adds [] c)).
  { intros l a b c T. eapply qtab_ext; [exact T|]. intros i _. rewrite !adds_nil. auto. }
  assert (QS : forall l a b c k x y z, qtab N l (2 ^ m) (fun i => a i + ind (i =? k) * x)%F
      (fun i => b i + ind (i =? k) * y)%F (fun i => c i + ind (i =? k) * z)%F ->
      qtab N l (2 ^ m) (adds [(x, k)] a) (adds [(y, k)] b) (adds [(z, k)] c)).
  { intros l a b c k x y z T. eapply qtab_ext; [exact T|]. intros i _. unfold adds. rewrite !lsum_cons, !lsum_nil. cbn [fst snd].
    split; [ring|]. split; ring. }
  destruct (types g Hg) as [Hl|E].
  2:{ rewrite E. apply returns_ok. split; apply QN; assumption. }
  destruct (HK g Hg Hl) as [EK Kl]. pose proof (target_lt g Hg Hl) as TL.
  destruct (TG g Hg) as (w & a & Ew & Rw & Ha). specialize (Ha Hl). subst a.
  pose proof (shr_split (K g) j) as SP.
  assert (PW : 2 ^ (n - j) = 2 * 2 ^ m) by (rewrite <- pow2_S; f_equal; lia).
  set (q := Nat.shiftr (K g) (j + 1)) in *.
  assert (XO : returns (other (gate_at L g)) (fun x => rep x (X g))) by (apply Hother; assumption).
  destruct Hl as [E|E]; rewrite E; rewrite EK; (apply rb_idx; [lia|]); rewrite Nat2Z.id; fold q; cbv zeta;
    (eapply rb_nth; [exact Ew|]); rewrite SP;
    destruct (Nat.testbit (K g) j) eqn:TB; rewrite ?Nat.add_0_r, ?lxor1_odd, ?lxor1_even;
    (eapply rb_tab; [exact TV|lia|]; intros x Rx); (eapply rb_tab; [exact TV|lia|]; intros y Ry);
    (eapply returns_bind; [exact XO|]; intros o Ro); cbv beta in Ro; cbn [negb].
  - eapply (qtab_add _ _ _ _ _ _ _ _ _ (gadd two_F g) (gadd 1%F g) (gadd 0%F g) (fun q0 => QuadraticPoly _ _ _)); [exact TA|exact TL| |].
    + intros q0 R2 R1 R0. cbn [q_a q_b q_c]. unfold gadd, pick. fold j. rewrite TB. fold q. unfold fold1, two_F.
      split; [lzr|]. split; lzr.
    + intros A' TA'. apply returns_ok. split; [apply QS, TA'|apply QN, TM].
  - eapply (qtab_add _ _ _ _ _ _ _ _ _ (gadd two_F g) (gadd 1%F g) (gadd 0%F g) (fun q0 => QuadraticPoly _ _ _)); [exact TA|exact TL| |].
    + intros q0 R2 R1 R0. cbn [q_a q_b q_c]. unfold gadd, pick. fold j. rewrite TB. fold q. unfold fold1, two_F.
      split; [lzr|]. split; lzr.
    + intros A' TA'. apply returns_ok. split; [apply QS, TA'|apply QN, TM].
  - eapply (qtab_add _ _ _ _ _ _ _ _ _ (gmult two_F g) (gmult 1%F g) (gmult 0%F g) (fun q0 => QuadraticPoly _ _ _)); [exact TM|exact TL| |].
    + intros q0 R2 R1 R0. cbn [q_a q_b q_c]. unfold gmult, pick. fold j. rewrite TB. fold q. unfold fold1, two_F.
      split; [lzr|]. split; lzr.
    + intros A' TA'. apply returns_ok. split; [apply QN, TA|apply QS, TA'].
  - eapply (qtab_add _ _ _ _ _ _ _ _ _ (gmult two_F g) (gmult 1%F g) (gmult 0%F g) (fun q0 => QuadraticPoly _ _ _)); [exact TM|exact TL| |].
    + intros q0 R2 R1 R0. cbn [q_a q_b q_c]. unfold gmult, pick. fold j. rewrite TB. fold q. unfold fold1, two_F.
      split; [lzr|]. split; lzr.
    + intros A' TA'. apply returns_ok. split; [apply QN, TA|apply QS, TA'].
Qed.

(** The round polynomial is a quadratic. *)
Lemma e_quad : forall g, quad (fun t => e t g).
Proof.
  intro g. unfold e, sA, sM.
  destruct (g_ty (gate_at L g)) as [|[p|p|]|p]; try (exists 0%F, 0%F, 0%F; intro t; rewrite !lsum_nil; ring).
  - set (c := (W g * eqw R (K g))%F). set (q := Nat.shiftr (K g) (j + 1)).
    set (a := V' (2 * q)). set (b := V' (2 * q + 1)). unfold quad, gadd, pick. fold c q.
    destruct (Nat.testbit (K g) j).
    + exists (c * (b - a))%F, (c * (a + X g))%F, 0%F. intro t. rewrite lsum_cons, !lsum_nil. cbn [fst]. unfold fold1. fold a b. ring.
    + exists (- (c * (b - a)))%F, (c * ((b - a) - (a + X g)))%F, (c * (a + X g))%F. intro t.
      rewrite lsum_cons, !lsum_nil. cbn [fst]. unfold fold1. fold a b. ring.
  - set (c := (W g * eqw R (K g))%F). set (q := Nat.shiftr (K g) (j + 1)).
    set (a := V' (2 * q)). set (b := V' (2 * q + 1)). unfold quad, gmult, pick. fold c q.
    destruct (Nat.testbit (K g) j).
    + exists (c * X g * (b - a))%F, (c * X g * a)%F, 0%F. intro t. rewrite lsum_cons, !lsum_nil. cbn [fst]. unfold fold1. fold a b. ring.
    + exists (- (c * X g * (b - a)))%F, (c * X g * ((b - a) - a))%F, (c * X g * a)%F. intro t.
      rewrite lsum_cons, !lsum_nil. cbn [fst]. unfold fold1. fold a b. ring.
Qed.
Lemma sum_e : forall t, (sumn (2 ^ m) (scat G (sA t)) + sumn (2 ^ m) (scat G (sM t)))%F = sumn G (e t).
Proof.
  intro t. rewrite !sum_scat.
  - unfold gath. rewrite <- sumn_add. apply sumn_ext. intros g _. unfold e.
    f_equal; apply lsum_ext; intros; ring.
  - intros g u Hg Hu. unfold sM in Hu. destruct (types g Hg) as [Hl|E]; [|rewrite E in Hu; destruct Hu].
    pose proof (target_lt g Hg Hl) as TL. destruct Hl as [E|E]; rewrite E in Hu; [destruct Hu|].
    destruct Hu as [<-|[]]. exact TL.
  - intros g u Hg Hu. unfold sA in Hu. destruct (types g Hg) as [Hl|E]; [|rewrite E in Hu; destruct Hu].
    pose proof (target_lt g Hg Hl) as TL. destruct Hl as [E|E]; rewrite E in Hu; [|destruct Hu].
    destruct Hu as [<-|[]]. exact TL.
Qed.

Lemma gates_loop_ok : forall lV gs A M, tab N lV (2 ^ (n - j)) V' -> gtab gs (fun _ => R) ->
  qtab N A (2 ^ m) (fun _ => 0%F) (fun _ => 0%F) (fun _ => 0%F) -> qtab N M (2 ^ m) (fun _ => 0%F) (fun _ => 0%F) (fun _ => 0%F) ->
  returns (for_ G 0 (fun i st => gt <- rd (gates L) i ;; cmt_gate sel other lV gs j i gt st) (A, M)) (fun st =>
    qtab N (fst st) (2 ^ m) (scat G (sA two_F)) (scat G (sA 1%F)) (scat G (sA 0%F)) /\
    qtab N (snd st) (2 ^ m) (scat G (sM two_F)) (scat G (sM 1%F)) (scat G (sM 0%F))).
Proof.
  intros lV gs A M TV TG TA TM.
  apply (returns_for _ G 0 _ (fun i st =>
    qtab N (fst st) (2 ^ m) (scat i (sA two_F)) (scat i (sA 1%F)) (scat i (sA 0%F)) /\
    qtab N (snd st) (2 ^ m) (scat i (sM two_F)) (scat i (sM 1%F)) (scat i (sM 0%F)))).
  - split; assumption.
  - intros i [A' M'] Hi [TA' TM']. cbn [fst snd] in *. simpl in Hi. eapply rb_nth; [apply gate_rd; lia|].
    eapply returns_conseq; [apply (cmt_gate_ok lV gs i A' M' _ _ _ _ _ _ ltac:(lia) TV TG TA' TM')|].
    intros [A2 M2] [H1 H2]. cbn [fst snd] in *.
    split; (eapply qtab_ext; [eassumption|]; intros k Hk; rewrite !scat_S; auto).
Qed.

Definition ia (f2 f1 f0 : nat -> F) (k : nat) : F := ((f2 k - f0 k) * half_F - (f1 k - f0 k))%F.
Definition ib (f2 f1 f0 : nat -> F) (k : nat) : F := (two_F * (f1 k - f0 k) - (f2 k - f0 k) * half_F)%F.
Lemma interp_loop_ok : forall k A M f2 f1 f0 h2 h1 h0, qtab N A k f2 f1 f0 -> qtab N M k h2 h1 h0 ->
  returns (for_ k 0 (fun i st =>
     let '(A, M, ret) := st in
     qa <- rd A i ;; A <- wr A i (interpolate qa) ;;
     qm <- rd M i ;; M <- wr M i (interpolate qm) ;;
     xa <- rd A i ;; xm <- rd M i ;;
     Ok (A, M, quadratic_add (quadratic_add ret xa) xm)) (A, M, zero_quad)) (fun st =>
    let '(A, M, ret) := st in List.length A = N /\ List.length M = N /\
    rep (q_a ret) (sumn k (fun i => ia f2 f1 f0 i + ia h2 h1 h0 i))%F /\
    rep (q_b ret) (sumn k (fun i => ib f2 f1 f0 i + ib h2 h1 h0 i))%F /\
    rep (q_c ret) (sumn k (fun i => f0 i + h0 i))%F).
Proof.
  intros k A M f2 f1 f0 h2 h1 h0 (LA & LeA & TA) (LM & LeM & TM).
  eapply returns_conseq; [apply (returns_for _ k 0 _ (fun i st => let '(A', M', ret) := st in
    List.length A' = N /\ List.length M' = N /\
    (forall x, i <= x < k -> nth_error A' x = nth_error A x /\ nth_error M' x = nth_error M x) /\
    rep (q_a ret) (sumn i (fun i => ia f2 f1 f0 i + ia h2 h1 h0 i))%F /\
    rep (q_b ret) (sumn i (fun i => ib f2 f1 f0 i + ib h2 h1 h0 i))%F /\
    rep (q_c ret) (sumn i (fun i => f0 i + h0 i))%F))|].
  - split; [exact LA|]. split; [exact LM|]. split; [intros; auto|]. cbn [zero_quad q_a q_b q_c sumn].
    split; [exact rep_i0|]. split; exact rep_i0.
  - intros i [[A' M'] ret] Hi (LA' & LM' & HE & Ra & Rb & Rc). simpl in Hi.
    destruct (HE i ltac:(lia)) as [EA EM].
    destruct (TA i ltac:(lia)) as (x & Ex & X2 & X1 & X0). destruct (TM i ltac:(lia)) as (y & Ey & Y2 & Y1 & Y0).
    rewrite Ex in EA. rewrite Ey in EM.
    eapply rb_nth; [exact EA|]. apply rb_wr; [lia|]. eapply rb_nth; [exact EM|]. apply rb_wr; [lia|].
    eapply rb_nth; [apply nth_upd_same; lia|]. eapply rb_nth; [apply nth_upd_same; lia|]. apply returns_ok.
    destruct (interpolate_ok x _ _ _ X2 X1 X0) as (I2 & I1 & I0). destruct (interpolate_ok y _ _ _ Y2 Y1 Y0) as (J2 & J1 & J0).
    split; [rewrite upd_length; exact LA'|]. split; [rewrite upd_length; exact LM'|]. split.
    { intros z Hz. rewrite !nth_upd_other by lia. apply HE. lia. }
    unfold quadratic_add. cbn [q_a q_b q_c sumn]. fold (ia f2 f1 f0 i) in I2. fold (ia h2 h1 h0 i) in J2.
    fold (ib f2 f1 f0 i) in I1. fold (ib h2 h1 h0 i) in J1. generalize dependent (interpolate x). generalize dependent (interpolate y).
    intros y' J2 J1 J0 x' I2 I1 I0.
    split; [lzr|]. split; lzr.
  - intros [[A' M'] ret] (LA' & LM' & _ & H). split; [exact LA'|]. split; [exact LM'|exact H].
Qed.

Lemma last_case : forall (Q : list F), Q = [] \/ exists Q' a, Q = Q' ++ [a].
Proof.
  intros [|x Q]; [left; reflexivity|right]. destruct (@exists_last _ (x :: Q)) as (Q' & a & E); [discriminate|].
  exists Q', a. exact E.
Qed.
(** What the arrays hold before the round for the challenges [Q]; the last
    challenge is not bound yet. *)
Definition before (p : tprover) (Q : list F) : Prop :=
  let Q' := removelast Q in
  tab N (t_V p) (2 ^ (n - List.length Q')) (folds Q' V) /\ gtab (t_gsum p) (fun _ => Q').
Lemma cmt_update_ok : forall p prev,
  nth_error (circuit (t_C p)) (t_layer p) = Some L -> t_length_g p = lg -> t_total_uv p = 2 ^ n ->
  List.length (t_add p) = N -> List.length (t_mult p) = N -> before p R -> rep prev (last R 0%F) ->
  returns (cmt_update sel other p prev j) (fun res => let '(poly, p') := res in
    (exists A M lV gs, p' = t_set_round p (t_v_u p) A M lV gs /\ List.length A = N /\ List.length M = N) /\
    (forall a, before p' (R ++ [a])) /\
    exists c, qrep poly c /\ forall t, peval c t = round m V' (folds R (scat G rM)) (folds R (scat G rA)) t).
Proof.
  intros p prev EL Elg Euv LA LM [BV BG] Rp. unfold cmt_update.
  eapply rb_nth; [exact EL|]. rewrite Elg, Euv. fold G.
  eapply (returns_bind _ _ _ _ (fun st => tab N (fst st) (2 ^ (n - j)) V' /\ gtab (snd st) (fun _ => R))).
  { destruct (last_case R) as [E|(Q & a & E)].
    - unfold j, V'. rewrite E in *. cbn [List.length]. apply returns_ok. cbn [fst snd removelast] in *. split; [exact BV|exact BG].
    - assert (Ej : j = S (List.length Q)) by (unfold j; rewrite E, app_length; cbn [List.length]; lia).
      rewrite Ej. rewrite E, removelast_snoc in BV, BG. rewrite E, last_last in Rp.
      rewrite shr_div.
      replace (2 ^ n / 2 ^ S (List.length Q)) with (2 ^ (n - S (List.length Q))).
      2:{ symmetry. replace n with ((n - S (List.length Q)) + S (List.length Q)) at 1 by lia.
          rewrite Nat.pow_add_r. apply Nat.div_mul. pose proof (pow2_pos (S (List.length Q))). lia. }
      eapply returns_bind.
      { eapply fold_V_ok; [|exact Rp]. replace (S (n - S (List.length Q))) with (n - List.length Q) by lia. exact BV. }
      intros lV TV. cbv beta in TV. eapply returns_bind; [eapply scale_gates_ok; [exact BG|exact Rp]|].
      intros gs TG. cbv beta in TG. apply returns_ok. cbn [fst snd]. unfold V'. rewrite E, folds_snoc. split; [exact TV|exact TG]. }
  intros [lV gs] [TV TG]. cbn [fst snd] in TV, TG.
  assert (EN : Nat.shiftr (2 ^ n) (j + 1) = 2 ^ m).
  { rewrite shr_div. replace n with (m + (j + 1)) at 1 by lia. rewrite Nat.pow_add_r. apply Nat.div_mul.
    pose proof (pow2_pos (j + 1)). lia. }
  rewrite EN. assert (Hm : 2 ^ m <= N).
  { eapply Nat.le_trans; [|exact HN]. apply Nat.pow_le_mono_r; lia. }
  eapply (returns_bind _ _ _ _ (fun st => qtab N (fst st) (2 ^ m) (fun _ => 0%F) (fun _ => 0%F) (fun _ => 0%F) /\
     qtab N (snd st) (2 ^ m) (fun _ => 0%F) (fun _ => 0%F) (fun _ => 0%F))).
  { apply (returns_for _ (2 ^ m) 0 _ (fun i st => qtab N (fst st) i (fun _ => 0%F) (fun _ => 0%F) (fun _ => 0%F) /\
     qtab N (snd st) i (fun _ => 0%F) (fun _ => 0%F) (fun _ => 0%F))).
    - cbn [fst snd]. split; (split; [assumption|]; split; [lia|]; intros; lia).
    - intros i [A M] Hi [TA TM]. cbn [fst snd] in *. simpl in Hi.
      apply rb_wr; [destruct TA as [-> _]; lia|]. apply rb_wr; [destruct TM as [-> _]; lia|]. apply returns_ok. cbn [fst snd].
      split; (apply qtab_push; [assumption|lia|exact rep_i0|exact rep_i0|exact rep_i0]). }
  intros [A M] [TA TM]. cbn [fst snd] in TA, TM.
  eapply returns_bind; [apply (gates_loop_ok lV gs A M TV TG TA TM)|].
  clear A M TA TM. intros [A M] [TA TM]. cbn [fst snd] in TA, TM.
  eapply returns_bind; [eapply interp_loop_ok; [exact TA|exact TM]|].
  clear A M TA TM. intros [[A M] ret] (LA' & LM' & Ra & Rb & Rc). apply returns_ok.
  split; [|split].
  - exists A, M, lV, gs. auto.
  - intro a. unfold before. rewrite removelast_snoc. cbn [t_set_round t_V t_gsum]. split; [exact TV|exact TG].
  - eexists. split.
    { do 3 eexists. split; [reflexivity|]. split; [exact Ra|]. split; [exact Rb|exact Rc]. }
    intro t. rewrite round_e.
    destruct (quad_sum G e (fun g _ => e_quad g)) as (x & y & z & Hq).
    rewrite (quad_values (fun t => sumn G (e t)) x y z Hq t). rewrite <- !sum_e.
    cbn [peval List.length Fpow]. unfold ia, ib. rewrite !sumn_add, !sumn_sub, !sumn_scal, !sumn_scal_r, !sumn_sub.
    ring.
Qed.
End Round.
