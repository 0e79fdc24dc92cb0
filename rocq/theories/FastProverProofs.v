(** * The fast-track prover computes the sumcheck of the layer relation (C18, C24) *)
From Coq Require Import ZArith List Bool Arith Lia Ring.
From Verif Require Import Limbs Field FieldProofs Fp Base MleSpec GkrMath Poly PolyProofs Circuit
  FastProver Lazy TablesProofs.
Import ListNotations.
Open Scope nat_scope.

(** ** Circuit evaluation *)
Definition gate_at (L : layer) (i : nat) : gate := nth i (gates L) (Gate 2 0 0).
Lemma gate_rd : forall L i, i < length (gates L) -> nth_error (gates L) i = Some (gate_at L i).
Proof. intros L i H. unfold gate_at. apply nth_error_nth'. exact H. Qed.

(** Meaning of one gate according to the table of gate types (README / paper):
    independent of the bilinear forms used for the sumcheck. *)
Definition gate_spec (V : nat -> F) (g : gate) : F :=
  let u := Z.to_nat (g_u g) in let v := Z.to_nat (g_v g) in
  match g_ty g with
  | 0%Z => (V u + V v)%F
  | 1%Z => (V u * V v)%F
  | 2%Z => 0%F
  | 3%Z => ofZ (g_u g mod W64)
  | 4%Z => V u
  | 5%Z => sumn (v - u) (fun k => V (u + k))
  | 6%Z => (1 - V u)%F
  | 7%Z => (V u - V v)%F
  | 8%Z => (V u + V v - (1 + 1) * V u * V v)%F
  | 9%Z => ((1 - V u) * V v)%F
  | 10%Z => V u
  | 12%Z => sumn (v + 1 - u) (fun k => Fpow (1 + 1) k * V (u + k)%nat)%F
  | 13%Z => (V u * (1 - V v))%F
  | _ => 0%F
  end.
(** The wires a gate reads lie in a table of size [n]. *)
Definition reads_in (n : nat) (g : gate) : Prop :=
  match g_ty g with
  | 0%Z | 1%Z | 7%Z | 8%Z | 9%Z => (0 <= g_u g < Z.of_nat n /\ 0 <= g_v g < Z.of_nat n)%Z
  | 4%Z | 6%Z | 10%Z => (0 <= g_u g < Z.of_nat n)%Z
  | 5%Z => (0 <= g_u g <= g_v g /\ g_v g <= Z.of_nat n)%Z
  | 2%Z | 3%Z => True
  | _ => False
  end.

Lemma ztonat_lt : forall z n, (0 <= z < Z.of_nat n)%Z -> Z.to_nat z < n.
Proof. intros. lia. Qed.

Lemma gate_value_ok : forall N prev n V g, tab N prev n V -> reads_in n g ->
  returns (gate_value prev (g_ty g) (g_u g) (g_v g)) (fun x => rep x (gate_spec V g)).
Proof.
  intros N prev n V [ty u v] T R. unfold reads_in, gate_spec in *. cbn [g_ty g_u g_v] in *.
  assert (C : In ty [0;1;2;3;4;5;6;7;8;9;10]%Z).
  { destruct ty as [|[p|p|]|]; cbn [In] in *; try (exfalso; exact R); try tauto.
    all: repeat (destruct p as [p|p|]; cbn [In] in *; try (exfalso; exact R); try tauto). }
  cbn [In] in C.
  destruct C as [<-|[<-|[<-|[<-|[<-|[<-|[<-|[<-|[<-|[<-|[<-|[]]]]]]]]]]]]; cbn [gate_value].
  - destruct R. apply rb_idx; [lia|]. eapply rb_tab; [exact T|lia|]. intros x Rx.
    apply rb_idx; [lia|]. eapply rb_tab; [exact T|lia|]. intros y Ry. apply returns_ok. lzr.
  - destruct R. apply rb_idx; [lia|]. eapply rb_tab; [exact T|lia|]. intros x Rx.
    apply rb_idx; [lia|]. eapply rb_tab; [exact T|lia|]. intros y Ry. apply returns_ok. lzr.
  - apply returns_ok. exact rep_i0.
  - apply returns_ok. apply rep_of_int.
  - apply rb_idx; [lia|]. eapply (tab_rd _ _ _ _ _ _ T); [lia|auto].
  - destruct R as [R1 R2]. eapply returns_conseq.
    + apply (returns_forz _ u v _ (fun k x => rep x (sumn (Z.to_nat k - Z.to_nat u) (fun k => V (Z.to_nat u + k)))));
      [lia| |].
      * rewrite Nat.sub_diag. exact rep_i0.
      * intros k x Hk Rx. apply rb_idx; [lia|]. eapply rb_tab; [exact T|lia|]. intros y Ry. apply returns_ok.
        replace (Z.to_nat (k + 1) - Z.to_nat u) with (S (Z.to_nat k - Z.to_nat u)) by lia. cbn [sumn].
        replace (Z.to_nat u + (Z.to_nat k - Z.to_nat u)) with (Z.to_nat k) by lia. lzr.
    + cbv beta. intros x Rx. exact Rx.
  - apply rb_idx; [lia|]. eapply rb_tab; [exact T|lia|]. intros x Rx. apply returns_ok. lzr.
  - destruct R. apply rb_idx; [lia|]. eapply rb_tab; [exact T|lia|]. intros x Rx.
    apply rb_idx; [lia|]. eapply rb_tab; [exact T|lia|]. intros y Ry. apply returns_ok. lzr.
  - destruct R. apply rb_idx; [lia|]. eapply rb_tab; [exact T|lia|]. intros x Rx.
    apply rb_idx; [lia|]. eapply rb_tab; [exact T|lia|]. intros y Ry. apply returns_ok. lzr.
  - destruct R. apply rb_idx; [lia|]. eapply rb_tab; [exact T|lia|]. intros x Rx.
    apply rb_idx; [lia|]. eapply rb_tab; [exact T|lia|]. intros y Ry. apply returns_ok. lzr.
  - apply rb_idx; [lia|]. eapply (tab_rd _ _ _ _ _ _ T); [lia|auto].
Qed.

(** The value tables of a circuit: layer 0 from the input gates. *)
Definition input_spec (L : layer) : nat -> F := fun g => ofZ (g_u (gate_at L g) mod W64).
Fixpoint values (ls : list layer) (V : nat -> F) : list (nat -> F) :=
  match ls with [] => [] | L :: r => let V' := fun g => gate_spec V (gate_at L g) in V' :: values r V' end.
(** [vals C i g]: the value of gate [g] of layer [i]. *)
Definition vals (C : layered_circuit) (i : nat) : nat -> F :=
  match circuit C with
  | [] => fun _ => 0%F
  | L0 :: r => nth i (input_spec L0 :: values r (input_spec L0)) (fun _ => 0%F)
  end.
Definition layer_at (C : layered_circuit) (i : nat) : layer := nth i (circuit C) (plain_layer [] 0).

Lemma values_length : forall ls V, length (values ls V) = length ls.
Proof. induction ls; intro V; cbn [values length]; auto. Qed.
Lemma values_nth : forall ls V d i, i < length ls ->
  nth (S i) (V :: values ls V) d = fun g => gate_spec (nth i (V :: values ls V) d) (gate_at (nth i ls (plain_layer [] 0)) g).
Proof.
  induction ls as [|L ls IH]; intros V d i H; [simpl in H; lia|].
  destruct i as [|i]; [reflexivity|].
  pose (V' := fun g => gate_spec V (gate_at L g)).
  change (nth (S i) (V' :: values ls V') d =
    fun g => gate_spec (nth i (V' :: values ls V') d) (gate_at (nth i ls (plain_layer [] 0)) g)).
  apply IH. cbn [length] in H. lia.
Qed.
Lemma vals_0 : forall C, circuit C <> [] -> vals C 0 = input_spec (layer_at C 0).
Proof. intros C H. unfold vals, layer_at. destruct (circuit C); [congruence|reflexivity]. Qed.
Lemma vals_S : forall C i, S i < length (circuit C) ->
  vals C (S i) = fun g => gate_spec (vals C i) (gate_at (layer_at C (S i)) g).
Proof.
  intros C i H. unfold vals, layer_at. destruct (circuit C) as [|L0 r]; [simpl in H; lia|].
  rewrite values_nth by (simpl in H; lia). reflexivity.
Qed.

(** Well-formed circuits: enough gates in each layer, input layer of input
    gates, all wires inside the previous layer. *)
Record wf_circuit (C : layered_circuit) : Prop := {
  wf_depth : total_depth C = length (circuit C);
  wf_pos : 0 < total_depth C;
  wf_small : (Z.of_nat (total_depth C) < 1000000)%Z;
  wf_gates : forall i, i < total_depth C -> 2 ^ bit_length (layer_at C i) <= length (gates (layer_at C i));
  wf_input : forall g, g < 2 ^ bit_length (layer_at C 0) ->
     g_ty (gate_at (layer_at C 0) g) = 3%Z \/ g_ty (gate_at (layer_at C 0) g) = 2%Z;
  wf_wires : forall i g, 0 < i < total_depth C -> g < 2 ^ bit_length (layer_at C i) ->
     reads_in (2 ^ bit_length (layer_at C (i - 1))) (gate_at (layer_at C i) g) }.

Lemma layer_rd : forall C i, i < length (circuit C) -> nth_error (circuit C) i = Some (layer_at C i).
Proof. intros C i H. unfold layer_at. apply nth_error_nth'. exact H. Qed.

Lemma input_values_ok : forall L, 2 ^ bit_length L <= length (gates L) ->
  (forall g, g < 2 ^ bit_length L -> g_ty (gate_at L g) = 3%Z \/ g_ty (gate_at L g) = 2%Z) ->
  returns (input_values L) (fun row => tab (2 ^ bit_length L) row (2 ^ bit_length L) (input_spec L)).
Proof.
  intros L HG HT. unfold input_values. set (n := 2 ^ bit_length L) in *.
  eapply returns_conseq; [apply (returns_for _ n 0 _ (fun i row => tab n row i (input_spec L)))|].
  - pose proof (tab_nil (repeat fe_zero n) (input_spec L)) as K. rewrite repeat_length in K. exact K.
  - intros i row Hi T. simpl in Hi.
    eapply rb_nth; [apply gate_rd; lia|]. apply rb_assert.
    { destruct (HT i ltac:(lia)) as [-> | ->]; reflexivity. }
    apply returns_wr; [destruct T as [-> _]; lia|]. apply tab_push; [exact T|lia|]. apply rep_of_int.
  - intros a H. exact H.
Qed.
Lemma layer_values_ok : forall L N prev n V, 2 ^ bit_length L <= length (gates L) -> tab N prev n V ->
  (forall g, g < 2 ^ bit_length L -> reads_in n (gate_at L g)) ->
  returns (layer_values L prev) (fun row => tab (2 ^ bit_length L) row (2 ^ bit_length L)
     (fun g => gate_spec V (gate_at L g))).
Proof.
  intros L N prev n V HG TP HR. unfold layer_values. set (m := 2 ^ bit_length L) in *.
  eapply returns_conseq; [apply (returns_for _ m 0 _ (fun i row => tab m row i (fun g => gate_spec V (gate_at L g))))|].
  - pose proof (tab_nil (repeat fe_zero m) (fun g => gate_spec V (gate_at L g))) as K.
    rewrite repeat_length in K. exact K.
  - intros i row Hi T. simpl in Hi.
    eapply rb_nth; [apply gate_rd; lia|].
    eapply returns_bind; [eapply gate_value_ok; [exact TP|apply HR; lia]|]. intros x Rx.
    apply returns_wr; [destruct T as [-> _]; lia|]. apply tab_push; [exact T|lia|exact Rx].
  - intros a H. exact H.
Qed.

(** Rows computed for layers [0 .. n-1]. *)
Definition rows_ok (C : layered_circuit) (n : nat) (cv : list (list fe)) : Prop :=
  length cv = n /\ forall i, i < n -> exists row, nth_error cv i = Some row /\
    tab (2 ^ bit_length (layer_at C i)) row (2 ^ bit_length (layer_at C i)) (vals C i).
Lemma evaluate_ok : forall p, wf_circuit (p_C p) ->
  returns (evaluate p) (fun x => exists cv, snd x = set_values p cv /\ rows_ok (p_C p) (total_depth (p_C p)) cv /\
     nth_error cv (total_depth (p_C p) - 1) = Some (fst x)).
Proof.
  intros p WF. set (C := p_C p) in *. destruct WF as [D0 Dp Ds Hg Hi Hw]. unfold evaluate. fold C.
  eapply rb_nth; [apply layer_rd; lia|].
  eapply returns_bind; [apply input_values_ok; [apply Hg; lia|exact Hi]|]. intros row0 T0. cbv beta in T0.
  apply rb_assert; [apply Z.ltb_lt; exact Ds|].
  eapply returns_bind.
  - apply (returns_for _ (total_depth C - 1) 1 _ (fun i cv => rows_ok C i cv)).
    + split; [reflexivity|]. intros i Hi'. assert (i = 0) as -> by lia. exists row0. split; [reflexivity|].
      rewrite vals_0; [exact T0|]. intro E. rewrite E in D0. simpl in D0. lia.
    + intros i cv Hi' [L R]. eapply rb_nth; [apply layer_rd; lia|].
      destruct (R (i - 1) ltac:(lia)) as (prev & En & Tp).
      eapply rb_nth; [exact En|].
      eapply returns_bind; [eapply layer_values_ok; [apply Hg; lia|exact Tp|intros; apply Hw; lia]|].
      intros row Tr. cbv beta in Tr. apply returns_ok. split; [rewrite app_length; simpl; lia|].
      intros k Hk. destruct (Nat.eq_dec k i) as [->|Nk].
      * exists row. rewrite nth_error_app2 by lia. rewrite L, Nat.sub_diag. split; [reflexivity|].
        replace i with (S (i - 1)) at 3 by lia. rewrite vals_S by lia.
        replace (S (i - 1)) with i by lia. exact Tr.
      * rewrite nth_error_app1 by lia. apply R. lia.
  - replace (1 + (total_depth C - 1)) with (total_depth C) by lia. intros cv HR. pose proof HR as [L R].
    destruct (R (total_depth C - 1) ltac:(lia)) as (row & En & Tr).
    eapply rb_nth; [exact En|]. apply returns_ok. exists cv. cbn [fst snd].
    split; [reflexivity|]. split; [exact HR|exact En].
Qed.

(** ** Binding one variable of the three tables *)
Definition mid (i : nat) (new old : nat -> F) : nat -> F := fun k => if k <? i then new k else old k.
Lemma mid_S : forall i new old k, (if k =? i then new i else mid i new old k) = mid (S i) new old k.
Proof.
  intros i new old k. unfold mid. destruct (Nat.eqb_spec k i) as [->|N].
  - destruct (Nat.ltb_spec i (S i)); [reflexivity|lia].
  - destruct (Nat.ltb_spec k i); destruct (Nat.ltb_spec k (S i)); try lia; reflexivity.
Qed.
Lemma mid_old : forall i new old k, i <= k -> mid i new old k = old k.
Proof. intros. unfold mid. destruct (Nat.ltb_spec k i); [lia|reflexivity]. Qed.
Lemma mid_new : forall i new old k, k < i -> mid i new old k = new k.
Proof. intros. unfold mid. destruct (Nat.ltb_spec k i); [reflexivity|lia]. Qed.

(** What binding entry [i] must do to an array whose first [2m] entries are
    [(fa, fb)]: turn entry [i] into [(na i, nb i)]. *)
Definition binds (be : list linear_poly -> nat -> outcome (list linear_poly)) (m : nat)
    (fa fb na nb : nat -> F) : Prop :=
  forall N l i, i < m -> ltab N l (2 * m) (mid i na fa) (mid i nb fb) ->
    returns (be l i) (fun l' => ltab N l' (2 * m) (mid (S i) na fa) (mid (S i) nb fb)).

Section Bind.
(** Common shape of the three rules: [nb] from the even entry, then [na] from
    the odd entry and the new [b]. *)
Variable eb : linear_poly -> fe.
Variable ea : linear_poly -> fe -> fe.
Variables fa fb na nb : nat -> F.
Variable m : nat.
Hypothesis Hb : forall i x, i < m -> rep (l_a x) (fa (2 * i)) -> rep (l_b x) (fb (2 * i)) -> rep (eb x) (nb i).
Hypothesis Ha : forall i x b, i < m -> rep (l_a x) (fa (2 * i + 1)) -> rep (l_b x) (fb (2 * i + 1)) ->
  rep b (nb i) -> rep (ea x b) (na i).
Definition bind_gen (l : list linear_poly) (i : nat) : outcome (list linear_poly) :=
  z <- rd l (Nat.shiftl i 1) ;;
  cur <- rd l i ;;
  l <- wr l i (LinearPoly (l_a cur) (eb z)) ;;
  o <- rd l (Nat.lor (Nat.shiftl i 1) 1) ;;
  cur <- rd l i ;;
  wr l i (LinearPoly (ea o (l_b cur)) (l_b cur)).
Lemma bind_gen_ok : binds bind_gen m fa fb na nb.
Proof.
  intros N l i Hi T. unfold bind_gen. rewrite shl1_or1, shl1.
  assert (HL : length l = N) by apply T. assert (HN : 2 * m <= N) by apply T.
  eapply rb_ltab; [exact T|lia|]. intros z Za Zb. rewrite mid_old in Za, Zb by lia.
  eapply rb_ltab; [exact T|lia|]. intros c Ca Cb. rewrite mid_old in Ca, Cb by lia.
  apply rb_wr; [lia|].
  assert (Rb : rep (eb z) (nb i)) by (apply Hb; assumption).
  pose proof (ltab_upd N l (2 * m) _ _ i (LinearPoly (l_a c) (eb z)) (fa i) (nb i) T ltac:(lia) Ca Rb) as T2.
  cbn [l_a l_b] in T2.
  eapply rb_ltab; [exact T2|lia|]. intros o Oa Ob. cbv beta in Oa, Ob.
  destruct (Nat.eqb_spec (2 * i + 1) i); [lia|]. rewrite mid_old in Oa, Ob by lia.
  eapply rb_ltab; [exact T2|lia|]. intros c2 Ca2 Cb2. cbv beta in Ca2, Cb2. rewrite Nat.eqb_refl in Ca2, Cb2.
  apply returns_wr; [rewrite upd_length; lia|].
  eapply ltab_ext; [apply (ltab_upd _ _ _ _ _ i _ (na i) (nb i) T2); [lia| |exact Cb2]| |].
  - cbn [l_a]. apply (Ha i); assumption.
  - intros k Hk. cbv beta. rewrite <- mid_S. destruct (Nat.eqb_spec k i); reflexivity.
  - intros k Hk. cbv beta. rewrite <- mid_S. destruct (Nat.eqb_spec k i); reflexivity.
Qed.
End Bind.

(** First round: [b_i = T(2i)], [a_i = T(2i+1) - T(2i)]. *)
Lemma bind_first_ok : forall m fa T,
  binds bind_first m fa T (fun i => T (2 * i + 1)%nat - T (2 * i)%nat)%F (fun i => T (2 * i)%nat).
Proof.
  intros m fa T. apply (bind_gen_ok (fun z => l_b z) (fun o b => fe_sub (l_b o) b)).
  - intros; assumption.
  - intros; lzr.
Qed.
(** Later rounds: the previous pair describes the table [T], which is first
    bound at [r]. *)
Section Next.
Variable T : nat -> F.
Variable m : nat.
Variables (r : fe) (a : F).
Hypothesis Hr : rep r a.
Let fa := (fun i => T (2 * i + 1)%nat - T (2 * i)%nat)%F.
Let fb := (fun i => T (2 * i)%nat).
Let T' := fold1 a T.
Lemma bind_next1_ok :
  binds (bind_next1 r) m fa fb (fun i => T' (2 * i + 1)%nat - T' (2 * i)%nat)%F (fun i => T' (2 * i)%nat).
Proof.
  apply (bind_gen_ok (fun z => u512_mod (u512_add (u512_mul (l_a z) r) (l_b z)))
    (fun o b => u512_mod (u512_add (u512_sub (u512_add (u512_mul (l_a o) r) (l_b o)) b) modv))).
  - intros. subst fa fb T'. cbv beta in *. unfold fold1. lzr.
  - intros. subst fa fb T'. cbv beta in *. unfold fold1 in *. lzr.
Qed.
Lemma bind_next2_ok :
  binds (bind_next2 r) m fa fb (fun i => T' (2 * i + 1)%nat - T' (2 * i)%nat)%F (fun i => T' (2 * i)%nat).
Proof.
  apply (bind_gen_ok (fun z => u512_mod (u512_add (u512_mul (l_a z) r) (l_b z)))
    (fun o b => u512_mod (u512_sub (u512_add (u512_add (u512_mul (l_a o) r) (l_b o)) modv) b))).
  - intros. subst fa fb T'. cbv beta in *. unfold fold1. lzr.
  - intros. subst fa fb T'. cbv beta in *. unfold fold1 in *. lzr.
Qed.
End Next.

(** State of one table before round [j] of [n]: fresh, or in pair form after
    binding [R]. *)
Definition bound (N n : nat) (l : list linear_poly) (T : nat -> F) (R : list F) : Prop :=
  match R with
  | [] => exists fa, ltab N l (2 ^ n) fa T
  | _ => let T' := folds (removelast R) T in
         ltab N l (2 ^ (n - length R)) (fun i => T' (2 * i + 1)%nat - T' (2 * i)%nat)%F (fun i => T' (2 * i)%nat)
  end.
Definition coef_a (V M A : nat -> F) (i : nat) : F :=
  ((M (2 * i + 1)%nat - M (2 * i)%nat) * (V (2 * i + 1)%nat - V (2 * i)%nat))%F.
Definition coef_b (V M A : nat -> F) (i : nat) : F :=
  ((M (2 * i + 1)%nat - M (2 * i)%nat) * V (2 * i)%nat + M (2 * i)%nat * (V (2 * i + 1)%nat - V (2 * i)%nat)
   + (A (2 * i + 1)%nat - A (2 * i)%nat))%F.
Definition coef_c (V M A : nat -> F) (i : nat) : F := (M (2 * i)%nat * V (2 * i)%nat + A (2 * i)%nat)%F.

Section UpdateLoop.
Variable be : list linear_poly -> nat -> outcome (list linear_poly).
Variable m : nat.
Variables Va Vb Aa Ab Ma Mb : nat -> F.     (* old pairs *)
Variables V A M : nat -> F.                 (* tables after binding *)
Let da (T : nat -> F) := (fun i => T (2 * i + 1)%nat - T (2 * i)%nat)%F.
Let db (T : nat -> F) := (fun i => T (2 * i)%nat).
Hypothesis HV : binds be m Va Vb (da V) (db V).
Hypothesis HA : binds be m Aa Ab (da A) (db A).
Hypothesis HM : binds be m Ma Mb (da M) (db M).
Lemma update_loop_ok : forall N lV lA lM, 
  ltab N lV (2 * m) Va Vb -> ltab N lA (2 * m) Aa Ab -> ltab N lM (2 * m) Ma Mb ->
  returns (for_ m 0 (fun i st =>
     let '(V, A, M, ret) := st in
     V <- be V i ;; A <- be A i ;; M <- be M i ;;
     ret <- accumulate V A M i ret ;;
     Ok (V, A, M, ret)) (lV, lA, lM, QuadraticPoly (fe_of_int 0) (fe_of_int 0) (fe_of_int 0)))
   (fun st => let '(lV, lA, lM, ret) := st in
      ltab N lV m (da V) (db V) /\ ltab N lA m (da A) (db A) /\ ltab N lM m (da M) (db M) /\
      rep (q_a ret) (sumn m (coef_a V M A)) /\ rep (q_b ret) (sumn m (coef_b V M A)) /\
      rep (q_c ret) (sumn m (coef_c V M A))).
Proof.
  intros N lV lA lM TV TA TM.
  eapply returns_conseq; [apply (returns_for _ m 0 _ (fun i st => let '(lV, lA, lM, ret) := st in
    ltab N lV (2 * m) (mid i (da V) Va) (mid i (db V) Vb) /\
    ltab N lA (2 * m) (mid i (da A) Aa) (mid i (db A) Ab) /\
    ltab N lM (2 * m) (mid i (da M) Ma) (mid i (db M) Mb) /\
      rep (q_a ret) (sumn i (coef_a V M A)) /\ rep (q_b ret) (sumn i (coef_b V M A)) /\
      rep (q_c ret) (sumn i (coef_c V M A))))|].
  - split; [exact TV|]. split; [exact TA|]. split; [exact TM|]. cbn [q_a q_b q_c sumn].
    split; [exact rep_i0|]. split; exact rep_i0.
  - clear lV lA lM TV TA TM. intros i [[[lV lA] lM] ret] Hi (TV & TA & TM & Ra & Rb & Rc). simpl in Hi.
    eapply returns_bind; [apply HV; [lia|exact TV]|]. clear TV lV. intros lV TV.
    eapply returns_bind; [apply HA; [lia|exact TA]|]. clear TA lA. intros lA TA.
    eapply returns_bind; [apply HM; [lia|exact TM]|]. clear TM lM. intros lM TM.
    cbv beta in TV, TA, TM. unfold accumulate.
    eapply returns_bind.
    + eapply rb_ltab; [exact TV|lia|]. intros v Hva Hvb. rewrite mid_new in Hva, Hvb by lia.
      eapply rb_ltab; [exact TA|lia|]. intros a Haa Hab. rewrite mid_new in Haa, Hab by lia.
      eapply rb_ltab; [exact TM|lia|]. intros mm Hma Hmb. rewrite mid_new in Hma, Hmb by lia.
      subst da db. cbv beta in *.
      apply (returns_ok _ _ (fun ret => rep (q_a ret) (sumn (S i) (coef_a V M A)) /\
        rep (q_b ret) (sumn (S i) (coef_b V M A)) /\ rep (q_c ret) (sumn (S i) (coef_c V M A)))).
      cbn [q_a q_b q_c sumn]. split; [unfold coef_a at 2; lzr|]. split; [unfold coef_b at 2; lzr|unfold coef_c at 2; lzr].
    + intros ret' (Ra' & Rb' & Rc'). apply returns_ok. split; [exact TV|]. split; [exact TA|]. split; [exact TM|].
      split; [exact Ra'|]. split; assumption.
  - intros [[[lV' lA'] lM'] ret] (TV' & TA' & TM' & Ra & Rb & Rc). simpl (0 + m) in *.
    assert (K : forall l T (a b : nat -> F), ltab N l (2 * m) (mid m (da T) a) (mid m (db T) b) ->
              ltab N l m (da T) (db T)).
    { intros l T a b H. eapply ltab_ext; [eapply ltab_sub; [exact H|lia]| |];
      intros k Hk; apply mid_new; exact Hk. }
    split; [eapply K, TV'|]. split; [eapply K, TA'|]. split; [eapply K, TM'|]. split; [exact Ra|]. split; assumption.
Qed.
End UpdateLoop.

Lemma round_coefs : forall n V M A t,
  round n V M A t = peval [sumn (2 ^ n) (coef_a V M A); sumn (2 ^ n) (coef_b V M A); sumn (2 ^ n) (coef_c V M A)] t.
Proof.
  intros n V M A t. cbn [peval length Fpow]. unfold round, psum.
  transitivity (sumn (2 ^ n) (fun i => coef_a V M A i * (t * (t * 1)) + (coef_b V M A i * (t * 1) + (coef_c V M A i * 1)))%F).
  - apply sumn_ext. intros i _. unfold fold1, coef_a, coef_b, coef_c. ring.
  - rewrite !sumn_add, !sumn_scal_r. ring.
Qed.
Lemma renormalise_ok : forall x a, rep x a -> rep (renormalise x) a.
Proof. intros. unfold renormalise. lzr. Qed.

Lemma removelast_snoc : forall (l : list F) a, removelast (l ++ [a]) = l.
Proof. intros. rewrite removelast_app by discriminate. simpl. apply app_nil_r. Qed.
Lemma snoc_not_nil : forall (l : list F) a, l ++ [a] <> [].
Proof. intros [|x l] a; discriminate. Qed.
Lemma bound_snoc : forall N n l T R a, bound N n l T (R ++ [a]) <->
  let T' := folds R T in
  ltab N l (2 ^ (n - S (length R))) (fun i => T' (2 * i + 1)%nat - T' (2 * i)%nat)%F (fun i => T' (2 * i)%nat).
Proof.
  intros N n l T R a. unfold bound. destruct (R ++ [a]) eqn:E; [exfalso; exact (snoc_not_nil _ _ E)|].
  rewrite <- E, removelast_snoc, app_length. cbn [length]. rewrite Nat.add_1_r. reflexivity.
Qed.

Section Update.
Variable next : fe -> list linear_poly -> nat -> outcome (list linear_poly).
Hypothesis next_ok : forall T m r a, rep r a ->
  binds (next r) m (fun i => T (2 * i + 1)%nat - T (2 * i)%nat)%F (fun i => T (2 * i)%nat)
    (fun i => fold1 a T (2 * i + 1)%nat - fold1 a T (2 * i)%nat)%F (fun i => fold1 a T (2 * i)%nat).

(** One round: the prover state holds the three tables bound at [R] (except for
    the last coordinate, passed as [previous_random]). *)
Definition tabs_bound (N n : nat) (p : prover) (V M A : nat -> F) (R : list F) : Prop :=
  bound N n (p_Vmult p) V R /\ bound N n (p_addmult p) M R /\ bound N n (p_addV p) A R /\
  p_total_uv p = 2 ^ (n - length R).

(** [R'] after the round: [a] is the challenge answered in this round (any value
    can follow: it only enters through the next call). *)
Lemma sumcheck_update_ok : forall N n p V M A R prev,
  length R < n ->
  tabs_bound N n p V M A R ->
  rep prev (last R 0%F) ->
  returns (sumcheck_update next p prev (length R)) (fun res =>
    let '(poly, p') := res in
    (forall a, tabs_bound N n p' V M A (R ++ [a])) /\
    (exists lV lA lM, p' = set_arrays p (2 ^ (n - S (length R))) lV lA lM) /\
    exists c, qrep poly c /\
      forall t, peval c t = round (n - S (length R)) (folds R V) (folds R M) (folds R A) t).
Proof.
  intros N n p V M A R prev HR (BV & BM & BA & HU) Hprev.
  unfold sumcheck_update. rewrite HU. set (m := n - S (length R)).
  replace (n - length R) with (S m) by lia. rewrite shr1_pow2.
  set (be := if length R =? 0 then bind_first else next prev).
  assert (K : exists Va Vb Aa Ab Ma Mb,
    binds be (2 ^ m) Va Vb (fun i => folds R V (2 * i + 1)%nat - folds R V (2 * i)%nat)%F (fun i => folds R V (2 * i)%nat) /\
    binds be (2 ^ m) Aa Ab (fun i => folds R A (2 * i + 1)%nat - folds R A (2 * i)%nat)%F (fun i => folds R A (2 * i)%nat) /\
    binds be (2 ^ m) Ma Mb (fun i => folds R M (2 * i + 1)%nat - folds R M (2 * i)%nat)%F (fun i => folds R M (2 * i)%nat) /\
    ltab N (p_Vmult p) (2 * 2 ^ m) Va Vb /\ ltab N (p_addV p) (2 * 2 ^ m) Aa Ab /\
    ltab N (p_addmult p) (2 * 2 ^ m) Ma Mb).
  {
    assert (ER : R = [] \/ exists R' a, R = R' ++ [a]).
    { destruct R as [|x R0]; [left; reflexivity|right].
      destruct (@exists_last _ (x :: R0)) as (R' & a & ES); [discriminate|]. exists R', a. exact ES. }
    destruct ER as [->|(R' & a & ->)].
    - cbn [length] in *. destruct BV as [fV TV]. destruct BM as [fM TM]. destruct BA as [fA TA].
      replace n with (S m) in TV, TM, TA by lia. rewrite pow2_S in TV, TM, TA.
      exists fV, V, fA, A, fM, M. subst be. cbn [Nat.eqb folds].
      split; [apply bind_first_ok|]. split; [apply bind_first_ok|]. split; [apply bind_first_ok|].
      split; [exact TV|]. split; [exact TA|exact TM].
    - apply bound_snoc in BV. apply bound_snoc in BM. apply bound_snoc in BA. cbv zeta in BV, BM, BA.
      rewrite last_last in Hprev. rewrite app_length in HR. cbn [length] in HR.
      assert (Em : n - S (length R') = S m) by (subst m; rewrite app_length; cbn [length]; lia).
      rewrite Em, pow2_S in BV, BM, BA. subst be. rewrite app_length. cbn [length].
      destruct (Nat.eqb_spec (length R' + 1) 0); [lia|]. rewrite !folds_snoc.
      do 6 eexists. split; [apply next_ok, Hprev|]. split; [apply next_ok, Hprev|]. split; [apply next_ok, Hprev|].
      split; [exact BV|]. split; [exact BA|exact BM]. }
  destruct K as (Va & Vb & Aa & Ab & Ma & Mb & KV & KA & KM & TV & TA & TM).
  eapply returns_bind; [apply (update_loop_ok be (2 ^ m) Va Vb Aa Ab Ma Mb _ _ _ KV KA KM N _ _ _ TV TA TM)|].
  intros [[[lV lA] lM] ret] (TV' & TA' & TM' & Ra & Rb & Rc). apply returns_ok.
  split; [|split].
  - intro a. unfold tabs_bound. cbn [set_arrays p_Vmult p_addmult p_addV p_total_uv].
    rewrite !bound_snoc. cbv zeta. fold m.
    split; [exact TV'|]. split; [exact TM'|]. split; [exact TA'|].
    rewrite app_length. cbn [length]. f_equal. lia.
  - exists lV, lA, lM. reflexivity.
  - eexists. split; [|intro t; symmetry; apply round_coefs].
    do 3 eexists. split; [reflexivity|]. cbn [q_a q_b q_c].
    split; [apply renormalise_ok, Ra|]. split; apply renormalise_ok; assumption.
Qed.
End Update.

Lemma next1_ok : forall T m r a, rep r a ->
  binds (bind_next1 r) m (fun i => T (2 * i + 1)%nat - T (2 * i)%nat)%F (fun i => T (2 * i)%nat)
    (fun i => fold1 a T (2 * i + 1)%nat - fold1 a T (2 * i)%nat)%F (fun i => fold1 a T (2 * i)%nat).
Proof. intros. apply bind_next1_ok. assumption. Qed.
Lemma next2_ok : forall T m r a, rep r a ->
  binds (bind_next2 r) m (fun i => T (2 * i + 1)%nat - T (2 * i)%nat)%F (fun i => T (2 * i)%nat)
    (fun i => fold1 a T (2 * i + 1)%nat - fold1 a T (2 * i)%nat)%F (fun i => fold1 a T (2 * i)%nat).
Proof. intros. apply bind_next2_ok. assumption. Qed.

(** After all rounds, evaluating entry 0 of a table gives its extension. *)
Lemma bound_final : forall N n l T R prev, length R = n -> bound N n l T R -> rep prev (last R 0%F) ->
  exists x, nth_error l 0 = Some x /\ rep (linear_eval x prev) (mle R T).
Proof.
  intros N n l T R prev HR B Hp. rewrite mle_folds. destruct R as [|y R0] eqn:ER.
  - destruct B as [fa (_ & _ & H)]. destruct (H 0) as (x & E & Ra & Rb); [apply pow2_pos|].
    exists x. split; [exact E|]. cbn [last folds] in *. unfold linear_eval. lzr.
  - destruct (@exists_last _ (y :: R0)) as (R' & a & ES); [discriminate|]. rewrite ES in *. clear ES.
    apply bound_snoc in B. cbv zeta in B. destruct B as (_ & _ & H).
    destruct (H 0) as (x & E & Ra & Rb); [apply pow2_pos|]. rewrite last_last in Hp.
    exists x. split; [exact E|]. rewrite folds_snoc. unfold fold1, linear_eval.
    simpl (2 * 0 + 1) in *. simpl (2 * 0) in *. lzr.
Qed.
