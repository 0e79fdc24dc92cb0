(** * The group elements a run of the honest zk prover shows

    Closed forms of the keys, commitments and witnesses in terms of the exponents the
    prover draws: [zf k] is the [k]-th of them. *)
From Coq Require Import ZArith List Bool Arith Lia Ring.
From Verif Require Import Limbs Field FieldProofs Fp Base MleSpec GkrMath Poly Circuit SpecGkr Lazy FastProver FastProverProofs FastVerifierProofs SpecVpd SpecZk
  VpdGroup VpdR VpdMask VpdInput VpdGroupProofs VpdRProofs VpdMaskProofs VpdInputProofs LoaderProofs PropsVpd
  PhaseProofs ZkPhaseProofs ZkRoundProofs ZkEvalProofs ZkProver ZkVerifier ZkOpenProofs ZkVerifierProofs ZkComplete ZkView.
Import ListNotations.
Open Scope nat_scope.

Lemma returns_and : forall A (m : outcome A) (Q Q' : A -> Prop), returns m Q -> (forall x, m = Ok x -> Q' x) -> returns m (fun x => Q x /\ Q' x).
Proof. intros A m Q Q' (x & E & H) H'. exists x. split; [exact E|]. split; [exact H|apply H', E]. Qed.
Lemma returns_and3 : forall A B D (m : outcome (A * B * D)) Q (Q' : A -> B -> D -> Prop), returns m Q -> (forall a b c, m = Ok (a, b, c) -> Q' a b c) ->
  returns m (fun x => Q x /\ let '(a, b, c) := x in Q' a b c).
Proof. intros A B D m Q Q' H H'. apply returns_and; [exact H|]. intros [[a b] c] E. apply H', E. Qed.
Lemma returns_and4 : forall A B D E (m : outcome (A * B * D * E)) Q (Q' : A -> B -> D -> E -> Prop), returns m Q -> (forall a b c d, m = Ok (a, b, c, d) -> Q' a b c d) ->
  returns m (fun x => Q x /\ let '(a, b, c, d) := x in Q' a b c d).
Proof. intros A B D E m Q Q' H H'. apply returns_and; [exact H|]. intros [[[a b] c] d] E'. apply H', E'. Qed.
Lemma returns_and5 : forall A B D E G (m : outcome (A * B * D * E * G)) Q (Q' : A -> B -> D -> E -> G -> Prop), returns m Q ->
  (forall a b c d e, m = Ok (a, b, c, d, e) -> Q' a b c d e) ->
  returns m (fun x => Q x /\ let '(a, b, c, d, e) := x in Q' a b c d e).
Proof. intros A B D E G m Q Q' H H'. apply returns_and; [exact H|]. intros [[[[a b] c] d] e] E'. apply H', E'. Qed.
Lemma returns_at : forall A (m : outcome A) Q x, returns m Q -> m = Ok x -> Q x.
Proof. intros A m Q x (y & E & H) E'. rewrite E in E'. injection E' as <-. exact H. Qed.
Lemma arr_list : forall A (l : list A) n f, length l = n -> arr l n f -> l = map f (seq 0 n).
Proof.
  intros A l n f L [_ H]. revert n f L H. induction l as [|a l IH]; intros n f <- H; [reflexivity|].
  cbn [length seq map]. pose proof (H 0 ltac:(cbn [length]; lia)) as E. cbn [nth_error] in E. injection E as ->. f_equal.
  rewrite <- seq_shift, map_map. apply IH; [reflexivity|]. intros i Hi. apply (H (S i)). cbn [length]. lia.
Qed.

Lemma Ok3 : forall A B D (a a' : A) (b b' : B) (c c' : D), Ok (a, b, c) = Ok (a', b', c') -> a = a' /\ b = b' /\ c = c'.
Proof. intros A B D a a' b b' c c' H. injection H as -> -> ->. auto. Qed.
Lemma Ok4 : forall A B D E (a a' : A) (b b' : B) (c c' : D) (d d' : E), Ok (a, b, c, d) = Ok (a', b', c', d') -> a = a' /\ b = b' /\ c = c' /\ d = d'.
Proof. intros A B D E a a' b b' c c' d d' H. injection H as -> -> -> ->. auto. Qed.
Lemma Ok5 : forall A B D E G (a a' : A) (b b' : B) (c c' : D) (d d' : E) (e e' : G), Ok (a, b, c, d, e) = Ok (a', b', c', d', e') ->
  a = a' /\ b = b' /\ c = c' /\ d = d' /\ e = e'.
Proof. intros A B D E G a a' b b' c c' d d' e e' H. injection H as -> -> -> -> ->. auto. Qed.

(** ** Closed forms *)
Definition wits (a : F) (w : list F) : list F := w ++ map (fun x => x * a)%F w.
Section Forms.
Variable zf : nat -> F.
(** vpdR with its key from exponent [q] on. *)
Definition comR (q : nat) (mk : list F) : F :=
  let m := fun j => nth j mk 0%F in
  (valR (m 0%nat) (m 1%nat) (m 2) (m 3) (m 4) (m 5) (zf (q + 1)) (zf (q + 2)) + zf (q + 4) * zf (q + 3))%F.
Definition maskR_group (q : nat) (mk : list F) : list F :=
  [comR q mk; comR q mk * zf q]%F ++ keyR_pub (keyR_of (zf q) (zf (q + 1)) (zf (q + 2)) (zf (q + 3))).
Definition openR_group (q qt : nat) (mk : list F) (r0 r1 : F) : list F :=
  let m := fun j => nth j mk 0%F in
  wits (zf q) (witR (m 1%nat) (m 2) (m 3) (m 4) (m 5) (zf (q + 4)) (zf qt) (zf (qt + 1)) r0 r1 (zf (q + 1)) (zf (q + 2)) (zf (q + 3))).
(** vpd_test with [n] variables. *)
Definition skey (q : nat) : nat -> F := fun i => zf (q + 1 + i).
Definition exps (q n : nat) : list Z := map (fun i => fz (zf (q + i))) (seq 0 n).
Definition coefM (n : nat) (c0 : list F) (rf : F) (i : nat) : F := if i =? 2 * n + 7 then rf else nth i c0 0%F.
Definition comM (n q : nat) (c0 : list F) : F :=
  (valM n (fun i => nth i c0 0) (skey q) + zf (q + n + 2) * zf (q + 1 + n))%F.
Definition maskM_group (n q : nat) (c0 : list F) : list F :=
  [comM n q c0; comM n q c0 * zf q]%F ++ match M_keygen n (fz (zf q)) (exps (q + 1) (n + 1)) with Ok K => keyM_pub K | _ => [] end.
Definition openM_group (n q qt : nat) (c0 r : list F) : list F :=
  wits (zf q) (map (witM n (skey q) (coefM n c0 (zf (q + n + 2))) (fun i => nth i r 0%F) (fun i => zf (qt + i))) (seq 0 (n + 1))).
(** inputvpd with [n] variables. *)
Definition comI (n q : nat) (V : nat -> F) : F := (polyI n (coefT n V) (skey q) + zf (q + 1 + n) * zf (q + n + 2))%F.
Definition comI2 (n q : nat) (x0 x1 : F) : F := (x0 + zf (q + 1 + (n - 1)) * x1 + zf (q + 1 + n) * zf (q + n + 2 + 1))%F.
Definition commit_group (n q : nat) (V : nat -> F) (x0 x1 : F) : list F :=
  [comI n q V; comI n q V * zf q; comI2 n q x0 x1; comI2 n q x0 x1 * zf q]%F ++
  match I_keygen n (fz (zf q)) (exps (q + 1) (n + 1)) with Ok K => keyI_pub K | _ => [] end.
Definition openI_group (n q qt : nat) (V : nat -> F) (x0 x1 zu : F) (r : list F) : list F :=
  wits (zf q) (map (witI n (skey q) (fun i => nth i r 0%F) (fun i => zf (qt + i)) (coefT n V) x0 x1 (zf (q + n + 2)) (zf (q + n + 2 + 1)) zu) (seq 0 (n + 1))).
End Forms.

(** ** The calls *)
Section Calls.
Variables (fr : nat -> u512) (zr : nat -> Z).
Hypothesis Hst : stream_ok fr zr.
Let zf := fun k => ofZ (zr k).
Lemma zr_fz : forall k, zr k = fz (zf k).
Proof. intro k. apply PropsVpd.red_fz. apply Hst. Qed.
Lemma drawz_exps : forall q n, drawz zr q n = exps zf q n.
Proof. intros. unfold drawz, exps. apply map_ext. intro i. apply zr_fz. Qed.
Lemma exps_arr : forall q n, arr (exps zf q n) n (fun i => fz (zf (q + i))).
Proof.
  intros q n. split; [unfold exps; rewrite map_length, seq_length; lia|]. intros i Hi. unfold exps.
  rewrite nth_error_map. replace (nth_error (seq 0 n) i) with (Some i); [reflexivity|].
  rewrite (nth_error_nth' _ 0) by (rewrite seq_length; exact Hi). rewrite seq_nth by exact Hi. reflexivity.
Qed.

Lemma maskR_calls : forall z i mk d da z', reps (r_maskR (z_r z)) mk -> length mk = 6 -> generate_maskR fr zr z i = Ok (d, da, z') ->
  let q := z_zpos z in
  z_zpos z' = q + 5 /\ z_kR z' = keyR_of (zf q) (zf (q + 1)) (zf (q + 2)) (zf (q + 3)) /\ r_rf (z_r z') = fz (zf (q + 4)) /\
  [d; da] ++ keyR_pub (z_kR z') = maskR_group zf q mk.
Proof.
  intros z i mk d da z' Rm Lm H q. unfold generate_maskR in H. cbv zeta in H. fold q in H.
  rewrite (zr_fz q), (zr_fz (q + 1)), (zr_fz (q + 2)), (zr_fz (q + 3)), (zr_fz (q + 4)), R_keygen_ok, bind_ok, (gmps_ok _ _ Rm), bind_ok in H.
  unfold maskR_group, comR. do 7 (destruct mk as [|?m mk]; try discriminate Lm). cbn [nth] in *.
  rewrite R_commit_ok, bind_ok in H.
  repeat (apply bind_inv in H; destruct H as (? & _ & H)).
  match type of H with context [let '(_, _) := ?x in _] => destruct x as [[? ?] ?] end.
  apply Ok3 in H. destruct H as (<- & <- & <-). split; [reflexivity|]. split; [reflexivity|]. split; reflexivity.
Qed.

Lemma coefM_arr : forall n c0 rf, length c0 = 2 * n + 7 -> arr (map fz c0 ++ [fz rf]) (2 * n + 8) (fun i => fz (coefM n c0 rf i)).
Proof.
  intros n c0 rf L. split; [rewrite app_length, map_length; cbn [length]; lia|]. intros i Hi. unfold coefM.
  destruct (Nat.eqb_spec i (2 * n + 7)) as [->|N].
  - rewrite nth_error_app2 by (rewrite map_length; lia). rewrite map_length, L, Nat.sub_diag. reflexivity.
  - rewrite nth_error_app1 by (rewrite map_length; lia). rewrite nth_error_map, (nth_error_nth' _ 0%F) by lia. reflexivity.
Qed.
Lemma valM_ext : forall n c c' x, 3 <= n -> (forall i, i < 2 * n + 7 -> c i = c' i) -> valM n c x = valM n c' x.
Proof.
  intros n c c' x Hn H. unfold valM. rewrite (H (2 * n)) by lia. f_equal. apply sumn_ext. intros i Hi. unfold partM, deg5.
  rewrite (H (2 * i)), (H (2 * i + 1)) by lia. rewrite !H by lia. reflexivity.
Qed.
Lemma coefM_in : forall n c0 rf i, i < 2 * n + 7 -> coefM n c0 rf i = nth i c0 0%F.
Proof. intros n c0 rf i Hi. unfold coefM. destruct (Nat.eqb_spec i (2 * n + 7)); [lia|reflexivity]. Qed.
Lemma coefM_last : forall n c0 rf, coefM n c0 rf (2 * n + 7) = rf.
Proof. intros. unfold coefM. rewrite Nat.eqb_refl. reflexivity. Qed.
Lemma maskM_calls : forall z b c0 d da z', 1 <= b -> c0 = drawn fr (z_pos z) (4 * b + 9) ->
  generate_maskpoly_pre_rho fr zr z (b * 2 + 1) 2 = Ok (d, da, z') ->
  let q := z_zpos z in let n := 2 * b + 1 in
  z_zpos z' = q + (n + 3) /\ keyM_ok n (zf q) (skey zf q) (z_kM z') /\ m_rf (z_m z') = fz (zf (q + n + 2)) /\
  [d; da] ++ keyM_pub (z_kM z') = maskM_group zf n q c0.
Proof.
  intros z b c0 d da z' Hb Ec H q n. unfold generate_maskpoly_pre_rho in H. cbv zeta in H. fold q in H.
  replace (b * 2 + 1) with n in H by (unfold n; lia). replace (n * 2 + 1 + 6) with (4 * b + 9) in H by (unfold n; lia).
  rewrite (gmps_ok _ _ (draw_ok fr zr (z_pos z) (4 * b + 9) Hst)), <- Ec in H.
  assert (Lc : length c0 = 2 * n + 7) by (rewrite Ec, drawn_length; unfold n; lia).
  rewrite (zr_fz q), drawz_exps, (zr_fz (q + n + 2)) in H.
  destruct (M_keygen_ok n (zf q) (exps zf (q + 1) (n + 1)) (skey zf q) ltac:(unfold n; lia) (exps_arr (q + 1) (n + 1))) as (K & EK & HK).
  unfold maskM_group. rewrite EK in H |- *. rewrite !bind_ok in H.
  pose proof (M_commit_ok n (zf q) (skey zf q) K (map fz c0) _ (zf (q + n + 2)) ltac:(unfold n; lia) HK (coefM_arr n c0 _ Lc)) as EC.
  cbv zeta in EC. rewrite coefM_last, (valM_ext n _ (fun i => nth i c0 0%F)) in EC by (try (intros; apply coefM_in; assumption); unfold n; lia).
  rewrite EC, bind_ok in H. apply Ok3 in H. destruct H as (<- & <- & <-). cbn [z_zpos z_kM z_m m_rf].
  split; [lia|]. split; [exact HK|]. split; reflexivity.
Qed.

Lemma openR_calls : forall z q mk r0 r1 ans w wa z', reps (r_preR (z_r z)) mk -> length mk = 6 ->
  z_kR z = keyR_of (zf q) (zf (q + 1)) (zf (q + 2)) (zf (q + 3)) -> r_rf (z_r z) = fz (zf (q + 4)) ->
  prove_R zr z [fz r0; fz r1] = Ok (ans, w, wa, z') ->
  z_zpos z' = z_zpos z + 2 /\ w ++ wa = openR_group zf q (z_zpos z) mk r0 r1.
Proof.
  intros z q mk r0 r1 ans w wa z' Rm Lm EK Ef H. unfold prove_R in H. rewrite (gmps_ok _ _ Rm), bind_ok in H. cbv zeta in H.
  rewrite EK, Ef, (zr_fz (z_zpos z)), (zr_fz (z_zpos z + 1)) in H.
  unfold openR_group. do 7 (destruct mk as [|?m mk]; try discriminate Lm). cbn [nth] in *.
  rewrite R_prove_ok, bind_ok in H. apply Ok4 in H. destruct H as (<- & <- & <- & <-). split; reflexivity.
Qed.
Lemma openM_calls : forall z q n c0 R ans w wa z', 3 <= n -> (Z.of_nat n < 2 ^ 200)%Z -> m_gmp (z_m z) = map fz c0 -> length c0 = 2 * n + 7 ->
  keyM_ok n (zf q) (skey zf q) (z_kM z) -> m_rf (z_m z) = fz (zf (q + n + 2)) -> length R = n ->
  prove_mask zr z (map fz R) = Ok (ans, w, wa, z') ->
  z_zpos z' = z_zpos z + n /\ w ++ wa = openM_group zf n q (z_zpos z) c0 R.
Proof.
  intros z q n c0 R ans w wa z' Hn Hb Eg Lc HK Ef LR H. unfold prove_mask in H. cbv zeta in H.
  pose proof HK as (En & _). rewrite En, Eg, Ef, drawz_exps in H.
  assert (Ar : arr (map fz R) n (fun i => fz (nth i R 0%F))).
  { split; [rewrite map_length; lia|]. intros i Hi. rewrite nth_error_map, (nth_error_nth' _ 0%F) by lia. reflexivity. }
  destruct (M_prove_ok n (zf q) (skey zf q) _ (z_kM z) (map fz c0) (map fz R) (exps zf (z_zpos z) n) _ (fun i => zf (z_zpos z + i)) _ Hn HK (coefM_arr n c0 (zf (q + n + 2)) Lc) Ar (exps_arr _ _) Hb)
    as ([[an w0] wa0] & EP & _ & Lw & Aw & Ewa).
  rewrite EP, bind_ok in H. apply Ok4 in H. destruct H as (<- & <- & <- & <-). split; [reflexivity|].
  unfold openM_group, wits. rewrite Ewa. rewrite (arr_list _ _ _ _ Lw Aw). reflexivity.
Qed.

Lemma coefI_arr : forall n (co : list Z) f rf, arr co (2 ^ n + 1) (fun j => fz (if j =? 2 ^ n then rf else f j)) -> arr co (2 ^ n) (fun j => fz (f j)).
Proof.
  intros n co f rf H. eapply arr_ext; [eapply arr_le; [exact H|lia]|]. intros i Hi. cbv beta. destruct (Nat.eqb_spec i (2 ^ n)); [lia|reflexivity].
Qed.
(** What the input commitment leaves for the opening. *)
Definition ikey (n q : nat) (V : nat -> F) (x0 x1 : F) (kI : keyI) (ip : ipart) : Prop :=
  keyI_ok n (zf q) (skey zf q) kI /\ i_rf ip = fz (zf (q + n + 2)) /\ i_rf2 ip = fz (zf (q + n + 2 + 1)) /\
  i_maskr_mpz ip = [fz x0; fz x1] /\ length (i_mpz ip) = 2 ^ n + 1 /\ arr (i_mpz ip) (2 ^ n) (fun j => fz (coefT n V j)).
Lemma commit_calls : forall C z d da d2 d2a z' x0 x1, zcomplete_circuit C -> p_C (z_p z) = C -> [x0; x1] = drawn fr (z_pos z) 2 ->
  let n := bit_length (layer_at C 0) in let q := z_zpos z in
  keygen_and_commit fr zr z n = Ok (d, da, d2, d2a, z') ->
  z_zpos z' = q + (n + 4) /\ ikey n q (vals C 0) x0 x1 (z_kI z') (z_i z') /\
  [d; da; d2; d2a] ++ keyI_pub (z_kI z') = commit_group zf n q (vals C 0) x0 x1.
Proof.
  intros C z d da d2 d2a z' x0 x1 CC EC Ex n q H.
  pose proof (input_list_ok C CC) as IL. cbv zeta in IL. fold n in IL.
  destruct (zc_inbits C CC) as [Hn1 Hn31]. fold n in Hn1, Hn31.
  pose proof (zc_depth C CC) as D. pose proof (zc_pos C CC) as Dp.
  pose proof (zc_gates C CC 0 Dp) as HG. fold n in HG.
  clearbody n. revert H. unfold keygen_and_commit. cbv zeta. rewrite EC. intro H. fold q in H.
  destruct IL as (input & EI & Li & Hi).
  rewrite (zr_fz q), drawz_exps, (zr_fz (q + n + 2)), (zr_fz (q + n + 2 + 1)) in H.
  destruct (I_keygen_ok n (zf q) (exps zf (q + 1) (n + 1)) (skey zf q) ltac:(lia) (exps_arr (q + 1) (n + 1))) as (K & EK & HK).
  unfold commit_group. rewrite EK in H |- *. rewrite !bind_ok in H.
  assert (ER : rd (circuit C) 0 = Ok (layer_at C 0)) by (unfold rd; rewrite (layer_rd C 0) by lia; reflexivity).
  rewrite ER, bind_ok, shl_int_ok in H by exact Hn31. rewrite bind_ok, EI, bind_ok in H.
  rewrite (gmps_ok _ _ (draw_ok fr zr (z_pos z) 2 Hst)), <- Ex, bind_ok in H. cbn [map] in H.
  pose proof (I_commit_ok n (zf q) (skey zf q) K input (vals C 0) x0 x1 (zf (q + n + 2)) (zf (q + n + 2 + 1)) ltac:(lia) HK Li) as EC'.
  cbv zeta in EC'. destruct EC' as ([co [[[e ea] e2] e2a]] & ECm & Lco & Aco & ED).
  { split; [lia|exact Hi]. }
  cbn [fst snd] in Lco, Aco, ED. rewrite ECm, bind_ok in H. apply Ok5 in H. destruct H as (<- & <- & <- & <- & <-). cbn [z_zpos z_kI z_i].
  apply (f_equal Ok) in ED. apply Ok4 in ED. destruct ED as (-> & -> & -> & ->).
  split; [lia|]. split; [|unfold comI, comI2, skey; reflexivity].
  unfold ikey. cbn [i_rf i_rf2 i_maskr_mpz i_mpz]. split; [exact HK|]. split; [reflexivity|]. split; [reflexivity|]. split; [reflexivity|].
  split; [exact Lco|]. eapply coefI_arr; exact Aco.
Qed.
Lemma openI_calls : forall z q n V x0 x1 zu R ans w wa z', 1 <= n < 31 -> ikey n q V x0 x1 (z_kI z) (z_i z) -> length R = n ->
  prove_input zr z (map fz R) (fz zu) = Ok (ans, w, wa, z') ->
  w ++ wa = openI_group zf n q (z_zpos z) V x0 x1 zu R.
Proof.
  intros z q n V x0 x1 zu R ans w wa z' Hn (HK & Ef & Ef2 & Em & Lc & Ac) LR H. unfold prove_input in H. cbv zeta in H.
  pose proof HK as (En & _). rewrite En, Ef, Ef2, Em, drawz_exps in H.
  assert (Ar : arr (map fz R) n (fun i => fz (nth i R 0%F))).
  { split; [rewrite map_length; lia|]. intros i Hi. rewrite nth_error_map, (nth_error_nth' _ 0%F) by lia. reflexivity. }
  destruct (I_prove_ok n (zf q) (skey zf q) (z_kI z) (map fz R) _ Hn HK ltac:(rewrite map_length; exact LR) Ar (exps zf (z_zpos z) n) (fun i => zf (z_zpos z + i)) _ _ x0 x1 (zf (q + n + 2)) (zf (q + n + 2 + 1)) zu (exps_arr _ _) Lc Ac)
    as ([[an w0] wa0] & EP & _ & Lw & Aw & Ewa).
  rewrite EP, bind_ok in H. apply Ok4 in H. destruct H as (<- & <- & <- & <-).
  unfold openI_group, wits. rewrite Ewa. rewrite (arr_list _ _ _ _ Lw Aw). reflexivity.
Qed.
End Calls.

(** ** A layer and a run *)
Definition lstep (b : nat) : nat := 5 + (2 * b + 1 + 3) + 4 + (2 * b + 1).
Definition layer_group (zf : nat -> F) (b q : nat) (mk c0 ru rv : list F) (rc pu pv : F) : list F :=
  let n := 2 * b + 1 in let qt := q + 5 + (n + 3) in
  maskR_group zf q mk ++ maskM_group zf n (q + 5) c0 ++ openR_group zf q qt mk pu rc ++ openR_group zf q (qt + 2) mk pv rc ++
  openM_group zf n (q + 5) (qt + 4) c0 (ru ++ rv ++ [rc]).
(** From layer [i] on; [w] the mask coefficients not yet used, [q] the number of
    challenges and [z] that of exponents drawn. *)
Fixpoint layers_group (C : layered_circuit) (v : list F) (zf : nat -> F) (x0 x1 : F) (i q z : nat) (R0 mk : list F) (zu pu pv : F) (w : list F) : list F :=
  match i with
  | O => openI_group zf (lbits C 0) 0 z (vals C 0) x0 x1 zu R0
  | S j =>
    let b := lbits C j in let e := if i =? 1 then 0 else 6 in
    let ru := ch_u v q b in let rv := ch_v i v q b in let rc := ch_c i v q b in
    let mk' := firstn e w in let c0 := firstn (4 * b + 9) (skipn e w) in
    layer_group zf b z mk c0 ru rv rc pu pv ++
    layers_group C v zf x0 x1 j (q + (2 * b + 4)) (z + lstep b) ru mk' (zp ru) (last ru 0%F) (last rv 0%F) (skipn (e + (4 * b + 9)) w)
  end.
Definition run_group (C : layered_circuit) (v ms : list F) (zf : nat -> F) : list F :=
  let d := total_depth C in let b := lbits C (d - 1) in let n := lbits C 0 in
  let x0 := nth 0 ms 0%F in let x1 := nth 1 ms 0%F in
  commit_group zf n 0 (vals C 0) x0 x1 ++
  layers_group C v zf x0 x1 (d - 1) (b + b) (n + 4) (at_tape v 0 b) (repeat 0%F 6) 0%F 0%F 0%F (skipn 2 ms).
