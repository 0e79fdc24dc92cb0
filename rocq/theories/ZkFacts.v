(** * Facts about masks, predicates and challenges of the zk protocol *)
From Coq Require Import ZArith Znumtheory List Bool Arith Lia Ring.
From Verif Require Import Limbs Field Fp Prime Base ArithProofs MleSpec GkrMath Poly PolyProofs Circuit SpecGkr
  FastProver FastVerifier Lazy TablesProofs FastProverProofs PhaseProofs FastVerifierProofs SpecVpd
  Transcript TranscriptProofs LoaderProofs ZkProver ZkVerifier ZkPhaseProofs ZkMaskProofs ZkRoundProofs ZkPredProofs ZkOpenProofs ZkVerifierProofs SpecZk.
Import ListNotations.
Open Scope nat_scope.

Lemma nth_error_ext : forall A (l l' : list A), (forall n, nth_error l n = nth_error l' n) -> l = l'.
Proof.
  induction l as [|x l IH]; intros [|y l'] H; [reflexivity|discriminate (H 0)|discriminate (H 0)|].
  pose proof (H 0) as E. injection E as ->. f_equal. apply IH. intro n. exact (H (S n)).
Qed.

(** ** Inverses *)
Lemma F_inverse : forall a : F, a <> 0%F -> exists b, (a * b = 1)%F.
Proof.
  intros a Ha. pose proof (fz_range a) as Hr.
  assert (N : fz a <> 0%Z) by (intro E; apply Ha; apply F_eq; rewrite E; reflexivity).
  destruct (rel_prime_bezout _ _ (rel_prime_sym _ _ (prime_rel_prime P prime_P (fz a) ltac:(intro D; apply Z.divide_pos_le in D; lia)))) as [u v E].
  exists (ofZ u). rewrite <- (ofZ_fz a), <- ofZ_mul. replace (fz a * u)%Z with (1 + - v * P)%Z by lia.
  apply ofZ_eq. rewrite Z.mod_add by lia. reflexivity.
Qed.

(** ** Masks *)
Lemma zp_vanishing : forall R, zp R = vanishing R.
Proof.
  unfold vanishing. induction R as [|r R IH]; [reflexivity|].
  cbn [zp length]. rewrite prodn_shift. cbn [nth]. rewrite IH. ring.
Qed.
Lemma zp_bitvec : forall n x, 0 < n -> zp (bitvec n x) = 0%F.
Proof. intros [|n] x H; [lia|]. cbn [bitvec zp]. destruct (Nat.odd x); cbn [ind]; ring. Qed.
Lemma masked_on_cube : forall n V mk x, 0 < n -> x < 2 ^ n -> masked_value V mk (bitvec n x) = V x.
Proof. intros n V mk x Hn Hx. unfold masked_value. rewrite <- zp_vanishing, zp_bitvec, mle_bitvec by assumption. ring. Qed.

(** Changing the constant and the linear coefficient. *)
Definition mask_shift (e0 e1 : F) (mk : list F) : list F :=
  match mk with c0 :: c1 :: r => (c0 + e0)%F :: (c1 + e1)%F :: r | _ => mk end.
Lemma mask_shift_length : forall e0 e1 mk, length (mask_shift e0 e1 mk) = length mk.
Proof. intros e0 e1 [|c0 [|c1 r]]; reflexivity. Qed.
Lemma mask_shift_back : forall e0 e1 mk, mask_shift (- e0) (- e1) (mask_shift e0 e1 mk) = mk.
Proof. intros e0 e1 [|c0 [|c1 r]]; [reflexivity..|]. cbn [mask_shift]. f_equal; [ring|]. f_equal. ring. Qed.
Lemma masked_shift : forall V e0 e1 mk R, 2 <= length mk ->
  masked_value V (mask_shift e0 e1 mk) R = (masked_value V mk R + vanishing R * ((1 + 1) * (e0 + e1 * last R 0)))%F.
Proof.
  intros V e0 e1 [|c0 [|c1 r]] R H; cbn [length] in H; try lia.
  unfold masked_value, mask_sum, poly_R. cbn [mask_shift nth]. ring.
Qed.
Lemma shift_same_size : forall (A B : list F -> Prop) e0 e1,
  (forall mk, length mk = 6 -> (A mk <-> B (mask_shift e0 e1 mk))) -> same_size 6 A B.
Proof.
  intros A B e0 e1 H. exists (mask_shift e0 e1), (mask_shift (- e0) (- e1)). split.
  - intros x Lx Hx. rewrite mask_shift_length. split; [exact Lx|]. split; [apply H; assumption|]. apply mask_shift_back.
  - intros y Ly Hy. rewrite mask_shift_length. split; [exact Ly|].
    assert (E : mask_shift e0 e1 (mask_shift (- e0) (- e1) y) = y).
    { pose proof (mask_shift_back (- e0) (- e1) y) as E. replace (- - e0)%F with e0 in E by ring. replace (- - e1)%F with e1 in E by ring. exact E. }
    split; [|exact E]. apply H; [rewrite mask_shift_length; exact Ly|]. rewrite E. exact Hy.
Qed.
Lemma scale_exists : forall z d : F, z <> 0%F -> exists e, (z * ((1 + 1) * e) = d)%F.
Proof.
  intros z d Hz. destruct (F_inverse z Hz) as (b & Hb). exists (half * (b * d))%F.
  transitivity ((z * b) * ((1 + 1) * half) * d)%F; [ring|]. rewrite Hb, two_half. ring.
Qed.
Lemma eq_shift : forall a b c d e : F, (d = b - a)%F -> (e = c + d)%F -> (c = a <-> e = b).
Proof.
  intros a b c d e -> ->. split; intro H; [rewrite H; ring|].
  transitivity (c + (b - a) + (a - b))%F; [ring|]. rewrite H. ring.
Qed.

Lemma one_point_same_size : forall V R s t, vanishing R <> 0%F ->
  same_size 6 (fun mk => masked_value V mk R = s) (fun mk => masked_value V mk R = t).
Proof.
  intros V R s t Hz. destruct (scale_exists (vanishing R) (t - s)%F Hz) as (e & He).
  apply (shift_same_size _ _ e 0%F). intros mk L.
  eapply eq_shift; [exact He|]. rewrite masked_shift by lia. f_equal. ring.
Qed.
Lemma two_points_same_size : forall V R R' s s' t t', vanishing R <> 0%F -> vanishing R' <> 0%F -> last R 0%F <> last R' 0%F ->
  same_size 6 (fun mk => masked_value V mk R = s /\ masked_value V mk R' = s')
              (fun mk => masked_value V mk R = t /\ masked_value V mk R' = t').
Proof.
  intros V R R' s s' t t' Hz Hz' Hx.
  destruct (scale_exists (vanishing R) (t - s)%F Hz) as (e & He).
  destruct (scale_exists (vanishing R') (t' - s')%F Hz') as (e' & He').
  set (x := last R 0%F) in *. set (x' := last R' 0%F) in *.
  destruct (F_inverse (x - x')%F) as (w & Hw). { intro E. apply Hx. transitivity ((x - x') + x')%F; [ring|]. rewrite E. ring. }
  set (e1 := ((e - e') * w)%F). set (e0 := (e - e1 * x)%F).
  assert (E : (e0 + e1 * x = e)%F) by (unfold e0; ring).
  assert (E' : (e0 + e1 * x' = e')%F).
  { unfold e0, e1. transitivity (e - (e - e') * ((x - x') * w))%F; [ring|]. rewrite Hw. ring. }
  apply (shift_same_size _ _ e0 e1). intros mk L. rewrite !masked_shift by lia. fold x x'. rewrite E, E'.
  pose proof (eq_shift s t (masked_value V mk R) _ _ He eq_refl) as H1.
  pose proof (eq_shift s' t' (masked_value V mk R') _ _ He' eq_refl) as H2. tauto.
Qed.
(** With the same last coordinate the two values together reveal a combination of
    the true values, whatever the mask. *)
Lemma same_last_leak : forall V mk R R', last R 0%F = last R' 0%F ->
  (vanishing R' * masked_value V mk R - vanishing R * masked_value V mk R' = vanishing R' * mle R V - vanishing R * mle R' V)%F.
Proof. intros V mk R R' E. unfold masked_value. rewrite E. ring. Qed.

(** ** Predicates *)
Lemma zpred_two : forall L ty a be R0 R1 Ru Rv, In ty two_input_types ->
  pred (2 ^ bit_length L) (gate_at L) (gw a be R0 R1) ty (eqw Ru) (eqw Rv) = zwiring L ty (out_weight a be R0 R1) Ru Rv.
Proof.
  intros L ty a be R0 R1 Ru Rv Ht. unfold pred, zwiring. apply sumn_ext. intros i Hi. cbv zeta.
  destruct (Z.eqb_spec (g_ty (gate_at L i)) ty) as [E|E]; cbn [ind]; [|ring].
  assert (K : wires (gate_at L i) = [(1%F, Z.to_nat (g_u (gate_at L i)), Z.to_nat (g_v (gate_at L i)))]).
  { unfold wires. rewrite E. unfold two_input_types in Ht. cbn [In] in Ht. decompose [or] Ht; try contradiction;
      match goal with H : _ = ty |- _ => rewrite <- H end; reflexivity. }
  rewrite K, lsum_cons, lsum_nil. unfold w_c, w_l, w_r. cbn [fst snd]. unfold gw, out_weight. ring.
Qed.
Lemma zpred_range : forall L a be R0 R1 Ru Rv,
  pred (2 ^ bit_length L) (gate_at L) (gw a be R0 R1) 5 (eqw Ru) (eqw Rv) = zwiring_range L (out_weight a be R0 R1) Ru Rv.
Proof.
  intros L a be R0 R1 Ru Rv. unfold pred, zwiring_range. apply sumn_ext. intros i Hi. cbv zeta.
  destruct (Z.eqb_spec (g_ty (gate_at L i)) 5) as [E|E]; cbn [ind]; [|ring].
  unfold wires. rewrite E, lsum_map, lsum_seq. f_equal. f_equal. apply sumn_ext. intros k _.
  unfold w_c, w_l, w_r. cbn [fst snd]. ring.
Qed.
Lemma zpred_exp : forall L a be R0 R1 Ru Rv,
  pred (2 ^ bit_length L) (gate_at L) (gw a be R0 R1) 12 (eqw Ru) (eqw Rv) = zwiring_exp L (out_weight a be R0 R1) Ru Rv.
Proof.
  intros L a be R0 R1 Ru Rv. unfold pred, zwiring_exp. apply sumn_ext. intros i Hi. cbv zeta.
  destruct (Z.eqb_spec (g_ty (gate_at L i)) 12) as [E|E]; cbn [ind]; [|ring].
  unfold wires. rewrite E, lsum_map, lsum_seq. f_equal. f_equal. apply sumn_ext. intros k _.
  unfold w_c, w_l, w_r, two. cbn [fst snd]. rewrite Nat.add_0_l. ring.
Qed.

(** [beta_init] followed by [predicates]. *)
Lemma zpredicates_ok : forall m depth L Lm alpha beta r0 r1 ru rv o0 o1 ou ov BB a be R0 R1 Ru Rv, depth <> 1 ->
  reps r0 R0 -> reps r1 R1 -> reps ru Ru -> reps rv Rv ->
  reps o0 (comp R0) -> reps o1 (comp R1) -> reps ou (comp Ru) -> reps ov (comp Rv) ->
  length R0 = bit_length L -> length R1 = bit_length L -> length Ru = bit_length Lm -> length Rv = bit_length Lm ->
  bit_length L <= m -> bit_length Lm <= m -> bsizes m BB -> rep alpha a -> rep beta be ->
  zpar_ok L Lm -> 2 ^ bit_length L <= length (gates L) ->
  (forall k, k < 2 ^ bit_length L -> zproto_gate (2 ^ bit_length Lm) (gate_at L k)) ->
  returns (BB' <- zbeta_init depth L Lm alpha beta r0 r1 ru rv o0 o1 ou ov BB ;; predicates depth L Lm BB' r0 r1 ru rv)
    (fun ret => tab 14 ret 14 (fun j => pred (2 ^ bit_length L) (gate_at L) (gw a be R0 R1) (Z.of_nat j) (eqw Ru) (eqw Rv))).
Proof.
  intros m depth L Lm alpha beta r0 r1 ru rv o0 o1 ou ov BB a be R0 R1 Ru Rv Hd H0 H1 Hu Hv K0 K1 Ku Kv L0 L1 Lu Lv M1 M2 HB Ra Rb HP HG HW.
  eapply returns_bind.
  - apply (zbeta_init_ok m depth L Lm alpha beta r0 r1 ru rv o0 o1 ou ov BB a be R0 R1 Ru Rv (comp R0) (comp R1) (comp Ru) (comp Rv));
      try assumption; try (unfold comp; rewrite map_length; assumption). intro E. contradiction.
  - intros BB' [_ T]. apply (predicates_ok m depth L Lm BB' r0 r1 ru rv a be R0 R1 Ru Rv); try assumption.
    intros k Hk. destruct (nth_error (gates L) k) as [g|] eqn:E; [exists g; reflexivity|]. apply nth_error_None in E. lia.
Qed.

(** ** The sum of the mask polynomial *)
Lemma mask_sum_ok : forall fr zr z n rho r, stream_ok fr zr -> 1 <= n -> (Z.of_nat (2 * n + 1) < 2 ^ 31)%Z -> rep rho r ->
  returns (' (d, da, z1) <- generate_maskpoly_pre_rho fr zr z (n * 2 + 1) 2 ;;
           generate_maskpoly_after_rho (set_rho z1 rho) (n * 2 + 1) 2) (fun z' =>
    exists c, length c = 4 * n + 9 /\ m_gmp (z_m z') = map fz c /\
      rep (m_sumc (z_m z')) (hyper (2 * n + 1) (fun X => r * mask_poly (2 * n + 1) (fun i => nth i c 0) (fun i => nth i X 0)))%F).
Proof.
  intros fr zr z n rho r Hst Hn H31 Rr.
  eapply returns_bind; [apply (pre_rho_ok fr zr Hst z n Hn H31)|].
  intros [[d da] z1] (_ & _ & _ & _ & _ & _ & _ & c & _ & Lc & Hc & Eg & _).
  eapply returns_conseq.
  - apply (after_rho_ok n (fun i => nth i c 0%F) (set_rho z1 rho) r Hn).
    + cbn [set_rho set_m z_m m_poly]. pose proof (reps_tab _ _ Hc) as T. rewrite (reps_length _ _ Hc), Lc in T. exact T.
    + exact Rr.
  - intros z' (poly & s & E & M). exists c. split; [exact Lc|]. rewrite E. cbn [set_m z_m m_gmp]. split; [exact Eg|].
    eapply rep_eq; [apply (ms_sumc _ _ _ _ _ M)|]. rewrite <- hyper_mask by exact Hn. apply hyper_ext. intros X _.
    apply mask_poly_scal.
Qed.

(** ** Where the challenges of a layer come from *)
Lemma bind_inv' : forall A B (m : outcome A) (k : A -> outcome B) b, (x <- m ;; k x) = Ok b -> exists a, m = Ok a /\ k a = Ok b.
Proof. intros A B [a| | | | | |] k b H; cbn in H; try discriminate. exists a. split; [reflexivity|exact H]. Qed.
Lemma for_proj : forall S T (f : S -> T) n start body body' (s s' : S),
  (forall i x y, body i x = Ok y -> body' i (f x) = Ok (f y)) -> for_ n start body s = Ok s' -> for_ n start body' (f s) = Ok (f s').
Proof.
  intros S T f n. induction n as [|n IH]; intros start body body' s s' H E.
  - cbn in E |- *. injection E as <-. reflexivity.
  - rewrite for_S in E |- *. apply bind_inv' in E. destruct E as (y & E1 & E2).
    rewrite (H _ _ _ E1), bind_ok. apply (IH _ _ _ _ _ H E2).
Qed.
Ltac binv H := apply bind_inv' in H; let x := fresh "x" in let E := fresh "E" in destruct H as (x & E & H); cbv beta iota in H.
(** The point that phase 2 uses: unchanged, or overwritten with zeros in layer 1. *)
Definition zeroed (zero : bool) (n : nat) (r : list fe) : outcome (list fe) :=
  for_ n 0 (fun j r => if zero then wr r j (fe_of_int 0) else Ok r) r.
Lemma phase2_point : forall S (I : zprover_if S) n zero relay r sum t s prev sum' r' t' s',
  zphase2_rounds I n zero relay r sum t s = Ok (prev, sum', r', t', s') -> zeroed zero n r = Ok r'.
Proof.
  intros S I n zero relay r sum t s prev sum' r' t' s' H. unfold zphase2_rounds in H. unfold zeroed.
  set (f := fun st : fe * fe * list fe * list msg * S => let '(_, _, r, _, _) := st in r).
  change r with (f (fe_of_int 0, sum, r, t, s)). change r' with (f (prev, sum', r', t', s')).
  eapply for_proj; [|exact H]. clear H.
  intros j [[[[p1 q1] r1] t1] s1] [[[[p2 q2] r2] t2] s2] H. cbv beta iota in H. cbn [f].
  binv H. rename x into rx. rewrite E. destruct (j + 1 =? n).
  - binv H. destruct x as [poly sx]. binv H. binv H. injection H as _ _ -> _ _. reflexivity.
  - binv H. destruct x as [poly sx]. binv H. binv H. injection H as _ _ -> _ _. reflexivity.
Qed.

(** The commitments that layer [i] puts on the transcript. *)
Definition layer_commits {S} (I : zprover_if S) (C : layered_circuit) (i : nat) (st : zvstate S) : outcome (F * F * F * F) :=
  L <- rd (circuit C) i ;; Lm <- rd (circuit C) (i - 1) ;;
  ' (dR, dRa, s) <- zi_sumcheck_init I (t_p st) i (bit_length L) (bit_length Lm) (bit_length Lm) (t_alpha st) (t_beta st)
         (t_r0 st) (t_r1 st) (t_o0 st) (t_o1 st) ;;
  ' (dM, dMa, s) <- zi_pre_rho I s (bit_length Lm * 2 + 1) 2 ;;
  Ok (dM, dMa, dR, dRa).
(** The points of the layer, computed from the transcript and the commitments. *)
Definition layer_points (enc : F -> list Z) (rng : list msg -> nat -> outcome (list fe * list msg)) (C : layered_circuit) (i : nat)
    (t : list msg) (cs : F * F * F * F) : outcome (list fe * list fe) :=
  Lm <- rd (circuit C) (i - 1) ;;
  let '(dM, dMa, dR, dRa) := cs in
  ' (_, t) <- rng t 1 ;;
  ' (r_u, t) <- rng (t ++ curve_msgs enc [dM; dMa] ++ curve_msgs enc [dR; dRa]) (bit_length Lm) ;;
  ' (r_v, t) <- rng t (bit_length Lm) ;;
  r_v <- zeroed (i =? 1) (bit_length Lm) r_v ;;
  Ok (r_u, r_v).
Lemma layer_points_ok : forall S enc rng (I : zprover_if S) C i st st', zverify_layer enc rng I C i st = Ok st' ->
  exists cs, layer_commits I C i st = Ok cs /\ layer_points enc rng C i (t_tr st) cs = Ok (t_r0 st', t_r1 st').
Proof.
  intros S enc rng I C i st st' H. unfold zverify_layer in H. unfold layer_commits, layer_points.
  apply bind_inv' in H. destruct H as (L & EL & H). rewrite EL, bind_ok.
  apply bind_inv' in H. destruct H as (Lm & ELm & H). rewrite ELm, bind_ok. cbv zeta in H.
  apply bind_inv' in H. destruct H as ([rhos t1] & Et1 & H). cbv beta iota in H.
  apply bind_inv' in H. destruct H as (rho & _ & H).
  apply bind_inv' in H. destruct H as ([[dR dRa] s1] & E1 & H). cbv beta iota in H.
  apply bind_inv' in H. destruct H as ([[dM dMa] s2] & E2 & H). cbv beta iota in H.
  exists (dM, dMa, dR, dRa). rewrite E1, bind_ok. cbv beta iota. rewrite E2, bind_ok. cbv beta iota. split; [reflexivity|].
  rewrite bind_ok. cbv beta iota. rewrite Et1, bind_ok. cbv beta iota.
  apply bind_inv' in H. destruct H as (s3 & _ & H).
  apply bind_inv' in H. destruct H as (s4 & _ & H).
  apply bind_inv' in H. destruct H as ([ru t2] & Eu & H). cbv beta iota in H. rewrite Eu, bind_ok. cbv beta iota.
  apply bind_inv' in H. destruct H as ([rv t3] & Ev & H). cbv beta iota in H. rewrite Ev, bind_ok. cbv beta iota.
  apply bind_inv' in H. destruct H as (? & _ & H).
  apply bind_inv' in H. destruct H as (? & _ & H).
  apply bind_inv' in H. destruct H as ([? ?] & _ & H). cbv beta iota in H.
  apply bind_inv' in H. destruct H as (? & _ & H).
  apply bind_inv' in H. destruct H as (? & _ & H).
  apply bind_inv' in H. destruct H as (? & _ & H).
  apply bind_inv' in H. destruct H as ([[[? ?] ?] ?] & _ & H). cbv beta iota in H.
  apply bind_inv' in H. destruct H as (? & _ & H).
  apply bind_inv' in H. destruct H as ([[[[prev sum] rv'] t4] s5] & Ep2 & H). cbv beta iota in H.
  apply phase2_point in Ep2. rewrite Ep2, bind_ok.
  apply bind_inv' in H. destruct H as ([[? ?] ?] & _ & H). cbv beta iota in H.
  apply bind_inv' in H. destruct H as (? & _ & H).
  apply bind_inv' in H. destruct H as (? & _ & H).
  apply bind_inv' in H. destruct H as (? & _ & H).
  apply bind_inv' in H. destruct H as ([? ?] & _ & H). cbv beta iota in H.
  apply bind_inv' in H. destruct H as (? & _ & H).
  apply bind_inv' in H. destruct H as ([[[[? ?] ?] ?] ?] & _ & H). cbv beta iota in H.
  apply bind_inv' in H. destruct H as (? & _ & H).
  apply bind_inv' in H. destruct H as ([[[? ?] ?] ?] & _ & H). cbv beta iota in H.
  apply bind_inv' in H. destruct H as (? & _ & H).
  apply bind_inv' in H. destruct H as (? & _ & H).
  apply bind_inv' in H. destruct H as (? & _ & H).
  apply bind_inv' in H. destruct H as ([? ?] & _ & H). cbv beta iota in H.
  apply bind_inv' in H. destruct H as ([? ?] & _ & H). cbv beta iota in H.
  apply bind_inv' in H. destruct H as (? & _ & H).
  apply bind_inv' in H. destruct H as (? & _ & H).
  injection H as <-. reflexivity.
Qed.
