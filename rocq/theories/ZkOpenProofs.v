(** * The masks the zk prover commits to and the openings it gives *)
From Coq Require Import ZArith List Bool Arith Lia Ring.
From Verif Require Import LoaderProofs.
From Verif Require Import Limbs LimbsProofs Field FieldProofs Fp Base SpecArith ArithProofs MleSpec GkrMath Poly PolyProofs Circuit
  FastProver FastVerifier Lazy TablesProofs FastProverProofs PhaseProofs FastVerifierProofs SpecVpd VpdGroup VpdR VpdMask VpdInput VpdGroupProofs
  VpdRProofs VpdMaskProofs VpdInputProofs PropsVpd
  Transcript ZkProver ZkVerifier ZkPhaseProofs ZkMaskProofs ZkRoundProofs ZkLayerProofs.
Import ListNotations.
Open Scope nat_scope.

(** ** Conversions *)
Lemma gmp_ok : forall x a, rep x a -> gmp x = Ok (fz a).
Proof.
  intros x a [W V]. unfold gmp. rewrite fe_to_gmp_exact; [rewrite V; reflexivity|exact W|].
  rewrite V. pose proof (fz_range a). pose proof P_lt_W256. lia.
Qed.
Lemma gmps_ok : forall l R, reps l R -> gmps l = Ok (map fz R).
Proof.
  intros l R H. induction H as [|x a l R Rx H IH]; [reflexivity|]. cbn [gmps map].
  rewrite (gmp_ok _ _ Rx), IH. reflexivity.
Qed.
Definition dstep (acc c : Z) : Z := (10 * acc + (c - 48))%Z.
Lemma digits_value : forall f z acc, (0 <= z < 2 ^ Z.of_nat f)%Z ->
  fold_left dstep (digits f z acc) 0%Z = fold_left dstep acc z.
Proof.
  induction f as [|f IH]; intros z acc H.
  - change (2 ^ Z.of_nat 0)%Z with 1%Z in H. assert (z = 0)%Z as -> by lia. reflexivity.
  - cbn [digits]. rewrite Nat2Z.inj_succ, Z.pow_succ_r in H by lia.
    pose proof (Z.div_mod z 10 ltac:(lia)) as E. pose proof (Z.mod_pos_bound z 10 ltac:(lia)) as B.
    destruct (Z.eqb_spec (z / 10) 0) as [E0|N].
    + cbn [fold_left]. f_equal. unfold dstep. lia.
    + rewrite IH.
      * cbn [fold_left]. f_equal. unfold dstep. lia.
      * split; [apply Z.div_pos; lia|]. apply Z.div_lt_upper_bound; lia.
Qed.
Lemma digits_digits : forall f z acc, (0 <= z)%Z -> is_digits acc -> is_digits (digits f z acc).
Proof.
  induction f as [|f IH]; intros z acc H A; [exact A|]. cbn [digits].
  assert (D : is_digits ((48 + z mod 10)%Z :: acc)).
  { constructor; [|exact A]. pose proof (Z.mod_pos_bound z 10 ltac:(lia)). lia. }
  destruct (z / 10 =? 0)%Z; [exact D|]. apply IH; [apply Z.div_pos; lia|exact D].
Qed.
Lemma get_str_value : forall z, (0 <= z)%Z -> is_digits (get_str z) /\ dec_value (get_str z) = z.
Proof.
  intros z H. unfold get_str. destruct (Z.ltb_spec z 0); [lia|]. split; [apply digits_digits; [exact H|constructor]|].
  unfold dec_value. change (fun acc c => (10 * acc + (c - 48))%Z) with dstep. rewrite digits_value; [reflexivity|].
  split; [exact H|]. rewrite Nat2Z.inj_succ, Z2Nat.id by apply Z.log2_nonneg.
  destruct (Z.eq_dec z 0) as [->|N]; [reflexivity|]. apply Z.log2_spec. lia.
Qed.
Lemma fe_of_mpz_ok : forall z, red z -> rep (fe_of_mpz z) (ofZ z).
Proof.
  intros z [H1 H2]. destruct (get_str_value z H1) as [D V]. pose proof P_lt_W256.
  destruct (u512_parse_dec _ D) as [W E]; [rewrite V; lia|]. unfold fe_of_mpz. split; [exact W|].
  rewrite E, V, fz_ofZ_small by (split; assumption). reflexivity.
Qed.

(** ** The random streams *)
(** [prime_field::random()] reduces a number below [2^508]; [mpz_urandomm] gives reduced numbers. *)
Definition stream_ok (fr : nat -> u512) (zr : nat -> Z) : Prop :=
  (forall k, wf512 (fr k) /\ (val512 (fr k) < 2 ^ 508)%Z) /\ forall k, red (zr k).
Definition drawn (fr : nat -> u512) (pos n : nat) : list F := map (fun i => ofZ (val512 (fr (pos + i)))) (seq 0 n).
Lemma drawn_length : forall fr pos n, length (drawn fr pos n) = n.
Proof. intros. unfold drawn. rewrite map_length, seq_length. reflexivity. Qed.
Lemma draw_ok : forall fr zr pos n, stream_ok fr zr -> reps (draw fr pos n) (drawn fr pos n).
Proof.
  intros fr zr pos n [H _]. unfold draw, drawn. generalize (seq 0 n). induction l as [|i l IH]; [constructor|].
  constructor; [|exact IH]. destruct (H (pos + i)) as [W B]. apply raw_mod; [split; [exact W|reflexivity]|exact B].
Qed.
Lemma drawz_red : forall fr zr pos n, stream_ok fr zr -> Forall red (drawz zr pos n).
Proof. intros fr zr pos n [_ H]. apply Forall_forall. intros x I. apply in_map_iff in I. destruct I as (i & <- & _). apply H. Qed.
Lemma drawz_length : forall zr pos n, length (drawz zr pos n) = n.
Proof. intros. unfold drawz. rewrite map_length, seq_length. reflexivity. Qed.
Lemma Forall_red_fz : forall R, Forall red (map fz R).
Proof. intro R. apply Forall_forall. intros x I. apply in_map_iff in I. destruct I as (a & <- & _). apply fz_range. Qed.
Lemma ent_fz : forall R i, ent (map fz R) i = nth i R 0%F.
Proof.
  intros R i. unfold ent. destruct (Nat.lt_ge_cases i (length R)) as [H|H].
  - rewrite (nth_indep _ 0%Z (fz 0%F)) by (rewrite map_length; exact H). rewrite map_nth, ofZ_fz. reflexivity.
  - rewrite !nth_overflow by (rewrite ?map_length; exact H). reflexivity.
Qed.

(** ** Commitments that can be opened *)
Definition ropen (K : keyR) (d : F) (input : list Z) (rf : Z) : Prop :=
  forall r0 r1 t0 t1, red r0 -> red r1 -> red t0 -> red t1 -> exists ans w wa,
    R_prove K [r0; r1] input rf t0 t1 = Ok (ans, w, wa) /\ red ans /\
    ofZ ans = poly_R (ent input) (ofZ r0) (ofZ r1) /\ R_verify K [r0; r1] d ans w wa = Ok true /\
    length w = 3 /\ length wa = 3.
Definition mopen (K : keyM) (g : F) (n : nat) (input : list Z) (rf : Z) : Prop :=
  km_n K = n /\ forall r t, length r = n -> Forall red r -> length t = n -> Forall red t -> exists ans w wa,
    M_prove K r input rf t = Ok (ans, w, wa) /\ red ans /\
    ofZ ans = mask_poly n (ent input) (ent r) /\ M_verify K r g ans w wa = Ok true /\
    length w = n + 1 /\ length wa = n + 1.
Definition iopen (K : keyI) (d d2 : F) (n : nat) (V : nat -> F) (x0 x1 : F) (input2 : list Z) (coeffs : list Z) (rf rf2 : Z) : Prop :=
  ki_n K = n /\ forall r Zv t, length r = n -> Forall red r -> red Zv -> length t = n -> Forall red t -> exists ans w wa,
    I_prove K r coeffs input2 rf rf2 Zv t = Ok (ans, w, wa) /\ red ans /\
    ofZ ans = (mle (map ofZ r) V + ofZ Zv * (x0 + x1 * ent r (n - 1)))%F /\
    I_verify K r d d2 Zv ans w wa = Ok true /\ length w = n + 1 /\ length wa = n + 1.

Lemma R_prove_len : forall K r input rf t0 t1 ans w wa, R_prove K r input rf t0 t1 = Ok (ans, w, wa) -> length w = 3 /\ length wa = 3.
Proof.
  intros K r input rf t0 t1 ans w wa H. unfold R_prove in H. cbv zeta in H.
  repeat (apply bind_inv in H; destruct H as (? & _ & H)).
  injection H as _ <- <-. split; reflexivity.
Qed.
Lemma R_commit_open : forall a s0 s1 s2 input rf, red a -> red s0 -> red s1 -> red s2 -> length input = 6 -> Forall red input -> red rf ->
  exists K d da, R_keygen a s0 s1 s2 = Ok K /\ R_commit K input rf = Ok (d, da) /\ R_check_commit K d da = true /\
    ropen K d input rf.
Proof.
  intros a s0 s1 s2 input rf Ha H0 H1 H2 Li Hi Hf.
  destruct (C32_vpdR_complete a s0 s1 s2 input rf a a a a) as (K & d & da & ? & ? & ? & EK & EC & CC & _); try assumption.
  exists K, d, da. split; [exact EK|]. split; [exact EC|]. split; [exact CC|].
  intros r0 r1 t0 t1 Hr0 Hr1 Ht0 Ht1.
  destruct (C32_vpdR_complete a s0 s1 s2 input rf t0 t1 r0 r1) as (K' & d' & da' & ans & w & wa & EK' & EC' & _ & EP & RA & EV & VV); try assumption.
  rewrite EK in EK'. injection EK' as <-. rewrite EC in EC'. injection EC' as <- <-.
  exists ans, w, wa. split; [exact EP|]. split; [exact RA|]. split; [exact EV|]. split; [exact VV|].
  eapply R_prove_len; exact EP.
Qed.
Lemma M_commit_open : forall n a s input rf, 3 <= n -> (Z.of_nat n < 2 ^ 31)%Z -> red a -> length s = n + 1 -> Forall red s ->
  length input = 2 * n + 7 -> Forall red input -> red rf ->
  exists K g ga, M_keygen n a s = Ok K /\ M_commit K input rf = Ok (g, ga) /\ M_check_commit K g ga = true /\
    mopen K g n input rf.
Proof.
  intros n a s input rf Hn Hb Ha Ls Hs Li Hi Hf.
  assert (R0 : red 0) by (split; [lia|]; apply P_pos).
  assert (RR : Forall red (repeat 0%Z n)) by (apply Forall_forall; intros x I; apply repeat_spec in I; subst x; exact R0).
  destruct (C33_mask_complete n a s input rf (repeat 0%Z n) (repeat 0%Z n)) as (K & g & ga & ? & ? & ? & EK & EC & CC & _);
    try assumption; try apply repeat_length.
  exists K, g, ga. split; [exact EK|]. split; [exact EC|]. split; [exact CC|].
  assert (As := red_arr s (n + 1) Hs ltac:(lia)).
  destruct (M_keygen_ok n (ofZ a) s (ent s) Hn As) as (K1 & EK1 & HK).
  rewrite <- red_fz, EK in EK1 by exact Ha. injection EK1 as <-.
  split; [destruct HK as (E & _); exact E|].
  intros r t Lr Hr Lt Ht.
  destruct (C33_mask_complete n a s input rf t r) as (K' & g' & ga' & ans & w & wa & EK' & EC' & _ & EP & RA & EV & VV); try assumption.
  rewrite EK in EK'. injection EK' as <-. rewrite EC in EC'. injection EC' as <- <-.
  exists ans, w, wa. split; [exact EP|]. split; [exact RA|]. split; [exact EV|]. split; [exact VV|].
  assert (Ac : arr (input ++ [fz (ofZ rf)]) (2 * n + 8) (fun i => fz (ent (input ++ [rf]) i))).
  { rewrite <- red_fz by exact Hf. apply red_arr; [apply Forall_app; split; [exact Hi|constructor; [exact Hf|constructor]]|].
    rewrite app_length. simpl. lia. }
  destruct (M_prove_ok n (ofZ a) (ent s) _ K input r t (ent r) (ent t) (ofZ rf) Hn HK Ac
    (red_arr r n Hr ltac:(lia)) (red_arr t n Ht ltac:(lia))) as (((ans' & w') & wa') & EP' & _ & E2 & _ & E4).
  { eapply Z.lt_le_trans; [exact Hb|]. apply Z.pow_le_mono_r; lia. }
  rewrite <- red_fz, EP in EP' by assumption. injection EP' as _ -> ->. rewrite E4, map_length. split; exact E2.
Qed.
Lemma I_commit_open : forall n a s input m0 m1 rf rf2, 1 <= n < 31 -> red a -> length s = n + 1 -> Forall red s ->
  length input = 2 ^ n + 1 -> (forall i, i < 2 ^ n -> red (nth i input 0%Z)) -> red m0 -> red m1 -> red rf -> red rf2 ->
  exists K coeffs d da d2 d2a, I_keygen n a s = Ok K /\ I_commit K input [m0; m1] rf rf2 = Ok (coeffs, (d, da, d2, d2a)) /\
    iopen K d d2 n (ent input) (ofZ m0) (ofZ m1) [m0; m1] coeffs rf rf2.
Proof.
  intros n a s input m0 m1 rf rf2 Hn Ha Ls Hs Li Hi H0 H1 Hf Hf2.
  assert (R0 : red 0) by (split; [lia|]; apply P_pos).
  assert (RR : Forall red (repeat 0%Z n)) by (apply Forall_forall; intros x I; apply repeat_spec in I; subst x; exact R0).
  destruct (C34_input_complete n a s input m0 m1 rf rf2 0%Z (repeat 0%Z n) (repeat 0%Z n))
    as (K & co & d & da & d2 & d2a & ? & ? & ? & EK & EC & _); try assumption; try apply repeat_length.
  exists K, co, d, da, d2, d2a. split; [exact EK|]. split; [exact EC|].
  assert (As := red_arr s (n + 1) Hs ltac:(lia)). assert (Ai := red_firstn_arr input (2 ^ n) ltac:(lia) Hi).
  destruct (I_keygen_ok n (ofZ a) s (ent s) ltac:(lia) As) as (K1 & EK1 & HK).
  rewrite <- red_fz, EK in EK1 by exact Ha. injection EK1 as <-.
  split; [destruct HK as (E & _); exact E|].
  intros r Zv t Lr Hr Hz Lt Ht.
  destruct (C34_input_complete n a s input m0 m1 rf rf2 Zv t r)
    as (K' & co' & d' & da' & d2' & d2a' & ans & w & wa & EK' & EC' & _ & EP & RA & EV & VV); try assumption.
  rewrite EK in EK'. injection EK' as <-. rewrite EC in EC'. injection EC' as <- <- <- <- <-.
  exists ans, w, wa. split; [exact EP|]. split; [exact RA|]. split; [exact EV|]. split; [exact VV|].
  pose proof (I_commit_ok n (ofZ a) (ent s) K input (ent input) (ofZ m0) (ofZ m1) (ofZ rf) (ofZ rf2) Hn HK Li Ai) as EC1.
  cbv zeta in EC1. destruct EC1 as ((input' & ((e & ea) & e2) & e2a) & EC1 & L' & A' & _). cbn [fst snd] in L', A'.
  rewrite <- !red_fz, EC in EC1 by assumption. injection EC1 as <- _ _ _ _.
  assert (Ac : arr co (2 ^ n) (fun j => fz (coefT n (ent input) j))).
  { eapply arr_ext; [eapply arr_le; [exact A'|lia]|]. intros i Hi'. cbv beta.
    destruct (Nat.eqb_spec i (2 ^ n)); [lia|reflexivity]. }
  destruct (I_prove_ok n (ofZ a) (ent s) K r (ent r) Hn HK Lr (red_arr r n Hr ltac:(lia)) t (ent t) (coefT n (ent input)) co (ofZ m0) (ofZ m1)
    (ofZ rf) (ofZ rf2) (ofZ Zv) (red_arr t n Ht ltac:(lia)) L' Ac) as (((ans' & w') & wa') & EP' & _ & E2 & _ & E4).
  rewrite <- !red_fz, EP in EP' by assumption. injection EP' as _ -> ->. rewrite E4, map_length. split; exact E2.
Qed.

(** ** The value mask of a layer *)
(** The sum of the mask over its second variable. *)
Definition RS (mk : list F) (x : F) : F := (poly_R (fun i => nth i mk 0) x 0 + poly_R (fun i => nth i mk 0) x 1)%F.
Section Masks.
Variables (fr : nat -> u512) (zr : nat -> Z).
Hypothesis Hst : stream_ok fr zr.

Lemma red_zr : forall k, red (zr k).
Proof. intro k. apply Hst. Qed.

Lemma generate_maskR_ok : forall z i mk zu zv pu pv al be x0 x1, 1 <= i ->
  reps (r_maskR (z_r z)) mk -> length mk = 6 -> rep (r_Zu (z_r z)) zu -> rep (r_Zv (z_r z)) zv ->
  rep (r_preu1 (z_r z)) pu -> rep (r_prev1 (z_r z)) pv -> rep (p_alpha (z_p z)) al -> rep (p_beta (z_p z)) be ->
  reps (i_maskr (z_i z)) [x0; x1] ->
  returns (generate_maskR fr zr z i) (fun res => let '(d, da, z') := res in
    z_pos z' = z_pos z + (if i =? 1 then 0 else 6) /\ z_p z' = z_p z /\ z_m z' = z_m z /\ z_i z' = z_i z /\ z_kI z' = z_kI z /\
    R_check_commit (z_kR z') d da = true /\ ropen (z_kR z') d (map fz mk) (r_rf (z_r z')) /\
    r_preR (z_r z') = r_maskR (z_r z) /\
    rdyn (z_r z') (al * zu * RS mk pu) (be * zv * RS mk pv) 1 1 1 /\
    rep (r_preZu (z_r z')) zu /\ rep (r_preZv (z_r z')) zv /\
    rep (r_prepreu1 (z_r z')) pu /\ rep (r_preprev1 (z_r z')) pv /\
    (exists g1, qrep (r_Rg1 (z_r z')) g1 /\ forall t, peval g1 t = poly_R (fun i => nth i mk 0%F) pu t) /\
    (exists g2, qrep (r_Rg2 (z_r z')) g2 /\ forall t, peval g2 t = poly_R (fun i => nth i mk 0%F) pv t) /\
    exists mk' sc, (i <> 1 -> mk' = drawn fr (z_pos z) 6) /\
      reps (r_maskR (z_r z')) mk' /\ length mk' = 6 /\ qrep (r_sumRc (z_r z')) sc /\
      forall x, peval sc x = if i =? 1 then (x0 + x1 * x)%F else RS mk' x).
Proof.
  intros z i mk zu zv pu pv al be x0 x1 Hi Rm Lm Rzu Rzv Rpu Rpv Ral Rbe Rx. unfold generate_maskR. cbv zeta.
  destruct (R_commit_open (zr (z_zpos z)) (zr (z_zpos z + 1)) (zr (z_zpos z + 2)) (zr (z_zpos z + 3)) (map fz mk) (zr (z_zpos z + 4)))
    as (K & d & da & EK & EC & CC & OP); try apply red_zr; [rewrite map_length; exact Lm|apply Forall_red_fz|].
  rewrite EK, bind_ok, (gmps_ok _ _ Rm), bind_ok, EC, bind_ok.
  do 7 (destruct mk as [|?m mk]; try discriminate Lm).
  inversion Rm as [|y0 ? l ? B0 T0 E0]; subst. inversion T0 as [|y1 ? ? ? B1 T1]; subst. inversion T1 as [|y2 ? ? ? B2 T2]; subst.
  inversion T2 as [|y3 ? ? ? B3 T3]; subst. inversion T3 as [|y4 ? ? ? B4 T4]; subst. inversion T4 as [|y5 ? ? ? B5 T5]; subst.
  inversion T5; subst. clear T0 T1 T2 T3 T4 T5. rename E0 into EM.
  rewrite <- EM in *. cbn [rd nth_error bind].
  set (Rg := fun pt => QuadraticPoly y4 (fe_add y3 (fe_mul y5 pt)) (fe_add (fe_add y0 (fe_mul y1 pt)) (fe_mul (fe_mul y2 pt) pt))).
  set (sumR := fun g => fe_add (fe_add (fe_add (q_a g) (q_b g)) (q_c g)) (q_c g)).
  assert (G : forall pt p, rep pt p -> rep (q_a (Rg pt)) m3 /\ rep (q_b (Rg pt)) (m2 + m4 * p)%F /\
              rep (q_c (Rg pt)) (m + m0 * p + m1 * p * p)%F).
  { intros pt p Rp. unfold Rg. cbn [q_a q_b q_c]. split; [exact B4|]. split; [apply rep_add; [exact B3|apply rep_mul; assumption]|].
    apply rep_add; [apply rep_add; [exact B0|apply rep_mul; assumption]|]. apply rep_mul; [apply rep_mul; assumption|assumption]. }
  assert (GS : forall pt p, rep pt p -> rep (sumR (Rg pt)) (RS [m; m0; m1; m2; m3; m4] p)).
  { intros pt p Rp. destruct (G pt p Rp) as (Ga & Gb & Gc). unfold sumR. eapply rep_eq.
    - apply rep_add; [apply rep_add; [apply rep_add; [exact Ga|exact Gb]|exact Gc]|exact Gc].
    - unfold RS, poly_R. cbn [nth]. ring. }
  assert (GP : forall pt p, rep pt p -> exists g, qrep (Rg pt) g /\
              forall t, peval g t = poly_R (fun i => nth i [m; m0; m1; m2; m3; m4] 0%F) p t).
  { intros pt p Rp. destruct (G pt p Rp) as (Ga & Gb & Gc). eexists. split.
    - do 3 eexists. split; [reflexivity|]. split; [exact Ga|]. split; [exact Gb|exact Gc].
    - intro t. unfold poly_R. cbn [peval length Fpow nth]. ring. }
  eapply (returns_bind _ _ _ _ (fun res => let '(mR, sRc, pos) := res in
    pos = z_pos z + (if i =? 1 then 0 else 6) /\ exists mk' sc, (i <> 1 -> mk' = drawn fr (z_pos z) 6) /\ reps mR mk' /\ length mk' = 6 /\ qrep sRc sc /\
      forall x, peval sc x = if i =? 1 then (x0 + x1 * x)%F else RS mk' x)).
  { destruct (Nat.ltb_spec 1 i) as [Hi1|Hi1].
    - pose proof (draw_ok fr zr (z_pos z) 6 Hst) as DR. pose proof (drawn_length fr (z_pos z) 6) as DL.
      set (l := draw fr (z_pos z) 6) in *. set (k := drawn fr (z_pos z) 6) in *. clearbody l k.
      do 7 (destruct k as [|?k k]; try discriminate DL).
      inversion DR as [|u0 ? ? ? C0 T0]; subst. inversion T0 as [|u1 ? ? ? C1 T1]; subst. inversion T1 as [|u2 ? ? ? C2 T2]; subst.
      inversion T2 as [|u3 ? ? ? C3 T3]; subst. inversion T3 as [|u4 ? ? ? C4 T4]; subst. inversion T4 as [|u5 ? ? ? C5 T5]; subst.
      inversion T5; subst. cbn [rd nth_error bind]. apply returns_ok.
      destruct (Nat.eqb_spec i 1); [lia|]. split; [reflexivity|].
      exists [k0; k1; k2; k3; k4; k5]. eexists. split; [reflexivity|]. split; [exact DR|]. split; [reflexivity|]. split.
      + do 3 eexists. split; [reflexivity|]. cbn [q_a q_b q_c].
        split; [apply rep_add; eassumption|]. split; [apply rep_add; [apply rep_add; eassumption|eassumption]|].
        apply rep_add; [apply rep_add; [apply rep_add; eassumption|eassumption]|eassumption].
      + intro x. unfold RS, poly_R. cbn [peval length Fpow nth]. ring.
    - destruct (Nat.eqb_spec i 1); [|lia].
      inversion Rx as [|u0 ? ? ? C0 T0 EX]; subst. inversion T0 as [|u1 ? ? ? C1 T1]; subst. inversion T1; subst.
      cbn [rd nth_error bind]. apply returns_ok. split; [lia|]. eexists. eexists. split; [intro N; contradiction|]. split; [|split; [|split]].
      + cbn [upd]. constructor; [exact C0|]. constructor; [exact C1|].
        constructor; [exact B2|]. constructor; [exact B3|]. constructor; [exact B4|]. constructor; [exact B5|]. constructor.
      + reflexivity.
      + do 3 eexists. split; [reflexivity|]. cbn [q_a q_b q_c]. split; [exact rep_i0|]. split; [exact C1|exact C0].
      + intro x. cbn [peval length Fpow]. ring. }
  intros [[mR sRc] pos] [EP HM]. apply returns_ok. cbn [z_pos z_p z_m z_r z_i z_kR z_kM z_kI r_preR r_rf r_preZu r_preZv r_prepreu1 r_preprev1 r_Rg1 r_Rg2 r_maskR r_sumRc].
  split; [exact EP|]. split; [reflexivity|]. split; [reflexivity|]. split; [reflexivity|]. split; [reflexivity|]. split; [exact CC|]. split; [exact OP|].
  split; [reflexivity|]. split.
  { constructor; cbn [r_sumcu r_sumcv r_Iuv r_Zu r_Zv]; try exact rep_i1.
    - apply rep_mul; [apply rep_mul; assumption|apply GS; exact Rpu].
    - apply rep_mul; [apply rep_mul; assumption|apply GS; exact Rpv]. }
  split; [exact Rzu|]. split; [exact Rzv|]. split; [exact Rpu|]. split; [exact Rpv|].
  split; [apply GP; exact Rpu|]. split; [apply GP; exact Rpv|]. exact HM.
Qed.

Lemma pre_rho_ok : forall z n, 1 <= n -> (Z.of_nat (2 * n + 1) < 2 ^ 31)%Z ->
  returns (generate_maskpoly_pre_rho fr zr z (n * 2 + 1) 2) (fun res => let '(d, da, z') := res in
    z_pos z' = z_pos z + (4 * n + 9) /\ z_p z' = z_p z /\ z_r z' = z_r z /\ z_i z' = z_i z /\ z_kI z' = z_kI z /\ z_kR z' = z_kR z /\
    M_check_commit (z_kM z') d da = true /\
    exists c0, c0 = drawn fr (z_pos z) (4 * n + 9) /\ length c0 = 4 * n + 9 /\ reps (m_poly (z_m z')) c0 /\ m_gmp (z_m z') = map fz c0 /\
      mopen (z_kM z') d (2 * n + 1) (map fz c0) (m_rf (z_m z'))).
Proof.
  intros z n Hn Hb. unfold generate_maskpoly_pre_rho. cbv zeta.
  replace (n * 2 + 1) with (2 * n + 1) by lia. replace ((2 * n + 1) * 2 + 1 + 6) with (4 * n + 9) by lia.
  set (L := 2 * n + 1) in *. assert (EL : 2 * L + 7 = 4 * n + 9) by (unfold L; lia).
  pose proof (draw_ok fr zr (z_pos z) (4 * n + 9) Hst) as DR. pose proof (drawn_length fr (z_pos z) (4 * n + 9)) as DL.
  destruct (M_commit_open L (zr (z_zpos z)) (drawz zr (z_zpos z + 1) (L + 1)) (map fz (drawn fr (z_pos z) (4 * n + 9))) (zr (z_zpos z + L + 2)))
    as (K & g & ga & EK & EC & CC & OP);
    [unfold L; lia|exact Hb|apply red_zr|apply drawz_length|eapply drawz_red; exact Hst|rewrite map_length, DL; lia|apply Forall_red_fz|apply red_zr|].
  rewrite EK, bind_ok, (gmps_ok _ _ DR), bind_ok, EC, bind_ok. apply returns_ok.
  cbn [z_pos z_p z_m z_r z_i z_kR z_kM z_kI m_poly m_gmp m_rf].
  split; [reflexivity|].
  split; [reflexivity|]. split; [reflexivity|]. split; [reflexivity|]. split; [reflexivity|]. split; [reflexivity|]. split; [exact CC|].
  exists (drawn fr (z_pos z) (4 * n + 9)). split; [reflexivity|]. split; [exact DL|]. split; [exact DR|]. split; [reflexivity|exact OP].
Qed.

Lemma prove_R_ok : forall z mk d r0 r1, reps (r_preR (z_r z)) mk -> ropen (z_kR z) d (map fz mk) (r_rf (z_r z)) -> red r0 -> red r1 ->
  returns (prove_R zr z [r0; r1]) (fun res => let '(ans, w, wa, z') := res in
    (exists q, z' = ZProver (z_p z) (z_m z) (z_r z) (z_i z) (z_kR z) (z_kM z) (z_kI z) (z_pos z) q) /\
    red ans /\ ofZ ans = poly_R (fun i => nth i mk 0%F) (ofZ r0) (ofZ r1) /\ R_verify (z_kR z) [r0; r1] d ans w wa = Ok true /\
    length w = 3 /\ length wa = 3).
Proof.
  intros z mk d r0 r1 Rm OP H0 H1. unfold prove_R. rewrite (gmps_ok _ _ Rm), bind_ok. cbv zeta.
  destruct (OP r0 r1 (zr (z_zpos z)) (zr (z_zpos z + 1)) H0 H1 (red_zr _) (red_zr _)) as (ans & w & wa & E & RA & EV & VV & L1 & L2).
  rewrite E, bind_ok. apply returns_ok. split; [eexists; reflexivity|]. split; [exact RA|].
  split; [rewrite EV; unfold poly_R; rewrite !ent_fz; reflexivity|]. split; [exact VV|]. split; assumption.
Qed.
Lemma prove_mask_ok : forall z n c0 g R, m_gmp (z_m z) = map fz c0 -> mopen (z_kM z) g n (map fz c0) (m_rf (z_m z)) -> length R = n ->
  returns (prove_mask zr z (map fz R)) (fun res => let '(ans, w, wa, z') := res in
    (exists q, z' = ZProver (z_p z) (z_m z) (z_r z) (z_i z) (z_kR z) (z_kM z) (z_kI z) (z_pos z) q) /\
    red ans /\ ofZ ans = mask_poly n (fun i => nth i c0 0%F) (fun i => nth i R 0%F) /\
    M_verify (z_kM z) (map fz R) g ans w wa = Ok true /\ length w = n + 1 /\ length wa = n + 1).
Proof.
  intros z n c0 g R EG [EN OP] LR. unfold prove_mask. cbv zeta. rewrite EN, EG.
  destruct (OP (map fz R) (drawz zr (z_zpos z) n)) as (ans & w & wa & E & RA & EV & VV & L1 & L2);
    [rewrite map_length; exact LR|apply Forall_red_fz|apply drawz_length|eapply drawz_red; exact Hst|].
  rewrite E, bind_ok. apply returns_ok. split; [eexists; reflexivity|]. split; [exact RA|].
  split; [|split; [exact VV|split; assumption]]. rewrite EV. unfold mask_poly. rewrite !ent_fz.
  do 3 f_equal. apply sumn_ext. intros i _. rewrite !ent_fz. reflexivity.
Qed.
Lemma prove_input_ok : forall z n V x0 x1 d d2 R Zv,
  iopen (z_kI z) d d2 n V x0 x1 (i_maskr_mpz (z_i z)) (i_mpz (z_i z)) (i_rf (z_i z)) (i_rf2 (z_i z)) -> length R = n ->
  returns (prove_input zr z (map fz R) (fz Zv)) (fun res => let '(ans, w, wa, z') := res in
    (exists q, z' = ZProver (z_p z) (z_m z) (z_r z) (z_i z) (z_kR z) (z_kM z) (z_kI z) (z_pos z) q) /\
    red ans /\ ofZ ans = (mle R V + Zv * (x0 + x1 * nth (n - 1) R 0))%F /\
    I_verify (z_kI z) (map fz R) d d2 (fz Zv) ans w wa = Ok true /\ length w = n + 1 /\ length wa = n + 1).
Proof.
  intros z n V x0 x1 d d2 R Zv [EN OP] LR. unfold prove_input. cbv zeta. rewrite EN.
  destruct (OP (map fz R) (fz Zv) (drawz zr (z_zpos z) n)) as (ans & w & wa & E & RA & EV & VV & L1 & L2);
    [rewrite map_length; exact LR|apply Forall_red_fz|apply fz_range|apply drawz_length|eapply drawz_red; exact Hst|].
  rewrite E, bind_ok. apply returns_ok. split; [eexists; reflexivity|]. split; [exact RA|].
  split; [|split; [exact VV|split; assumption]]. rewrite EV, ent_fz, ofZ_fz, map_map. f_equal. f_equal.
  rewrite <- (map_id R) at 2. apply map_ext. intro a. apply ofZ_fz.
Qed.
End Masks.
