(** * The wiring file of the Lanczos test *)
From Coq Require Import ZArith List Bool Arith Lia.
From Verif Require Import Base Fp Program SpecLoader SpecCompiler CompilerWiring SpecMerkle SpecLanczos ShaGen ShaMain ShaProgram MerkleShape MerkleRuns LanczosGen LanczosProgram LoaderProofs.
Import ListNotations.
Open Scope Z_scope.

(** ** A file with inputs, constants, passed variables and outputs *)
Section File.
Context (np : nat) (cs al : list Z).
Notation n := (Z.of_nat np).
Notation N := (length al).
Notation v := (Z.of_nat (np + length cs)).
Definition lfile : list rstmt :=
  map (fun i => RIn i i) (zrange 0 np) ++ map (fun '(c, t) => RConst t c) (combine cs (zrange n (length cs))) ++
  map (fun '(x, t) => RPass t x x) (combine al (zrange v N)) ++ map (fun '(o, t) => ROut o t) (combine (zrange (v + Z.of_nat N) N) (zrange v N)).
Notation w := lfile.
Lemma lfile_map : forall (C : Type) (f : rstmt -> list C), flat_map f w = flat_map (fun i => f (RIn i i)) (zrange 0 np) ++ flat_map (fun '(c, t) => f (RConst t c)) (combine cs (zrange n (length cs))) ++
  flat_map (fun '(x, t) => f (RPass t x x)) (combine al (zrange v N)) ++ flat_map (fun '(o, t) => f (ROut o t)) (combine (zrange (v + Z.of_nat N) N) (zrange v N)).
Proof.
  intros C f. unfold lfile. rewrite !flat_map_app, !flat_map_map.
  assert (E : forall A B (g h : A -> list B) l, (forall x, In x l -> g x = h x) -> flat_map g l = flat_map h l) by (intros A B g h l H; rewrite !flat_map_concat_map; f_equal; apply map_ext_in; exact H).
  apply f_equal2; [reflexivity|]. apply f_equal2; [apply E; intros (x & y) _; reflexivity|]. apply f_equal2; apply E; intros (x & y) _; reflexivity.
Qed.
Lemma lfile_targets : flat_map rtarget w = zrange 0 (np + length cs + N).
Proof.
  rewrite lfile_map. rewrite (flat_map_one _ _ _ (fun x => x)) by reflexivity. rewrite 2!(flat_map_one _ _ _ (fun '(_, t) => t)) by (intros (? & ?) _; reflexivity).
  rewrite flat_map_none by (intros (? & ?) _; reflexivity). rewrite app_nil_r, map_id, !snd_range, !range_app, <- app_assoc. reflexivity.
Qed.
Lemma lfile_sources : sources w = zrange 0 (np + length cs).
Proof.
  unfold sources. rewrite lfile_map. rewrite (flat_map_one _ _ _ (fun x => x)) by reflexivity. rewrite (flat_map_one _ _ _ (fun '(_, t) => t)) by (intros (? & ?) _; reflexivity).
  rewrite !flat_map_none by (intros (? & ?) _; reflexivity). rewrite !app_nil_r, map_id, snd_range, range_app. reflexivity.
Qed.
Lemma lfile_nums : out_nums w = zrange (v + Z.of_nat N) N.
Proof.
  unfold out_nums. rewrite lfile_map. rewrite (flat_map_none _ _ _ (zrange 0 np)) by reflexivity. rewrite 2!flat_map_none by (intros (? & ?) _; reflexivity). rewrite (flat_map_one _ _ _ (fun '(t, _) => t)) by (intros (? & ?) _; reflexivity).
  cbn [app]. rewrite (combine_fst _ _ _ (fun y => y)) by (rewrite !range_length; reflexivity). apply map_id.
Qed.
Lemma lfile_vars : out_vars w = zrange v N.
Proof.
  unfold out_vars. rewrite lfile_map. rewrite (flat_map_none _ _ _ (zrange 0 np)) by reflexivity. rewrite 2!flat_map_none by (intros (? & ?) _; reflexivity). rewrite (flat_map_one _ _ _ (fun '(_, t) => t)) by (intros (? & ?) _; reflexivity).
  cbn [app]. rewrite (combine_snd _ _ _ (fun y => y)) by (rewrite !range_length; reflexivity). apply map_id.
Qed.
Lemma lfile_in : forall s, In s w <-> (exists i, s = RIn i i /\ 0 <= i < n) \/ (exists j c, s = RConst (n + Z.of_nat j) c /\ nth_error cs j = Some c) \/
  (exists k x, s = RPass (v + Z.of_nat k) x x /\ nth_error al k = Some x) \/ (exists k, s = ROut (v + Z.of_nat N + Z.of_nat k) (v + Z.of_nat k) /\ (k < N)%nat).
Proof.
  intros s. unfold lfile. rewrite !in_app_iff, !in_map_iff. split.
  - intros [(i & <- & Hi)|[((c & t) & <- & Hi)|[((x & t) & <- & Hi)|((o & t) & <- & Hi)]]].
    + left. exists i. apply in_range in Hi. split; [reflexivity|lia].
    + right; left. apply combine_nth_inv in Hi. destruct Hi as (k & K1 & K2). apply nth_range in K2. exists k, c. destruct K2 as (_ & ->). split; [reflexivity|exact K1].
    + right; right; left. apply combine_nth_inv in Hi. destruct Hi as (k & K1 & K2). apply nth_range in K2. exists k, x. destruct K2 as (_ & ->). split; [reflexivity|exact K1].
    + right; right; right. apply combine_nth_inv in Hi. destruct Hi as (k & K1 & K2). apply nth_range in K1, K2. exists k. destruct K1 as (K & ->), K2 as (_ & ->). split; [reflexivity|exact K].
  - intros [(i & -> & Hi)|[(j & c & -> & Hj)|[(k & x & -> & Hk)|(k & -> & Hk)]]].
    + left. exists i. split; [reflexivity|]. apply in_range. lia.
    + right; left. exists (c, n + Z.of_nat j). split; [reflexivity|]. apply nth_error_In with (n := j). apply combine_nth_error; [exact Hj|]. apply range_at. apply nth_error_Some. rewrite Hj. discriminate.
    + right; right; left. exists (x, v + Z.of_nat k). split; [reflexivity|]. apply nth_error_In with (n := k). apply combine_nth_error; [exact Hk|]. apply range_at. apply nth_error_Some. rewrite Hk. discriminate.
    + right; right; right. exists (v + Z.of_nat N + Z.of_nat k, v + Z.of_nat k). split; [reflexivity|]. apply nth_error_In with (n := k). apply combine_nth_error; apply range_at; exact Hk.
Qed.
Lemma lfile_routes : forall q s, routes w q s <-> 0 <= q /\ nth_error al (Z.to_nat q) = Some s.
Proof.
  intros q s. split.
  - intros (m0 & o & v0 & b & (M1 & M2) & H1 & H2 & H3). rewrite lfile_nums, in_range in M1. apply lfile_in in H1, H3.
    destruct H1 as [(? & H1 & _)|[(? & ? & H1 & _)|[(? & ? & H1 & _)|(k' & H1 & HO)]]]; try discriminate H1. pose proof (f_equal (fun s => match s with ROut o _ => o | _ => 0 end) H1) as Eo. pose proof (f_equal (fun s => match s with ROut _ t => t | _ => 0 end) H1) as Ev. cbv beta iota in Eo, Ev. clear H1.
    destruct H3 as [(? & H3 & _)|[(? & ? & H3 & _)|[(k & x & H3 & HK)|(? & H3 & _)]]]; try discriminate H3. pose proof (f_equal (fun s => match s with RPass t _ _ => t | _ => 0 end) H3) as E. pose proof (f_equal (fun s => match s with RPass _ t _ => t | _ => 0 end) H3) as Es. cbv beta iota in E, Es. subst x. clear H3.
    assert (M3 : m0 <= v + Z.of_nat N) by (apply M2; rewrite lfile_nums, in_range; lia). split; [lia|]. assert (EK : Z.to_nat q = k) by lia. rewrite EK. exact HK.
  - intros (Hq & HK). assert (L : (Z.to_nat q < N)%nat) by (apply nth_error_Some; rewrite HK; discriminate). exists (v + Z.of_nat N), (v + Z.of_nat N + q), (v + q), s. split; [split; [rewrite lfile_nums, in_range; lia|intros y Hy; rewrite lfile_nums, in_range in Hy; lia]|].
    split; [apply lfile_in; right; right; right; exists (Z.to_nat q); split; [f_equal; lia|exact L]|]. split; [lia|]. apply lfile_in. right; right; left. exists (Z.to_nat q), s. split; [f_equal; lia|exact HK].
Qed.
Context (AR : forall x, In x al -> 0 <= x < v).
Lemma lfile_ok : Forall is_ll cs -> v + 2 * Z.of_nat N <= 1061109567 -> wiring_ok w.
Proof.
  intros HC HB. unfold wiring_ok. rewrite lfile_targets, lfile_nums, lfile_vars. split; [apply range_NoDup|]. split; [apply range_NoDup|]. split; [apply range_NoDup|].
  intros s Hs. apply lfile_in in Hs. destruct Hs as [(i & -> & Hi)|[(j & c & -> & Hj)|[(k & x & -> & Hk)|(k & -> & Hk)]]].
  - exact I.
  - rewrite Forall_forall in HC. apply HC. exact (nth_error_In _ _ Hj).
  - assert (L : (k < N)%nat) by (apply nth_error_Some; rewrite Hk; discriminate). split; [rewrite in_range; lia|]. rewrite lfile_sources, in_range. apply nth_error_In in Hk. apply AR in Hk. lia.
  - unfold is_int. lia.
Qed.
Lemma lfile_regular : v + 2 * Z.of_nat N <= 1061109567 -> wiring_regular w.
Proof.
  intros HB. unfold wiring_regular. rewrite lfile_nums, range_length. split; [intros x y Hx Hy; apply in_range in Hx, Hy; lia|].
  intros s Hs. apply lfile_in in Hs. unfold is_int. destruct Hs as [(i & -> & Hi)|[(j & c & -> & Hj)|[(k & x & -> & Hk)|(k & -> & Hk)]]].
  - lia.
  - assert (L : (j < length cs)%nat) by (apply nth_error_Some; rewrite Hj; discriminate). lia.
  - assert (L : (k < N)%nat) by (apply nth_error_Some; rewrite Hk; discriminate). apply nth_error_In in Hk. apply AR in Hk. lia.
  - destruct (nth_error al k) as [x|] eqn:E; [|apply nth_error_None in E; lia]. exists x, x. apply lfile_in. right; right; left. exists k, x. split; [reflexivity|exact E].
Qed.
(** The number in source [s] *)
Definition lgiven (rnd : nat -> Z) (s : Z) : Z := if s <? n then rnd (Z.to_nat s) else nth (Z.to_nat (s - n)) cs 0.
Lemma lfile_source : forall rnd s, 0 <= s < v -> source rnd w s (lgiven rnd s).
Proof.
  intros rnd s Hs. unfold lgiven. destruct (Z.ltb_spec s n) as [Q|Q].
  - right. set (a := Z.to_nat s). exists s. unfold lfile. assert (E : zrange 0 np = zrange 0 a ++ s :: zrange (s + 1) (np - a - 1)). { replace np with (a + S (np - a - 1))%nat at 1 by (unfold a; lia). rewrite range_app. cbn [zrange]. replace (0 + Z.of_nat a) with s by (unfold a; lia). reflexivity. }
    rewrite E, map_app. cbn [map]. rewrite <- app_assoc. cbn [app]. eexists _, _. split; [reflexivity|]. f_equal. unfold rins.
    rewrite (flat_map_map _ _ _ (fun s => match s with RIn t _ => [t] | _ => [] end)). rewrite (flat_map_one _ _ _ (fun x => x)), map_id, range_length by reflexivity. reflexivity.
  - left. assert (HI : In (RConst s (nth (Z.to_nat (s - n)) cs 0)) w). { apply lfile_in. right; left. exists (Z.to_nat (s - n)), (nth (Z.to_nat (s - n)) cs 0). split; [f_equal; lia|]. apply nth_error_nth'. lia. }
    apply in_split in HI. destruct HI as (w1 & w2 & E). exists w1, w2. exact E.
Qed.
Lemma lfile_feeds : forall rnd q s, (q < N)%nat -> nth_error al q = Some s -> forall x, feeds rnd w (Z.of_nat q) x <-> x = lgiven rnd s.
Proof.
  intros rnd q s Hq Hs x. assert (B : 0 <= s < v) by (apply AR; exact (nth_error_In _ _ Hs)). assert (RT : forall s', routes w (Z.of_nat q) s' <-> s' = s).
  { intros s'. rewrite lfile_routes, Nat2Z.id, Hs. split; [intros (_ & E); congruence|intros ->; split; [lia|reflexivity]]. }
  split.
  - intros (m & o & v0 & s' & b & A & B' & C & D & E). assert (Q : s' = s) by (apply RT; exists m, o, v0, b; auto). subst s'. apply (source_fun rnd w s); [rewrite lfile_targets; apply range_NoDup|exact E|apply lfile_source, B].
  - intros ->. destruct (proj2 (RT s) eq_refl) as (m & o & v0 & b & A & B' & C & D). exists m, o, v0, s, b. split; [exact A|]. split; [exact B'|]. split; [exact C|]. split; [exact D|]. apply lfile_source, B.
Qed.
End File.

(** ** The blocks *)
Lemma flat_map_length : forall A B (f : A -> list B) c l, (forall x, In x l -> length (f x) = c) -> length (flat_map f l) = (length l * c)%nat.
Proof. intros A B f c l H. induction l as [|x l IH]; [reflexivity|]. cbn [flat_map length]. rewrite app_length, H, IH by (try (left; reflexivity); intros y Hy; apply H; right; exact Hy). lia. Qed.
Lemma flat_map_at : forall B (f : nat -> list B) c k i q a, (forall x, length (f x) = c) -> (i < k)%nat -> (q < c)%nat -> nth_error (flat_map f (seq a k)) (i * c + q) = nth_error (f (a + i)%nat) q.
Proof.
  intros B f c k. induction k as [|k IH]; intros i q a H Hi Hq; [lia|]. cbn [seq flat_map]. destruct i as [|i].
  - rewrite nth_error_app1 by (rewrite H; lia). do 2 f_equal; lia.
  - rewrite nth_error_app2 by (rewrite H; lia). rewrite H. replace (S i * c + q - c)%nat with (i * c + q)%nat by lia. rewrite IH by (try exact H; lia). do 2 f_equal. lia.
Qed.
Section Blocks.
Context (r m : nat) (Hr : (0 < r)%nat) (Hm : (0 < m)%nat).
Notation np := (r * (m + 3))%nat.
Notation nin := (16 * r ^ 2 + 2 * r)%nat.
Lemma block_length : forall x y, length (lanczos_block r np x y) = nin.
Proof.
  intros x y. unfold lanczos_block. rewrite app_length, range_length. rewrite (flat_map_length _ _ _ (4 * r)) by (intros; apply range_length). rewrite seq_length. cbn [Nat.pow]. lia.
Qed.
Definition lall : list Z := flat_map (fun x => flat_map (lanczos_block r np x) (seq 0 m)) (seq 0 m).
Lemma row_length : forall x k a, length (flat_map (lanczos_block r np x) (seq a k)) = (k * nin)%nat.
Proof. intros x k a. rewrite (flat_map_length _ _ _ nin) by (intros; apply block_length). rewrite seq_length. reflexivity. Qed.
Lemma lall_length : length lall = (nin * m ^ 2)%nat.
Proof. unfold lall. rewrite (flat_map_length _ _ _ (m * nin)) by (intros; apply row_length). rewrite seq_length. cbn [Nat.pow]. lia. Qed.
Lemma blocks_eq : lanczos_blocks r np m = Ok lall.
Proof.
  unfold lanczos_blocks.
  assert (I : forall x k y st, length st = (nin * (y + m * x))%nat -> for_ k y (fun yrep st => assert_ (length st =? nin * (yrep + m * x))%nat ;;; Ok (st ++ lanczos_block r np x yrep)) st = Ok (st ++ flat_map (lanczos_block r np x) (seq y k))).
  { intros x. induction k as [|k IH]; intros y st L; cbn [for_ seq flat_map]; [rewrite app_nil_r; reflexivity|]. rewrite (proj2 (Nat.eqb_eq _ _) L). cbn [assert_ bind]. rewrite IH; [rewrite <- app_assoc; reflexivity|]. rewrite app_length, block_length, L. lia. }
  assert (O : forall k x st, length st = (nin * (m * x))%nat -> for_ k x (fun xrep st => for_ m 0 (fun yrep st => assert_ (length st =? nin * (yrep + m * xrep))%nat ;;; Ok (st ++ lanczos_block r np xrep yrep)) st) st =
    Ok (st ++ flat_map (fun x => flat_map (lanczos_block r np x) (seq 0 m)) (seq x k))).
  { induction k as [|k IH]; intros x st L; cbn [for_ seq flat_map]; [rewrite app_nil_r; reflexivity|]. rewrite I by exact L. cbn [bind]. rewrite IH; [rewrite <- app_assoc; reflexivity|]. rewrite app_length, row_length, L. lia. }
  rewrite O by (cbn [length]; lia). reflexivity.
Qed.
Lemma lall_at : forall x y q, (x < m)%nat -> (y < m)%nat -> (q < nin)%nat -> nth_error lall ((y + m * x) * nin + q) = nth_error (lanczos_block r np x y) q.
Proof.
  intros x y q Hx Hy Hq. unfold lall. replace ((y + m * x) * nin + q)%nat with (x * (m * nin) + (y * nin + q))%nat by lia.
  rewrite (flat_map_at _ _ (m * nin)); [|intros; apply row_length|exact Hx|nia]. rewrite (flat_map_at _ _ nin); [|intros; apply block_length|exact Hy|exact Hq]. reflexivity.
Qed.
Lemma block_pixel : forall x y j i, (j < 4 * r)%nat -> (i < 4 * r)%nat -> nth_error (lanczos_block r np x y) (4 * r * j + i) = Some (Z.of_nat (np * (r * y + j) + (r * x + i))).
Proof.
  intros x y j i Hj Hi. unfold lanczos_block. rewrite nth_error_app1; [|rewrite (flat_map_length _ _ _ (4 * r)) by (intros; apply range_length); rewrite seq_length; nia].
  replace (4 * r * j + i)%nat with (j * (4 * r) + i)%nat by lia. rewrite (flat_map_at _ _ (4 * r)); [|intros; apply range_length|exact Hj|exact Hi]. rewrite range_at by exact Hi. f_equal. lia.
Qed.
Lemma block_coeff : forall x y j, (j < 2 * r)%nat -> nth_error (lanczos_block r np x y) (16 * r ^ 2 + j) = Some (Z.of_nat (np ^ 2 + j)).
Proof.
  intros x y j Hj. unfold lanczos_block. assert (E : length (flat_map (fun yoff => zrange (Z.of_nat (np * yoff + r * x)) (4 * r)) (seq (r * y) (4 * r))) = (16 * r ^ 2)%nat).
  { rewrite (flat_map_length _ _ _ (4 * r)) by (intros; apply range_length). rewrite seq_length. cbn [Nat.pow]. lia. }
  rewrite nth_error_app2 by (rewrite E; lia). rewrite E. replace (16 * r ^ 2 + j - 16 * r ^ 2)%nat with j by lia. rewrite range_at by exact Hj. f_equal. lia.
Qed.
Lemma block_range : forall x y s, (x < m)%nat -> (y < m)%nat -> In s (lanczos_block r np x y) -> 0 <= s < Z.of_nat (np ^ 2 + 2 * r).
Proof.
  intros x y s Hx Hy Hs. unfold lanczos_block in Hs. apply in_app_or in Hs. destruct Hs as [Hs|Hs]; [|apply in_range in Hs; lia].
  apply in_flat_map in Hs. destruct Hs as (j & Hj & Hs). apply in_seq in Hj. apply in_range in Hs.
  assert (J : (S j <= np)%nat) by nia. assert (X : (r * x + 4 * r <= np)%nat) by nia. assert (Q : (np * j + np <= np ^ 2)%nat) by (cbn [Nat.pow]; nia). lia.
Qed.
Lemma lall_range : forall s, In s lall -> 0 <= s < Z.of_nat (np ^ 2 + 2 * r).
Proof.
  intros s Hs. unfold lall in Hs. apply in_flat_map in Hs. destruct Hs as (x & Hx & Hs). apply in_flat_map in Hs. destruct Hs as (y & Hy & Hs). apply in_seq in Hx, Hy. apply (block_range x y); [lia|lia|exact Hs].
Qed.
Lemma padding : (0 <? 2 ^ Nat.log2_up nin - nin)%nat = true.
Proof.
  apply Nat.ltb_lt. assert (N2 : (1 < nin)%nat) by (cbn [Nat.pow]; nia). pose proof (Nat.log2_up_spec nin N2) as (_ & LE). destruct (Nat.eq_dec (2 ^ Nat.log2_up nin) nin) as [E|NE]; [|lia]. exfalso.
  (* 8 r + 1 is odd and divides a power of two *)
  assert (D : Nat.divide (8 * r + 1) (2 ^ Nat.log2_up nin)) by (exists (2 * r)%nat; rewrite E; cbn [Nat.pow]; lia). clear E LE N2.
  induction (Nat.log2_up nin) as [|k IH]; cbn [Nat.pow] in D.
  - apply Nat.divide_1_r in D. lia.
  - apply IH. apply (Nat.gauss _ 2); [exact D|]. replace (8 * r + 1)%nat with (1 + 4 * r * 2)%nat by lia. rewrite Nat.gcd_comm, Nat.gcd_add_mult_diag_r. reflexivity.
Qed.
Lemma wiring_eq : forall cs, length cs = (2 * r)%nat -> lanczos_wiring r np cs = Ok (lfile (np ^ 2) cs lall).
Proof.
  intros cs LC. unfold lanczos_wiring. cbv zeta. assert (E : (1 + (np - 4 * r) / r = m)%nat). { replace (np - 4 * r)%nat with ((m - 1) * r)%nat by nia. rewrite Nat.div_mul by lia. lia. }
  rewrite E, padding, (proj2 (Nat.eqb_eq _ _) LC). cbn [assert_ bind]. rewrite blocks_eq. cbn [bind]. rewrite <- lall_length. unfold lfile. rewrite LC, !Nat2Z.inj_add. reflexivity.
Qed.
End Blocks.
Lemma files_inv : forall r np cs p w, lanczos_files r np cs = Ok (p, w) -> (0 < r)%nat /\ lanczos_program r = Ok p /\ lanczos_wiring r np cs = Ok w /\ length cs = (2 * r)%nat /\ exists m, (0 < m)%nat /\ np = (r * (m + 3))%nat.
Proof.
  intros r np cs p w E. unfold lanczos_files in E. destruct (Nat.ltb_spec np (4 * r)) as [|L]; [discriminate E|]. destruct (Nat.eqb_spec r 0) as [|N0]; [discriminate E|]. destruct (Nat.eqb_spec (np mod r) 0) as [M|]; [|discriminate E]. cbn [negb] in E.
  apply bind_inv in E. destruct E as (p' & E1 & E). apply bind_inv in E. destruct E as (w' & E2 & E). apply Ok_inj in E. injection E as -> ->. split; [lia|]. split; [exact E1|]. split; [exact E2|]. split.
  - unfold lanczos_wiring in E2. cbv zeta in E2. apply bind_inv in E2. destruct E2 as (_ & _ & E2). apply bind_inv in E2. destruct E2 as ([] & Q & _). apply assert_inv in Q. apply Nat.eqb_eq. exact Q.
  - apply Nat.mod_divides in M; [|exact N0]. destruct M as (c & ->). exists (c - 3)%nat. nia.
Qed.
(** Inputs are in the order of their numbers. *)
Lemma rank_range : forall k a t, a <= t <= a + Z.of_nat k -> length (filter (fun x => x <? t) (zrange a k)) = Z.to_nat (t - a).
Proof.
  induction k as [|k IH]; intros a t H; cbn [zrange filter]; [cbn [length]; lia|]. destruct (Z.ltb_spec a t).
  - cbn [length]. rewrite IH by lia. lia.
  - assert (E : filter (fun x => x <? t) (zrange (a + 1) k) = []). { destruct (filter (fun x => x <? t) (zrange (a + 1) k)) as [|y l] eqn:F; [reflexivity|]. assert (Q : In y (y :: l)) by (left; reflexivity). rewrite <- F in Q. apply filter_In in Q. destruct Q as (Q1 & Q2). apply in_range in Q1. apply Z.ltb_lt in Q2. lia. }
    rewrite E. cbn [length]. lia.
Qed.
