(** * The SHA-256 program: shape, soundness, completeness *)
From Coq Require Import ZArith List Bool Arith Lia Ring.
From Verif Require Import Base Field FieldProofs Fp ArithProofs SpecLoader Program SpecCompiler SpecSha ShaBits ShaGen ShaSem ShaBlock ShaMain ShaCheck LoaderProofs CompilerMaps.
Import ListNotations.
Open Scope Z_scope.

(** ** Shape *)
Fixpoint zlist_eqb (a b : list Z) : bool :=
  match a, b with
  | [], [] => true
  | x :: a', y :: b' => (x =? y) && zlist_eqb a' b'
  | _, _ => false
  end.
Lemma zlist_eqb_ok : forall a b, zlist_eqb a b = true -> a = b.
Proof.
  induction a as [|x a IH]; intros [|y b] H; cbn [zlist_eqb] in H; try discriminate H; [reflexivity|]. apply andb_true_iff in H. destruct H as (H1 & H2). apply Z.eqb_eq in H1. subst y. f_equal. exact (IH b H2).
Qed.
Definition is_out (s : stmt) : bool := match s with SOut _ _ => true | _ => false end.
Definition build (ts inv : list Z) (lines : list stmt) (v : Z) : list stmt :=
  map (fun i => SIn i i) (zrange 0 34) ++ map (fun '(x, i) => SIn x i) (combine inv (zrange 34 (length inv))) ++
  lines ++ map (fun '(t, o) => SOut o t) (combine ts (zrange v (length ts))).
Definition fact (run : outcome (list Z * (list Z * list stmt) * Z)) : option (Z * bool * bool) :=
  match run with
  | Ok (ts, (inv, lines), v) =>
      let p := build ts inv lines v in
      match check 9 p Leaf 0 with
      | Some (_, c) => Some (c, zlist_eqb (inputs p) (zrange 0 (Z.to_nat 7226)), forallb (fun s => negb (is_out s)) lines)
      | None => None
      end
  | _ => None
  end.
Lemma sha_fact_ok : fact sha_run = Some (58034, true, true).
Proof. vm_compute. reflexivity. Qed.
Lemma fact_ok : forall run, fact run = Some (58034, true, true) -> exists ts inv lines v m, run = Ok (ts, (inv, lines), v) /\ check 9 (build ts inv lines v) Leaf 0 = Some (m, 58034) /\
  inputs (build ts inv lines v) = zrange 0 (Z.to_nat 7226) /\ forallb (fun s => negb (is_out s)) lines = true.
Proof.
  intros run H. destruct run as [((ts & inv & lines) & v)| | | | | |]; try discriminate H. cbn [fact] in H. cbv zeta in H. destruct (check 9 (build ts inv lines v) Leaf 0) as [(m & c)|] eqn:EC; [|discriminate H].
  pose proof (f_equal (fun o => match o with Some (a, _, _) => a | None => 0 end) H) as H1. pose proof (f_equal (fun o => match o with Some (_, a, _) => a | None => false end) H) as H2.
  pose proof (f_equal (fun o => match o with Some (_, _, a) => a | None => false end) H) as H3. cbv beta iota in H1, H2, H3. clear H. apply zlist_eqb_ok in H2. subst c. exists ts, inv, lines, v, m. auto.
Qed.
Lemma gbind_second : forall A B (m : gen A) (k : A -> gen B) v a i l v1 b j n v', m v = Ok (a, (i, l), v1) -> gbind m k v = Ok (b, (j, n), v') ->
  exists i' l', k a v1 = Ok (b, (i', l'), v') /\ j = i ++ i' /\ n = l ++ l'.
Proof.
  intros A B m k v a i l v1 b0 j n v0 Hm H. unfold gbind in H. rewrite Hm in H. cbn [bind] in H. apply bind_inv in H. destruct H as (((b & i' & l') & v') & Hk & H). apply Ok_inj in H. injection H as <- <- <- <-. exists i', l'. auto.
Qed.
Lemma build_outs : forall ts inv lines v t, forallb (fun s => negb (is_out s)) lines = true -> ((exists o, In (SOut o t) (build ts inv lines v)) <-> In t ts).
Proof.
  intros ts inv lines v t H3. unfold build. split.
  - intros (o & Ho). rewrite !in_app_iff in Ho. destruct Ho as [Ho|[Ho|[Ho|Ho]]].
    + apply in_map_iff in Ho. destruct Ho as (x & Q & _). discriminate Q.
    + apply in_map_iff in Ho. destruct Ho as ((x & y) & Q & _). discriminate Q.
    + rewrite forallb_forall in H3. specialize (H3 _ Ho). discriminate H3.
    + apply in_map_iff in Ho. destruct Ho as ((x & y) & Q & Ho). injection Q as -> ->. exact (in_combine_l _ _ _ _ Ho).
  - intros Ht. apply In_nth_error in Ht. destruct Ht as (k & Hk). exists (v + Z.of_nat k). rewrite !in_app_iff. right; right; right. apply in_map_iff. exists (t, v + Z.of_nat k). split; [reflexivity|].
    assert (L : forall (a : list Z) b k, nth_error a k = Some t -> In (t, b + Z.of_nat k) (combine a (zrange b (length a)))).
    { induction a as [|x a IH]; intros b j Hj; [destruct j; discriminate Hj|]. cbn [length zrange combine]. destruct j as [|j]; [injection Hj as ->; left; f_equal; lia|]. right. replace (b + Z.of_nat (S j)) with (b + 1 + Z.of_nat j) by lia. apply IH. exact Hj. }
    apply L. exact Hk.
Qed.
Lemma sha_program_run : forall ts inv lines v, sha_run = Ok (ts, (inv, lines), v) -> sha_program = Ok (build ts inv lines v).
Proof. intros ts inv lines v H. unfold sha_program. rewrite H. reflexivity. Qed.
Lemma sha_run_eq : gbind block_ins (fun I => block_tests I) 34 = sha_run.
Proof. exact (@eq_refl _ (gbind block_ins (fun I => block_tests I) 34)). Qed.
Lemma sha_shape : exists p m ts i lines v, sha_program = Ok p /\ checked 9 p m 58034 /\ inputs p = zrange 0 (Z.to_nat 7226) /\
  block_tests I0 7226 = Ok (ts, (i, lines), v) /\ (forall s, In s lines -> In s p) /\ (forall t, (exists o, In (SOut o t) p) <-> In t ts).
Proof.
  destruct (fact_ok _ sha_fact_ok) as (ts & inv & lines & v & m & ER & EC & IN & NO).
  rewrite <- sha_run_eq in ER. destruct (gbind_second _ _ block_ins (fun I => block_tests I) 34 _ _ _ _ _ _ _ _ block_ins_eq ER) as (i & l & EB & _ & Q). cbn [app] in Q. subst l.
  exists (build ts inv lines v), m, ts, i, lines, v. rewrite sha_run_eq in ER. split; [exact (sha_program_run _ _ _ _ ER)|]. split; [exact (check_ok _ _ _ _ EC)|]. split; [exact IN|]. split; [exact EB|]. split.
  - intros s Hs. unfold build. rewrite !in_app_iff. auto.
  - intros t. apply build_outs. exact NO.
Qed.
Lemma in_range : forall n a x, In x (zrange a n) <-> a <= x < a + Z.of_nat n.
Proof. induction n as [|n IH]; intros a x; cbn [zrange In]; [lia|]. rewrite IH. lia. Qed.
Lemma range_map : forall n a, zrange a n = map (fun j => a + Z.of_nat j) (seq 0 n).
Proof.
  intros n. induction n as [|n IH]; intros a; [reflexivity|]. cbn [zrange seq map]. f_equal; [lia|]. rewrite IH, <- seq_shift, map_map. apply map_ext. intros j. lia.
Qed.

Lemma range_at : forall n a i, (i < n)%nat -> nth_error (zrange a n) i = Some (a + Z.of_nat i).
Proof.
  induction n as [|n IH]; intros a i Hi; [lia|]. cbn [zrange]. destruct i as [|i]; cbn [nth_error]; [f_equal; lia|]. rewrite IH by lia. f_equal. lia.
Qed.

(** ** Soundness *)
Lemma numbers_map : forall val a n, numbers val a n = map (fun i => fz (val (a + Z.of_nat i))) (seq 0 n).
Proof. intros val a n. reflexivity. Qed.
Lemma X_bounded : forall val, bounded (X_of val).
Proof.
  intros val. assert (L : forall l n, length l = n -> 0 <= num val l < 2 ^ Z.of_nat n).
  { intros l n <-. unfold num. pose proof (znum_range (bits val l)) as Q. unfold bits in Q at 3. rewrite map_length in Q. exact Q. }
  assert (LN : forall ll i n, (i < length ll)%nat -> Forall (fun l => length l = n) ll -> length (nth i ll ([] : list Z)) = n).
  { intros ll i n Hi H. rewrite Forall_forall in H. apply H, nth_In, Hi. }
  constructor.
  - intros i Hi. destruct (nth_error (i_Wb I0) (i - 1)) as [l|] eqn:E.
    + cbn [X_of wbz]. rewrite (nth_error_nth _ _ [] E). pose proof (L l _ (Wb_length (i - 1) l E)) as Q. destruct (i - 1 <? 15)%nat; [|exact Q]. change (2 ^ Z.of_nat 32) with (2 ^ 32) in Q. lia.
    + apply nth_error_None in E. change (length (i_Wb I0)) with 63%nat in E. lia.
  - intros i Hi. apply (L _ 33%nat), LN; [exact Hi|]. repeat constructor.
  - apply (L (i_a I0) 32%nat). reflexivity.
  - apply (L (i_b I0) 32%nat). reflexivity.
  - apply (L (i_c I0) 32%nat). reflexivity.
  - apply (L (i_e I0) 32%nat). reflexivity.
  - apply (L (i_f I0) 32%nat). reflexivity.
  - apply (L (i_g I0) 32%nat). reflexivity.
  - intros i Hi. apply (L _ 35%nat), LN; [exact Hi|]. repeat constructor.
  - intros i Hi. apply (L _ 35%nat), LN; [exact Hi|]. repeat constructor.
  - intros i. apply fz_range.
  - intros i. apply fz_range.
  - intros i. apply fz_range.
Qed.
Lemma Forall_map_seq : forall (C : Z -> Prop) f n, (forall i, (i < n)%nat -> C (f i)) -> Forall C (map f (seq 0 n)).
Proof. intros C f n H. apply Forall_forall. intros x Hx. apply in_map_iff in Hx. destruct Hx as (i & <- & Hi). apply in_seq in Hi. apply H. lia. Qed.
Lemma map_seq_Forall : forall (C : Z -> Prop) f n, Forall C (map f (seq 0 n)) -> forall i, (i < n)%nat -> C (f i).
Proof. intros C f n H i Hi. rewrite Forall_forall in H. apply H, in_map, in_seq. lia. Qed.
Lemma sha_sound : forall p val, sha_program = Ok p -> (forall s, In s p -> holds val s) -> val 0 = 0%F -> (forall o t, In (SOut o t) p -> val t = 0%F) ->
  Forall word (numbers val 2210 64) -> word (fz (val 34)) -> word (fz (val 2277)) -> word (fz (val 2281)) ->
  Forall word (numbers val 34 16) /\ Forall word (numbers val 2274 8) /\ numbers val 2282 8 = compress (numbers val 2210 64) (numbers val 2274 8) (numbers val 34 16).
Proof.
  intros p val EP HS V0 HZ KW W0 H3 H7. destruct sha_shape as (p' & m & ts & i & lines & v & EP' & _ & _ & EB & HL & HT). rewrite EP' in EP. apply Ok_inj in EP. subst p'.
  assert (LH : forall s, In s lines -> holds val s) by (intros s Hs; apply HS, HL, Hs).
  assert (Z : zeros val ts). { apply Forall_forall. intros t Ht. apply HT in Ht. destruct Ht as (o & Ho). exact (HZ o t Ho). }
  pose proof (block_isbits val _ _ _ _ _ EB LH Z) as BI. pose proof (reads_X val BI) as RX. pose proof (tri_block val V0 (X_of val) RX _ _ _ _ _ EB LH) as Q. apply Q in Z.
  rewrite numbers_map in KW. rewrite !numbers_map.
  destruct (eqs_sound (X_of val) (X_bounded val) Z (map_seq_Forall _ _ _ KW) W0 H3 H7) as (E1 & E2 & E3 & E4 & E5 & E6).
  split; [|split].
  - apply Forall_map_seq. intros j Hj. apply (E1 j). lia.
  - apply Forall_map_seq. exact E2.
  - pose proof (compress_map (X_of val) E3 E4 E5) as Q'. change (map (fun j => fz (val (2210 + Z.of_nat j))) (seq 0 64)) with (map (kz (X_of val)) (seq 0 64)).
    change (map (fun j => fz (val (2274 + Z.of_nat j))) (seq 0 8)) with (map (hz (X_of val)) (seq 0 8)). change (map (fun j => fz (val (34 + Z.of_nat j))) (seq 0 16)) with (map (wz (X_of val)) (seq 0 16)).
    rewrite Q'. change (map (fun j => fz (val (2282 + Z.of_nat j))) (seq 0 8)) with (map (oz (X_of val)) (seq 0 8)). apply map_ext_in. intros j Hj. apply in_seq in Hj. apply E6. lia.
Qed.

(** ** Completeness *)
Section Honest.
Context (K H M : list Z) (e : Z).
Context (LK : length K = 64%nat) (LH : length H = 8%nat) (LM : length M = 16%nat) (WK : Forall word K) (WH : Forall word H) (WM : Forall word M).
Definition hk (i : nat) : Z := nth i K 0.
Definition hh (i : nat) : Z := nth i H 0.
Definition hw (i : nat) : Z := nth i (message_schedule M) 0.
(** W_0 may be one of two numbers. *)
Definition hw' (i : nat) : Z := match i with O => hw 0 + e * 2 ^ 32 | _ => hw i end.
Fixpoint hs (r : nat) : vars := match r with O => vars_of H | S r' => sha_round (hs r') (hk r') (hw r') end.
Definition hsum (i : nat) : Z := hw' (i - 16) + hw' (i - 7) + (sigma0 (hw (i - 15)) + sigma1 (hw (i - 2))).
Definition hX : wit := Wit hw' (fun i => if (i <? 16)%nat then hw i else hsum i) hk hh (fun i => (nth i (list_of (hs 64)) 0 + hh i) mod 2 ^ 32) (fun i => nth i (list_of (hs 64)) 0 + hh i)
  (hh 0) (hh 1) (hh 2) (hh 4) (hh 5) (hh 6) (fun r => T1 (hs r) (hk r) (hw' r) + T2 (hs r)) (fun r => vd (hs r) + T1 (hs r) (hk r) (hw' r)).
Context (He : 0 <= e <= 1) (Hfit : hsum 16 < 2 ^ 34).
Lemma extend_length : forall n W, length (extend n W) = (length W + n)%nat.
Proof. induction n as [|n IH]; intros W; cbn [extend]; [lia|]. cbv zeta. rewrite IH, app_length. cbn [length]. lia. Qed.
Lemma extend_prefix : forall n W i, (i < length W)%nat -> nth i (extend n W) 0 = nth i W 0.
Proof. induction n as [|n IH]; intros W i Hi; cbn [extend]; [reflexivity|]. cbv zeta. rewrite IH by (rewrite app_length; cbn [length]; lia). apply app_nth1, Hi. Qed.
Lemma extend_nth : forall n W i, (16 <= length W)%nat -> (length W <= i < length W + n)%nat ->
  nth i (extend n W) 0 = (nth (i - 16) (extend n W) 0 + nth (i - 7) (extend n W) 0 + (sigma0 (nth (i - 15) (extend n W) 0) + sigma1 (nth (i - 2) (extend n W) 0))) mod 2 ^ 32.
Proof.
  induction n as [|n IH]; intros W i HW Hi; [lia|]. cbn [extend]. cbv zeta. set (x := (sigma1 _ + _ + _ + _) mod 2 ^ 32). destruct (Nat.eq_dec i (length W)) as [->|N].
  - rewrite !extend_prefix by (rewrite app_length; cbn [length]; lia). rewrite app_nth2, Nat.sub_diag by lia. cbn [nth]. rewrite !app_nth1 by lia. unfold x. f_equal. ring.
  - apply IH; rewrite app_length; cbn [length]; lia.
Qed.
Lemma hw_next : forall i, (16 <= i < 64)%nat -> hw i = (hw (i - 16) + hw (i - 7) + (sigma0 (hw (i - 15)) + sigma1 (hw (i - 2)))) mod 2 ^ 32.
Proof. intros i Hi. apply extend_nth; rewrite LM; lia. Qed.
Lemma hw_word : forall i, (i < 64)%nat -> word (hw i).
Proof.
  intros i Hi. destruct (Nat.lt_ge_cases i 16) as [Q|Q].
  - unfold hw, message_schedule. rewrite extend_prefix by (rewrite LM; exact Q). rewrite Forall_forall in WM. apply WM, nth_In. rewrite LM. exact Q.
  - rewrite hw_next by lia. apply mod_word.
Qed.
Lemma hk_word : forall i, (i < 64)%nat -> word (hk i).
Proof. intros i Hi. rewrite Forall_forall in WK. apply WK, nth_In. rewrite LK. exact Hi. Qed.
Lemma hh_word : forall i, (i < 8)%nat -> word (hh i).
Proof. intros i Hi. rewrite Forall_forall in WH. apply WH, nth_In. rewrite LH. exact Hi. Qed.
Lemma hs_words : forall r, words (hs r).
Proof.
  induction r as [|r IH]; cbn [hs].
  - pose proof hh_word as Q. constructor; apply Q; lia.
  - destruct IH. constructor; cbn [sha_round va vb vc vd ve vf vg vh]; try assumption; apply mod_word.
Qed.
Lemma hw'_S : forall i, hw' (S i) = hw (S i).
Proof. intros i. unfold hw'. exact (@eq_refl _ (hw (S i))). Qed.
Lemma hw'_pos : forall i, (0 < i)%nat -> hw' i = hw i.
Proof. intros i Hi. destruct i as [|i]; [lia|apply hw'_S]. Qed.
Lemma hw'_mod : forall x i, (x + hw' i) mod 2 ^ 32 = (x + hw i) mod 2 ^ 32.
Proof. intros x i. destruct i as [|i]; [|rewrite hw'_S; reflexivity]. unfold hw'. rewrite Z.add_assoc, Z.mod_add by lia. reflexivity. Qed.
Lemma hw'_mid : forall x y i, (x + hw' i + y) mod 2 ^ 32 = (x + hw i + y) mod 2 ^ 32.
Proof. intros x y i. rewrite <- !Z.add_assoc, (Z.add_comm (hw' i)), (Z.add_comm (hw i)), !Z.add_assoc. apply hw'_mod. Qed.
Lemma hw'_range : forall i, (i < 64)%nat -> 0 <= hw' i < 2 ^ 33 /\ ((0 < i)%nat -> word (hw' i)).
Proof.
  intros i Hi. pose proof (hw_word i Hi) as Q. unfold word in *. change (2 ^ 33) with (2 * 2 ^ 32). destruct i as [|i]; cbn [hw']; [|split; [lia|intros _; exact Q]]. split; [|lia].
  assert (e * 2 ^ 32 <= 1 * 2 ^ 32) by (apply Z.mul_le_mono_nonneg_r; lia). lia.
Qed.
Lemma hsum_range : forall i, (16 <= i < 64)%nat -> 0 <= hsum i < 2 ^ 34.
Proof.
  intros i Hi. pose proof (sigma0_word _ (hw_word (i - 15) ltac:(lia))) as S0. pose proof (sigma1_word _ (hw_word (i - 2) ltac:(lia))) as S1.
  destruct (hw'_range (i - 16) ltac:(lia)) as (A & A'). destruct (hw'_range (i - 7) ltac:(lia)) as (B & B'). specialize (B' ltac:(lia)).
  destruct (Nat.eq_dec i 16) as [->|N].
  - split; [unfold hsum, word in *; lia|exact Hfit].
  - specialize (A' ltac:(lia)). unfold hsum, word in *. change (2 ^ 34) with (4 * 2 ^ 32). lia.
Qed.
Lemma hsum_mod : forall i, (16 <= i < 64)%nat -> hsum i mod 2 ^ 32 = hw i.
Proof.
  intros i Hi. rewrite hw_next by exact Hi. unfold hsum. rewrite <- Z.add_assoc, Z.add_comm, hw'_mod.
  rewrite (hw'_pos (i - 7)) by lia. apply (f_equal (fun x => x mod 2 ^ 32)). clear. generalize (hw (i - 16)%nat) (hw (i - 7)%nat) (sigma0 (hw (i - 15)%nat)) (sigma1 (hw (i - 2)%nat)). intros. ring.
Qed.
Lemma hwb_mod : forall i, (1 <= i < 64)%nat -> wbz hX i mod 2 ^ 32 = hw i.
Proof.
  intros i Hi. cbn [hX wbz]. destruct (Nat.ltb_spec i 16) as [Q|Q]; [|apply hsum_mod; lia]. apply Z.mod_small. apply hw_word. lia.
Qed.
Lemma hst : forall r, (r <= 64)%nat -> st hX r = hs r.
Proof.
  induction r as [|r IH]; intros Hr; [reflexivity|]. cbn [st hs]. cbv zeta. rewrite IH by lia. cbn [hX aoz eoz]. unfold sha_round. f_equal; unfold T1.
  - apply hw'_mid.
  - rewrite !Z.add_assoc. apply hw'_mod.
Qed.
Lemma heqs : eqs hX.
Proof.
  assert (Z : forall x y, x = y -> zero (x - y)) by (intros x y ->; unfold zero; rewrite Z.sub_diag; reflexivity).
  unfold eqs. split; [|split; [|split; [|split; [|split]]]].
  - apply Forall_forall. intros i Hi. apply in_seq in Hi. apply Z. rewrite hwb_mod by lia. cbn [hX wz]. symmetry. apply hw'_pos. lia.
  - repeat split; apply Z; reflexivity.
  - apply Forall_forall. intros i Hi. apply Z. reflexivity.
  - apply Forall_forall. intros i Hi. apply in_seq in Hi. apply Z. unfold sched. rewrite !hwb_mod by lia. cbn [hX wbz wz]. destruct (Nat.ltb_spec i 16) as [Q|Q]; [lia|]. reflexivity.
  - apply Forall_forall. intros r Hr. apply in_seq in Hr. split; apply Z; rewrite hst by lia; reflexivity.
  - apply Forall_forall. intros i Hi. apply Z. rewrite hst by lia. reflexivity.
Qed.
Lemma hcompress : map (oz hX) (seq 0 8) = compress K H M.
Proof.
  assert (EM : M = map hw (seq 0 16)).
  { apply nth_ext with (d := 0) (d' := hw 0); [rewrite map_length, seq_length; exact LM|]. intros i Hi. rewrite LM in Hi. rewrite map_nth, seq_nth by exact Hi. unfold hw, message_schedule. rewrite extend_prefix by (rewrite LM; exact Hi). reflexivity. }
  unfold compress. assert (MS : message_schedule M = map hw (seq 0 64)).
  { rewrite EM at 1. unfold message_schedule. apply (extend_map hw 48 16); [lia|]. intros r Hr. apply hw_next. lia. }
  rewrite MS. assert (EK : K = map hk (seq 0 64)).
  { apply nth_ext with (d := 0) (d' := hk 0); [rewrite map_length, seq_length; exact LK|]. intros i Hi. rewrite LK in Hi. rewrite map_nth, seq_nth by exact Hi. reflexivity. }
  rewrite EK at 1. change (vars_of H) with (hs 0). rewrite (rounds_map hs hk hw 64 0) by reflexivity. change (0 + 64)%nat with 64%nat.
  assert (EH : H = map hh (seq 0 8)).
  { apply nth_ext with (d := 0) (d' := hh 0); [rewrite map_length, seq_length; exact LH|]. intros i Hi. rewrite LH in Hi. rewrite map_nth, seq_nth by exact Hi. reflexivity. }
  rewrite EH at 1. unfold hX, oz. generalize (hs 64). intros s. unfold list_of. cbn [seq map nth combine]. reflexivity.
Qed.

(** The inputs *)
Definition bitF (x j : Z) : F := ind (Z.testbit x j).
Definition hin (cst : Z -> F) (v : Z) : F :=
  if v <? 34 then cst v
  else if v <? 98 then ofZ (wz hX (Z.to_nat (v - 34)))
  else if v <? 578 then bitF (wbz hX (S (Z.to_nat ((v - 98) / 32)))) ((v - 98) mod 32)
  else if v <? 2210 then bitF (wbz hX (S (15 + Z.to_nat ((v - 578) / 34)))) ((v - 578) mod 34)
  else if v <? 2274 then ofZ (kz hX (Z.to_nat (v - 2210)))
  else if v <? 2282 then ofZ (hz hX (Z.to_nat (v - 2274)))
  else if v <? 2290 then ofZ (oz hX (Z.to_nat (v - 2282)))
  else if v <? 2554 then bitF (hbz hX (Z.to_nat ((v - 2290) / 33))) ((v - 2290) mod 33)
  else if v <? 2586 then bitF (az hX) (v - 2554)
  else if v <? 2618 then bitF (bz hX) (v - 2586)
  else if v <? 2650 then bitF (cz hX) (v - 2618)
  else if v <? 2682 then bitF (ez hX) (v - 2650)
  else if v <? 2714 then bitF (fz' hX) (v - 2682)
  else if v <? 2746 then bitF (gz hX) (v - 2714)
  else if v <? 4986 then bitF (aoz hX (Z.to_nat ((v - 2746) / 35))) ((v - 2746) mod 35)
  else bitF (eoz hX (Z.to_nat ((v - 4986) / 35))) ((v - 4986) mod 35).
Lemma bits_in : forall val a n x, 0 <= x < 2 ^ Z.of_nat n -> (forall j, (j < n)%nat -> val (a + Z.of_nat j) = bitF x (Z.of_nat j)) -> bitsn val n (zrange a n) x.
Proof.
  intros val a n x Hx Hv. exists (zbits n x). split; [|split; [apply zbits_length|apply zbits_num, Hx]]. unfold bitv, zbits. rewrite range_map, !map_map. apply map_ext_in. intros j Hj. apply in_seq in Hj. apply Hv. lia.
Qed.
Lemma div_at : forall m i j, (j < m)%nat -> (Z.of_nat m * Z.of_nat i + Z.of_nat j) / Z.of_nat m = Z.of_nat i.
Proof. intros m i j Hj. symmetry. apply (Z.div_unique _ _ _ (Z.of_nat j)); lia. Qed.
Lemma mod_at : forall m i j, (j < m)%nat -> (Z.of_nat m * Z.of_nat i + Z.of_nat j) mod Z.of_nat m = Z.of_nat j.
Proof. intros m i j Hj. symmetry. apply (Z.mod_unique _ _ (Z.of_nat i)); lia. Qed.
Ltac pick := unfold hin; repeat match goal with |- context [?x <? ?y] => first [rewrite (proj2 (Z.ltb_lt x y)) by lia | rewrite (proj2 (Z.ltb_ge x y)) by lia] end; cbv beta iota.
Ltac pick_div m i j := match goal with |- context [?u / Z.of_nat m] => replace u with (Z.of_nat m * Z.of_nat i + Z.of_nat j) by lia end.
Lemma wb_range : forall i, (1 <= i < 64)%nat -> 0 <= wbz hX i < (if (i <=? 15)%nat then 2 ^ 32 else 2 ^ 34).
Proof.
  intros i Hi. cbn [hX wbz]. destruct (Nat.ltb_spec i 16) as [Q|Q].
  - destruct (Nat.leb_spec i 15) as [Q'|Q']; [|lia]. apply hw_word. lia.
  - destruct (Nat.leb_spec i 15) as [Q'|Q']; [lia|]. apply hsum_range. lia.
Qed.
Lemma ae_range : forall r, (r < 64)%nat -> 0 <= aoz hX r < 2 ^ 35 /\ 0 <= eoz hX r < 2 ^ 35.
Proof.
  intros r Hr. cbn [hX aoz eoz]. destruct (hs_words r) as [A B C D E F' G Hh]. unfold T1, T2. pose proof (Sigma0_word _ A) as S0. pose proof (Sigma1_word _ E) as S1. pose proof (Maj_word _ _ _ A B C) as Mj. pose proof (Ch_word _ _ _ E F' G) as C'.
  pose proof (hk_word r Hr) as Kr. destruct (hw'_range r Hr) as (W & _). unfold word in *. change (2 ^ 35) with (8 * 2 ^ 32). change (2 ^ 33) with (2 * 2 ^ 32) in W. lia.
Qed.
Lemma hb_range : forall i, (i < 8)%nat -> 0 <= hbz hX i < 2 ^ 33.
Proof.
  intros i Hi. cbn [hX hbz]. pose proof (hh_word i Hi) as Q. assert (N : word (nth i (list_of (hs 64)) 0)).
  { destruct (hs_words 64). unfold list_of. do 8 (destruct i as [|i]; [assumption|]). lia. }
  unfold word in *. change (2 ^ 33) with (2 * 2 ^ 32). lia.
Qed.
Lemma hreads : forall val cst, (forall v, 0 <= v < 7226 -> val v = hin cst v) -> reads val I0 hX.
Proof.
  intros val cst HV. pose proof hh_word as HW.
  constructor; cbn [I0 i_W i_Wb i_K i_H i_Ho i_Hb i_a i_b i_c i_e i_f i_g i_ao i_eo].
  - intros i x Hx. apply nth_range in Hx. destruct Hx as (Hi & ->). rewrite HV by lia. pick. do 2 f_equal. lia.
  - intros i l Hl. destruct (Nat.ltb_spec i 15) as [Q|Q].
    + rewrite nth_error_app1 in Hl by exact Q. apply nth_ranges in Hl. destruct Hl as (Hi & ->). apply bits_in; [pose proof (wb_range (S i) ltac:(lia)) as R; destruct (Nat.leb_spec (S i) 15); [exact R|lia]|].
      intros j Hj. rewrite HV by lia. pick. change 32 with (Z.of_nat 32). replace (98 + Z.of_nat 32 * Z.of_nat i + Z.of_nat j - 98) with (Z.of_nat 32 * Z.of_nat i + Z.of_nat j) by lia.
      rewrite div_at, mod_at, Nat2Z.id by exact Hj. reflexivity.
    + rewrite nth_error_app2 in Hl by exact Q. change (length (ranges 98 15 32)) with 15%nat in Hl. apply nth_ranges in Hl. destruct Hl as (Hi & ->).
      apply bits_in; [pose proof (wb_range (S i) ltac:(lia)) as R; destruct (Nat.leb_spec (S i) 15); [lia|exact R]|].
      intros j Hj. rewrite HV by lia. pick. change 34 with (Z.of_nat 34). replace (578 + Z.of_nat 34 * Z.of_nat (i - 15) + Z.of_nat j - 578) with (Z.of_nat 34 * Z.of_nat (i - 15) + Z.of_nat j) by lia.
      rewrite div_at, mod_at, Nat2Z.id by exact Hj. replace (15 + (i - 15))%nat with i by lia. reflexivity.
  - intros i x Hx. apply nth_range in Hx. destruct Hx as (Hi & ->). rewrite HV by lia. pick. do 2 f_equal. lia.
  - intros i x Hx. apply nth_range in Hx. destruct Hx as (Hi & ->). rewrite HV by lia. pick. do 2 f_equal. lia.
  - intros i x Hx. apply nth_range in Hx. destruct Hx as (Hi & ->). rewrite HV by lia. pick. do 2 f_equal. lia.
  - intros i l Hl. apply nth_ranges in Hl. destruct Hl as (Hi & ->). apply bits_in; [apply hb_range, Hi|].
    intros j Hj. rewrite HV by lia. pick. change 33 with (Z.of_nat 33). replace (2290 + Z.of_nat 33 * Z.of_nat i + Z.of_nat j - 2290) with (Z.of_nat 33 * Z.of_nat i + Z.of_nat j) by lia.
    rewrite div_at, mod_at, Nat2Z.id by exact Hj. reflexivity.
  - apply bits_in; [apply HW; lia|]. intros j Hj. rewrite HV by lia. pick. f_equal. lia.
  - apply bits_in; [apply HW; lia|]. intros j Hj. rewrite HV by lia. pick. f_equal. lia.
  - apply bits_in; [apply HW; lia|]. intros j Hj. rewrite HV by lia. pick. f_equal. lia.
  - apply bits_in; [apply HW; lia|]. intros j Hj. rewrite HV by lia. pick. f_equal. lia.
  - apply bits_in; [apply HW; lia|]. intros j Hj. rewrite HV by lia. pick. f_equal. lia.
  - apply bits_in; [apply HW; lia|]. intros j Hj. rewrite HV by lia. pick. f_equal. lia.
  - intros i l Hl. apply nth_ranges in Hl. destruct Hl as (Hi & ->). apply bits_in; [apply ae_range, Hi|].
    intros j Hj. rewrite HV by lia. pick. change 35 with (Z.of_nat 35). replace (2746 + Z.of_nat 35 * Z.of_nat i + Z.of_nat j - 2746) with (Z.of_nat 35 * Z.of_nat i + Z.of_nat j) by lia.
    rewrite div_at, mod_at, Nat2Z.id by exact Hj. reflexivity.
  - intros i l Hl. apply nth_ranges in Hl. destruct Hl as (Hi & ->). apply bits_in; [apply ae_range, Hi|].
    intros j Hj. rewrite HV by lia. pick. change 35 with (Z.of_nat 35). replace (4986 + Z.of_nat 35 * Z.of_nat i + Z.of_nat j - 4986) with (Z.of_nat 35 * Z.of_nat i + Z.of_nat j) by lia.
    rewrite div_at, mod_at, Nat2Z.id by exact Hj. reflexivity.
Qed.
Lemma honest_val : forall p val cst, sha_program = Ok p -> (forall s, In s p -> holds val s) -> cst 0 = 0%F -> (forall u, 0 <= u < 7226 -> val u = hin cst u) ->
  (forall o t, In (SOut o t) p -> val t = 0%F) /\
  numbers val 2210 64 = K /\ numbers val 2274 8 = H /\ numbers val 34 16 = (nth 0 M 0 + e * 2 ^ 32) :: tl M /\ numbers val 2282 8 = compress K H M.
Proof.
  intros p val cst EP HS C0 HV. destruct sha_shape as (p' & m & ts & i & lines & v & EP' & CK & IN & EB & HL & HT). rewrite EP' in EP. apply Ok_inj in EP. subst p'.
  assert (V0 : val 0 = 0%F) by (rewrite HV by lia; exact C0).
  pose proof (hreads val _ HV) as RX. split.
  - intros o t Ho. assert (Z : zeros val ts). { apply (tri_block val V0 hX RX _ _ _ _ _ EB); [intros s Hs; apply HS, HL, Hs|exact heqs]. }
    unfold zeros in Z. rewrite Forall_forall in Z. apply Z, HT. exists o. exact Ho.
  - rewrite !numbers_map. pose proof P_40 as PB. assert (WP : forall x, 0 <= x < 2 ^ 33 -> fz (ofZ x) = x) by (intros x Hx; apply fz_ofZ_small; lia).
    assert (WW : forall x, word x -> fz (ofZ x) = x) by (intros x Hx; apply WP; unfold word in Hx; lia).
    split; [|split; [|split]].
    + transitivity (map hk (seq 0 64)).
      * apply map_ext_in. intros j Hj. apply in_seq in Hj. rewrite (rd_K _ _ _ RX j); [apply WW, hk_word; lia|]. cbn [I0 i_K]. apply range_at. lia.
      * symmetry. apply nth_ext with (d := 0) (d' := hk 0); [rewrite map_length, seq_length; exact LK|]. intros j Hj. rewrite LK in Hj. rewrite map_nth, seq_nth by exact Hj. reflexivity.
    + transitivity (map hh (seq 0 8)).
      * apply map_ext_in. intros j Hj. apply in_seq in Hj. rewrite (rd_H _ _ _ RX j); [apply WW, hh_word; lia|]. cbn [I0 i_H]. apply range_at. lia.
      * symmetry. apply nth_ext with (d := 0) (d' := hh 0); [rewrite map_length, seq_length; exact LH|]. intros j Hj. rewrite LH in Hj. rewrite map_nth, seq_nth by exact Hj. reflexivity.
    + transitivity (map hw' (seq 0 16)).
      * apply map_ext_in. intros j Hj. apply in_seq in Hj. rewrite (rd_W _ _ _ RX j); [apply WP, hw'_range; lia|]. cbn [I0 i_W]. apply range_at. lia.
      * assert (EM : M = map hw (seq 0 16)).
        { apply nth_ext with (d := 0) (d' := hw 0); [rewrite map_length, seq_length; exact LM|]. intros j Hj. rewrite LM in Hj. rewrite map_nth, seq_nth by exact Hj. unfold hw, message_schedule. rewrite extend_prefix by (rewrite LM; exact Hj). reflexivity. }
        replace (nth 0 M 0) with (hw 0) by (unfold hw, message_schedule; rewrite extend_prefix by (rewrite LM; lia); reflexivity). rewrite EM at 1. change (seq 0 16) with (0%nat :: seq 1 15). cbn [map tl]. unfold hw' at 1. apply (f_equal (cons _)). apply map_ext_in. intros j Hj. apply in_seq in Hj. apply hw'_pos. lia.
    + rewrite <- hcompress. apply map_ext_in. intros j Hj. apply in_seq in Hj. rewrite (rd_Ho _ _ _ RX j); [apply WW, mod_word|]. cbn [I0 i_Ho]. apply range_at. lia.
Qed.
Lemma honest_run : forall p, sha_program = Ok p -> exists val, (forall s, In s p -> holds val s) /\ val 0 = 0%F /\ (forall o t, In (SOut o t) p -> val t = 0%F) /\
  numbers val 2210 64 = K /\ numbers val 2274 8 = H /\ numbers val 34 16 = (nth 0 M 0 + e * 2 ^ 32) :: tl M /\ numbers val 2282 8 = compress K H M.
Proof.
  intros p EP. destruct sha_shape as (p' & m & ts & i & lines & v & EP' & CK & IN & EB & HL & HT). assert (p' = p) by (rewrite EP' in EP; exact (Ok_inj _ _ _ EP)). subst p'.
  destruct (run_exists (hin (fun _ => 0%F)) p (proj1 (ck_ok _ _ _ _ CK)) (ck_ord _ _ _ _ CK)) as (val & HS & HI).
  assert (HV : forall u, 0 <= u < 7226 -> val u = hin (fun _ => 0%F) u).
  { intros u Hu. assert (Q : In u (inputs p)) by (rewrite IN; apply in_range; lia). apply in_flat_map in Q. destruct Q as (s & Hs & Q). destruct s as [| |t j| |]; cbn [input_var In] in Q; try contradiction. destruct Q as [->|[]]. exact (HI u j Hs). }
  exists val. split; [exact HS|]. split; [rewrite HV by lia; reflexivity|]. exact (honest_val p val (fun _ => 0%F) EP HS eq_refl HV).
Qed.
End Honest.
