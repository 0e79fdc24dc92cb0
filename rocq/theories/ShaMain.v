(** * What the program of one block checks *)
From Coq Require Import ZArith List Bool Arith Lia Ring.
From Verif Require Import Base Field FieldProofs Fp ArithProofs Program SpecCompiler SpecSha ShaBits ShaGen ShaSem ShaBlock LoaderProofs CompilerMaps.
Import ListNotations.
Open Scope Z_scope.

Lemma P_40 : 2 ^ 40 < P. Proof. vm_compute. reflexivity. Qed.
Lemma zero_eq : forall x y, 0 <= x < P -> 0 <= y < P -> (zero (x - y) <-> x = y).
Proof.
  intros x y Hx Hy. unfold zero. rewrite ofZ_sub. split.
  - intros H. assert (E : ofZ x = ofZ y) by (rewrite <- (Radd_0_l F_ring (ofZ y)), <- H; ring). rewrite <- (fz_ofZ_small x Hx), <- (fz_ofZ_small y Hy), E. reflexivity.
  - intros ->. ring.
Qed.
Lemma nth_range : forall n a i x, nth_error (zrange a n) i = Some x -> (i < n)%nat /\ x = a + Z.of_nat i.
Proof.
  induction n as [|n IH]; intros a i x H; [destruct i; discriminate H|]. cbn [zrange] in H. destruct i as [|i]; [injection H as <-; lia|]. cbn [nth_error] in H. apply IH in H. lia.
Qed.
Lemma nth_ranges : forall n a m i l, nth_error (ranges a n m) i = Some l -> (i < n)%nat /\ l = zrange (a + Z.of_nat m * Z.of_nat i) m.
Proof.
  intros n a m i l H. assert (Q : (i < n)%nat) by (rewrite <- (seq_length n 0), <- (map_length (fun i => zrange (a + Z.of_nat m * Z.of_nat i) m) (seq 0 n)); apply nth_error_Some; unfold ranges in H; congruence).
  split; [exact Q|]. unfold ranges in H. rewrite nth_error_map in H. replace (nth_error (seq 0 n) i) with (Some i) in H; [injection H as <-; reflexivity|].
  rewrite (nth_error_nth' _ O) by (rewrite seq_length; exact Q). rewrite seq_nth by exact Q. reflexivity.
Qed.
Lemma range_length : forall n a, length (zrange a n) = n.
Proof. induction n as [|n IH]; intros a; [reflexivity|]. cbn [zrange length]. rewrite IH. reflexivity. Qed.

Section Values.
Context (val : Z -> F).
Notation tri := (tri val).

(** ** Zero tests of bits *)
Definition isbits (l : list Z) : Prop := Forall (fun z => val z = 0%F \/ val z = 1%F) l.
Definition bits (l : list Z) : list bool := map (fun z => fz (val z) =? 1) l.
Lemma fz_one : fz 1%F = 1. Proof. change 1%F with (ofZ 1). apply fz_ofZ_small. pose proof P_40. lia. Qed.
Lemma bits_ok : forall l, isbits l -> bitv val l (bits l).
Proof.
  intros l H. unfold bitv, bits. rewrite map_map. apply map_ext_in. intros z Hz. unfold isbits in H. rewrite Forall_forall in H.
  destruct (H z Hz) as [E|E]; rewrite E; [reflexivity|]. rewrite fz_one. reflexivity.
Qed.
Lemma bitsn_bits : forall l, isbits l -> bitsn val (length l) l (znum (bits l)).
Proof. intros l H. exists (bits l). split; [exact (bits_ok l H)|]. split; [apply map_length|reflexivity]. Qed.
Lemma tri_True : forall A (m : gen A), tri m (fun _ => True).
Proof. intros A m v a i l v' _ _. exact I. Qed.
Lemma verify_isbits : forall l, tri (verify_bits l) (fun ts => zeros val ts -> isbits l).
Proof.
  intros l. unfold verify_bits. eapply tri_mono; [apply (tri_map val _ _ _ (fun x t => val t = (val x * (1 - val x))%F)); intros x _; apply tri_emit; intros t Ht; exact Ht|].
  intros ts H Z. unfold isbits, zeros in *. induction H as [|x t l ts Ht H IH]; [constructor|]. inversion Z as [|u v Z1 Z2]; subst. constructor; [|exact (IH Z2)].
  rewrite Ht in Z1. apply F_integral in Z1. destruct Z1 as [Z1|Z1]; [left; exact Z1|right]. transitivity (1 - (1 - val x))%F; [ring|]. rewrite Z1. ring.
Qed.
Lemma check_words_isbits : tri (check_words I0) (fun '(bt, rt) => zeros val bt -> forall l, In l (i_Wb I0) -> isbits l).
Proof.
  eapply tri_mono.
  - apply (tri_for val _ (fun r '(bt, rt) => zeros val bt -> forall j l, (j < r - 1)%nat -> nth_error (i_Wb I0) j = Some l -> isbits l)).
    + intros i (bt & rt) Hi H. eapply tri_bind; [apply tri_rd; intros l Hl; exact Hl|cbn beta]. intros l Hl. eapply tri_bind; [apply verify_isbits|cbn beta]. intros tmp Htmp.
      eapply tri_bind; [apply tri_True|]. intros w _. eapply tri_bind; [apply tri_True|]. intros t _. apply tri_ret. intros Z j l' Hj Hl'. apply zeros_app in Z. destruct Z as (Z1 & Z2).
      destruct (Nat.eq_dec j (i - 1)) as [->|N]; [rewrite Hl in Hl'; injection Hl' as <-; exact (Htmp Z2)|]. apply (H Z1 j l'); [lia|exact Hl'].
    + intros _ j l Hj. lia.
  - intros (bt & rt) H Z l Hl. apply In_nth_error in Hl. destruct Hl as (j & Hj). apply (H Z j l); [|exact Hj]. assert (Q : (j < length (i_Wb I0))%nat) by (apply nth_error_Some; congruence).
    change (length (i_Wb I0)) with 63%nat in Q. lia.
Qed.
Definition bit_inputs : list (list Z) := i_Wb I0 ++ i_Hb I0 ++ [i_a I0; i_b I0; i_c I0; i_e I0; i_f I0; i_g I0] ++ i_ao I0 ++ i_eo I0.
Lemma block_isbits : tri (block_tests I0) (fun ts => zeros val ts -> forall l, In l bit_inputs -> isbits l).
Proof.
  unfold block_tests. do 8 (eapply tri_bind; [apply tri_True|]; intros ? _). eapply tri_bind; [apply check_words_isbits|]. intros (bt1 & rt1) B1.
  eapply (tri_bind _ _ _ _ _ (fun bt => zeros val bt -> forall l, In l (i_Hb I0 ++ [i_a I0; i_b I0; i_c I0; i_e I0; i_f I0; i_g I0] ++ i_ao I0 ++ i_eo I0) -> isbits l)).
  - unfold check_bits. eapply tri_bind; [apply (tri_map val _ _ _ (fun l ts => zeros val ts -> isbits l)); intros l _; apply verify_isbits|]. intros ls H. apply tri_ret.
    generalize dependent (i_Hb I0 ++ [i_a I0; i_b I0; i_c I0; i_e I0; i_f I0; i_g I0] ++ i_ao I0 ++ i_eo I0). intros ll H. induction H as [|x y l l' Hy H IH]; intros Z z Hz; [contradiction|].
    cbn [concat] in Z. apply zeros_app in Z. destruct Z as (Z1 & Z2). destruct Hz as [<-|Hz]; [exact (Hy Z1)|exact (IH Z2 z Hz)].
  - intros bt2 B2. do 3 (eapply tri_bind; [apply tri_True|]; intros ? _). eapply tri_bind; [apply tri_True|]. intros (s & rt5) _. eapply tri_bind; [apply tri_True|]. intros rt6 _. apply tri_ret.
    intros Z l Hl. rewrite !zeros_app in Z. destruct Z as (_ & Z1 & Z2). unfold bit_inputs in Hl. apply in_app_iff in Hl. destruct Hl as [Hl|Hl]; [exact (B1 Z1 l Hl)|exact (B2 Z2 l Hl)].
Qed.

(** ** The numbers of the inputs *)
Definition num (l : list Z) : Z := znum (bits l).
Definition X_of : wit := Wit (fun i => fz (val (34 + Z.of_nat i))) (fun i => num (nth (i - 1) (i_Wb I0) [])) (fun i => fz (val (2210 + Z.of_nat i)))
  (fun i => fz (val (2274 + Z.of_nat i))) (fun i => fz (val (2282 + Z.of_nat i))) (fun i => num (nth i (i_Hb I0) []))
  (num (i_a I0)) (num (i_b I0)) (num (i_c I0)) (num (i_e I0)) (num (i_f I0)) (num (i_g I0)) (fun i => num (nth i (i_ao I0) [])) (fun i => num (nth i (i_eo I0) [])).
Lemma Wb_length : forall i l, nth_error (i_Wb I0) i = Some l -> length l = if (i <? 15)%nat then 32%nat else 34%nat.
Proof.
  intros i l H. unfold I0 in H. cbn [i_Wb] in H. destruct (Nat.ltb_spec i 15) as [Hi|Hi].
  - rewrite nth_error_app1 in H by exact Hi. apply nth_ranges in H. destruct H as (_ & ->). apply range_length.
  - rewrite nth_error_app2 in H by exact Hi. apply nth_ranges in H. destruct H as (_ & ->). apply range_length.
Qed.
Lemma reads_X : (forall l, In l bit_inputs -> isbits l) -> reads val I0 X_of.
Proof.
  intros H. unfold bit_inputs in H.
  assert (B : forall ll i l n, (forall l, In l ll -> isbits l) -> nth_error ll i = Some l -> length l = n -> bitsn val n l (num (nth i ll []))).
  { intros ll i l n Hb Hl <-. rewrite (nth_error_nth _ _ [] Hl). apply bitsn_bits, Hb. exact (nth_error_In _ _ Hl). }
  constructor.
  - intros i x Hx. apply nth_range in Hx. destruct Hx as (_ & ->). symmetry. apply ofZ_fz.
  - intros i l Hl. cbn [X_of wbz]. replace (S i - 1)%nat with i by lia. apply B; [|exact Hl|exact (Wb_length i l Hl)]. intros z Hz. apply H, in_app_iff. left. exact Hz.
  - intros i x Hx. apply nth_range in Hx. destruct Hx as (_ & ->). symmetry. apply ofZ_fz.
  - intros i x Hx. apply nth_range in Hx. destruct Hx as (_ & ->). symmetry. apply ofZ_fz.
  - intros i x Hx. apply nth_range in Hx. destruct Hx as (_ & ->). symmetry. apply ofZ_fz.
  - intros i l Hl. cbn [X_of hbz]. apply B; [|exact Hl|apply nth_ranges in Hl; destruct Hl as (_ & ->); apply range_length]. intros z Hz. apply H. rewrite !in_app_iff. tauto.
  - apply (bitsn_bits (i_a I0)), H. rewrite !in_app_iff. right; right; left. cbn [In]. tauto.
  - apply (bitsn_bits (i_b I0)), H. rewrite !in_app_iff. right; right; left. cbn [In]. tauto.
  - apply (bitsn_bits (i_c I0)), H. rewrite !in_app_iff. right; right; left. cbn [In]. tauto.
  - apply (bitsn_bits (i_e I0)), H. rewrite !in_app_iff. right; right; left. cbn [In]. tauto.
  - apply (bitsn_bits (i_f I0)), H. rewrite !in_app_iff. right; right; left. cbn [In]. tauto.
  - apply (bitsn_bits (i_g I0)), H. rewrite !in_app_iff. right; right; left. cbn [In]. tauto.
  - intros i l Hl. cbn [X_of aoz]. apply B; [|exact Hl|apply nth_ranges in Hl; destruct Hl as (_ & ->); apply range_length]. intros z Hz. apply H. rewrite !in_app_iff. tauto.
  - intros i l Hl. cbn [X_of eoz]. apply B; [|exact Hl|apply nth_ranges in Hl; destruct Hl as (_ & ->); apply range_length]. intros z Hz. apply H. rewrite !in_app_iff. tauto.
Qed.
End Values.

(** ** From the equations to SHA-256 *)
Record bounded (X : wit) : Prop := {
  bd_wb : forall i, (1 <= i < 64)%nat -> 0 <= wbz X i < 2 ^ 34; bd_hb : forall i, (i < 8)%nat -> 0 <= hbz X i < 2 ^ 33;
  bd_a : word (az X); bd_b : word (bz X); bd_c : word (cz X); bd_e : word (ez X); bd_f : word (fz' X); bd_g : word (gz X);
  bd_ao : forall r, (r < 64)%nat -> 0 <= aoz X r < 2 ^ 35; bd_eo : forall r, (r < 64)%nat -> 0 <= eoz X r < 2 ^ 35;
  bd_w : forall i, 0 <= wz X i < P; bd_h : forall i, 0 <= hz X i < P; bd_o : forall i, 0 <= oz X i < P }.
Record words (s : vars) : Prop := { w_a : word (va s); w_b : word (vb s); w_c : word (vc s); w_d : word (vd s); w_e : word (ve s); w_f : word (vf s); w_g : word (vg s); w_h : word (vh s) }.
Lemma st_words : forall X r, bounded X -> word (hz X 3) -> word (hz X 7) -> words (st X r).
Proof.
  intros X r B H3 H7. induction r as [|r IH]; cbn [st].
  - destruct B. constructor; assumption.
  - destruct IH. constructor; cbn [va vb vc vd ve vf vg vh]; try assumption; apply mod_word.
Qed.
Lemma sums_small : forall s k w, words s -> word k -> word w -> 0 <= T1 s k w + T2 s < P /\ 0 <= vd s + T1 s k w < P.
Proof.
  intros s k w [A B C D E F' G H] K W. unfold T1, T2. pose proof (Sigma0_word _ A) as S0. pose proof (Sigma1_word _ E) as S1. pose proof (Maj_word _ _ _ A B C) as M. pose proof (Ch_word _ _ _ E F' G) as C'.
  unfold word in *. pose proof P_40 as Q. change (2 ^ 40) with (256 * 2 ^ 32) in Q. lia.
Qed.
Lemma eqs_sound : forall X, bounded X -> eqs X -> (forall i, (i < 64)%nat -> word (kz X i)) -> word (wz X 0) -> word (hz X 3) -> word (hz X 7) ->
  (forall i, (i < 64)%nat -> word (wz X i)) /\ (forall i, (i < 8)%nat -> word (hz X i)) /\
  (forall r, (16 <= r < 64)%nat -> wz X r = (wz X (r - 16) + wz X (r - 7) + (sigma0 (wz X (r - 15)) + sigma1 (wz X (r - 2)))) mod 2 ^ 32) /\
  st X 0 = Vars (hz X 0) (hz X 1) (hz X 2) (hz X 3) (hz X 4) (hz X 5) (hz X 6) (hz X 7) /\
  (forall r, (r < 64)%nat -> st X (S r) = sha_round (st X r) (kz X r) (wz X r)) /\
  (forall i, (i < 8)%nat -> oz X i = (nth i (list_of (st X 64)) 0 + hz X i) mod 2 ^ 32).
Proof.
  intros X B (E1 & (Ea & Eb & Ec & Ee & Ef & Eg) & E3 & E4 & E5 & E6) KW W0 H3 H7. pose proof P_40 as PB.
  assert (WP : forall x, word x -> 0 <= x < P) by (unfold word; intros x Hx; change (2 ^ 40) with (256 * 2 ^ 32) in PB; lia).
  rewrite Forall_forall in E1, E3, E4, E5, E6.
  assert (W1 : forall i, (1 <= i < 64)%nat -> wbz X i mod 2 ^ 32 = wz X i).
  { intros i Hi. apply zero_eq; [apply WP, mod_word|apply (bd_w X B)|]. apply E1, in_seq. lia. }
  assert (WW : forall i, (i < 64)%nat -> word (wz X i)).
  { intros i Hi. destruct i as [|i]; [exact W0|]. rewrite <- W1 by lia. apply mod_word. }
  assert (A0 : az X = hz X 0) by (apply zero_eq; [apply WP, (bd_a X B)|apply (bd_h X B)|exact Ea]).
  assert (A1 : bz X = hz X 1) by (apply zero_eq; [apply WP, (bd_b X B)|apply (bd_h X B)|exact Eb]).
  assert (A2 : cz X = hz X 2) by (apply zero_eq; [apply WP, (bd_c X B)|apply (bd_h X B)|exact Ec]).
  assert (A4 : ez X = hz X 4) by (apply zero_eq; [apply WP, (bd_e X B)|apply (bd_h X B)|exact Ee]).
  assert (A5 : fz' X = hz X 5) by (apply zero_eq; [apply WP, (bd_f X B)|apply (bd_h X B)|exact Ef]).
  assert (A6 : gz X = hz X 6) by (apply zero_eq; [apply WP, (bd_g X B)|apply (bd_h X B)|exact Eg]).
  assert (HW : forall i, (i < 8)%nat -> word (hz X i)).
  { intros i Hi. destruct B as [_ _ Ba Bb Bc Be Bf Bg _ _ _ _ _]. do 8 (destruct i as [|i]; [congruence || assumption|]). lia. }
  split; [exact WW|]. split; [exact HW|]. split; [|split; [|split]].
  - intros r Hr. assert (Q : wbz X r = sched X r).
    { apply zero_eq; [pose proof (bd_wb X B r ltac:(lia)); lia| |apply E4, in_seq; lia]. unfold sched. rewrite !W1 by lia.
      pose proof (WW (r - 16)%nat ltac:(lia)). pose proof (WW (r - 7)%nat ltac:(lia)). pose proof (sigma0_word _ (WW (r - 15)%nat ltac:(lia))). pose proof (sigma1_word _ (WW (r - 2)%nat ltac:(lia))).
      unfold word in *. change (2 ^ 40) with (256 * 2 ^ 32) in PB. lia. }
    rewrite <- (W1 r) by lia. rewrite Q. unfold sched. rewrite !W1 by lia. reflexivity.
  - cbn [st]. congruence.
  - intros r Hr. destruct (E5 r ltac:(apply in_seq; lia)) as (Ra & Re). pose proof (st_words X r B H3 H7) as SW. destruct (sums_small _ _ _ SW (KW r Hr) (WW r Hr)) as (S1 & S2).
    apply zero_eq in Ra; [|pose proof (bd_ao X B r Hr); lia|exact S1]. apply zero_eq in Re; [|pose proof (bd_eo X B r Hr); lia|exact S2].
    cbn [st]. rewrite Ra, Re. reflexivity.
  - intros i Hi. pose proof (st_words X 64 B H3 H7) as SW. assert (N : word (nth i (list_of (st X 64)) 0)).
    { destruct SW. unfold list_of. do 8 (destruct i as [|i]; [assumption|]). lia. }
    assert (Q : hbz X i = nth i (list_of (st X 64)) 0 + hz X i).
    { apply zero_eq; [pose proof (bd_hb X B i Hi); lia| |apply E6, in_seq; lia]. pose proof (HW i Hi). unfold word in *. change (2 ^ 40) with (256 * 2 ^ 32) in PB. lia. }
    rewrite <- Q. symmetry. apply zero_eq; [apply WP, mod_word|apply (bd_o X B)|apply E3, in_seq; lia].
Qed.
Lemma extend_map : forall (w : nat -> Z) n t, (16 <= t)%nat ->
  (forall r, (t <= r < t + n)%nat -> w r = (w (r - 16)%nat + w (r - 7)%nat + (sigma0 (w (r - 15)%nat) + sigma1 (w (r - 2)%nat))) mod 2 ^ 32) ->
  extend n (map w (seq 0 t)) = map w (seq 0 (t + n)).
Proof.
  intros w. induction n as [|n IH]; intros t Ht H; cbn [extend]; [rewrite Nat.add_0_r; reflexivity|].
  rewrite map_length, seq_length. assert (N : forall i, (i < t)%nat -> nth i (map w (seq 0 t)) 0 = w i).
  { intros i Hi. rewrite (nth_indep _ 0 (w O)) by (rewrite map_length, seq_length; exact Hi). rewrite map_nth, seq_nth by exact Hi. reflexivity. }
  rewrite !N by lia. replace ((sigma1 (w (t - 2)%nat) + w (t - 7)%nat + sigma0 (w (t - 15)%nat) + w (t - 16)%nat) mod 2 ^ 32) with (w t).
  - replace (map w (seq 0 t) ++ [w t]) with (map w (seq 0 (S t))) by (rewrite seq_S, map_app; reflexivity). rewrite IH; [f_equal; f_equal; lia|lia|]. intros r Hr. apply H. lia.
  - rewrite H by lia. f_equal. ring.
Qed.
Lemma rounds_map : forall (S : nat -> vars) (k w : nat -> Z) n t, (forall r, (t <= r < t + n)%nat -> S (Datatypes.S r) = sha_round (S r) (k r) (w r)) ->
  sha_rounds (S t) (combine (map k (seq t n)) (map w (seq t n))) = S (t + n)%nat.
Proof.
  intros S k w. induction n as [|n IH]; intros t H; cbn [seq map combine sha_rounds]; [rewrite Nat.add_0_r; reflexivity|].
  rewrite <- H by lia. rewrite IH by (intros r Hr; apply H; lia). f_equal. lia.
Qed.
Lemma map_list8 : forall (h : nat -> Z), map h (seq 0 8) = [h 0%nat; h 1%nat; h 2%nat; h 3%nat; h 4%nat; h 5%nat; h 6%nat; h 7%nat].
Proof. reflexivity. Qed.
Lemma compress_map : forall X, 
  (forall r, (16 <= r < 64)%nat -> wz X r = (wz X (r - 16) + wz X (r - 7) + (sigma0 (wz X (r - 15)) + sigma1 (wz X (r - 2)))) mod 2 ^ 32) ->
  st X 0 = Vars (hz X 0) (hz X 1) (hz X 2) (hz X 3) (hz X 4) (hz X 5) (hz X 6) (hz X 7) ->
  (forall r, (r < 64)%nat -> st X (S r) = sha_round (st X r) (kz X r) (wz X r)) ->
  compress (map (kz X) (seq 0 64)) (map (hz X) (seq 0 8)) (map (wz X) (seq 0 16)) = map (fun i => (nth i (list_of (st X 64)) 0 + hz X i) mod 2 ^ 32) (seq 0 8).
Proof.
  intros X HWs H0 HR. unfold compress, message_schedule. rewrite (extend_map (wz X) 48 16); [|lia|intros r Hr; apply HWs; lia]. change (16 + 48)%nat with 64%nat.
  replace (vars_of (map (hz X) (seq 0 8))) with (st X 0) by (rewrite H0; reflexivity). rewrite (rounds_map (st X) (kz X) (wz X) 64 0) by (intros r Hr; apply HR; lia).
  change (0 + 64)%nat with 64%nat. reflexivity.
Qed.
