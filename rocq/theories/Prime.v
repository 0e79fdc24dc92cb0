(** * The modulus is prime (Pocklington certificate)

    Self-contained: the criterion is proved here from the standard library
    by counting powers; the certificate is checked by computation. *)
From Coq Require Import ZArith List Bool Lia Zpow_facts Znumtheory.
From Verif Require Import Limbs Field FieldProofs.
Import ListNotations.
Open Scope Z_scope.

Lemma NoDup_snoc : forall (A : Type) (l : list A) x, NoDup l -> ~ In x l -> NoDup (l ++ [x]).
Proof.
  induction l; simpl; intros x N I; [constructor; [intros []|constructor]|].
  inversion N; subst. constructor.
  - intro H. apply in_app_or in H. destruct H as [H|[H|[]]]; [contradiction|]. apply I. left. congruence.
  - apply IHl; [assumption|]. intro H. apply I. right; assumption.
Qed.

(** ** Pocklington's criterion *)
Section Pocklington.
  Variables n a : Z.
  Hypothesis Hn : 1 < n.
  Hypothesis Ha : a ^ (n - 1) mod n = 1.

  Lemma pow_mod_dvd : forall r, 0 < r -> (r | n) -> forall x y, x mod n = y mod n -> x mod r = y mod r.
  Proof.
    intros r Hr [k Hk] x y E.
    assert (D : (r | x - y)).
    { apply Z.divide_trans with n; [exists k; exact Hk|].
      apply Zmod_divide; [lia|]. rewrite Zminus_mod, E, Z.sub_diag. apply Z.mod_0_l; lia. }
    destruct D as [q Hq]. replace x with (y + q * r) by lia. apply Z.mod_add; lia.
  Qed.

  Lemma a_unit : forall r, 1 < r -> (r | n) -> a ^ (n - 1) mod r = 1.
  Proof.
    intros r Hr Hd. transitivity (1 mod r); [|apply Z.mod_small; lia].
    apply pow_mod_dvd; try lia; try assumption.
    rewrite Ha. symmetry. apply Z.mod_small; lia.
  Qed.

  (** Some power between 1 and [r-1] is 1 modulo [r]. *)
  Lemma order_exists : forall r, 1 < r -> (r | n) -> exists d, 1 <= d < r /\ a ^ d mod r = 1.
  Proof.
    intros r Hr Hd.
    (* powers a^0 .. a^(r-1), r values, all in [1, r-1] *)
    set (N := Z.to_nat r).
    set (l := map (fun i => a ^ (Z.of_nat i) mod r) (seq 0 N)).
    assert (Hin : incl l (map Z.of_nat (seq 1 (N - 1)))).
    { intros x Hx. unfold l in Hx. apply in_map_iff in Hx. destruct Hx as (i & <- & Hi).
      pose proof (Z.mod_pos_bound (a ^ Z.of_nat i) r ltac:(lia)) as B.
      assert (NZ : a ^ Z.of_nat i mod r <> 0).
      { intro E. pose proof (a_unit r Hr Hd) as U.
        (* a^(i * (n-1)) = 1, but also 0 *)
        assert (a ^ (Z.of_nat i * (n - 1)) mod r = 1).
        { rewrite Z.mul_comm, Z.pow_mul_r by lia. rewrite Zpower_mod by lia. rewrite U.
          rewrite Z.pow_1_l by lia. apply Z.mod_small; lia. }
        destruct (Z.eq_dec (Z.of_nat i) 0) as [I0|I0].
        - rewrite I0 in E. rewrite Z.pow_0_r, Z.mod_small in E by lia. lia.
        - rewrite Z.pow_mul_r, Zpower_mod, E in H by lia.
          rewrite Z.pow_0_l, Z.mod_0_l in H by lia. lia. }
      apply in_map_iff. exists (Z.to_nat (a ^ Z.of_nat i mod r)).
      split; [apply Z2Nat.id; lia|]. apply in_seq. lia. }
    assert (ND : ~ NoDup l).
    { intro ND. pose proof (NoDup_incl_length ND Hin) as L. unfold l in L.
      rewrite !map_length, !seq_length in L. lia. }
    (* two equal powers *)
    assert (EQ : exists i j, (i < j < N)%nat /\ a ^ Z.of_nat i mod r = a ^ Z.of_nat j mod r).
    { clear Hin. unfold l in ND.
      assert (G : forall k, (forall i j, (i < j < k)%nat -> a ^ Z.of_nat i mod r <> a ^ Z.of_nat j mod r) ->
                  NoDup (map (fun i => a ^ Z.of_nat i mod r) (seq 0 k))).
      { induction k; intro H; [constructor|].
        rewrite seq_S, map_app. simpl. apply NoDup_snoc; [apply IHk; intros; apply H; lia|].
        intro I. apply in_map_iff in I. destruct I as (i & E & I).
        apply in_seq in I. apply (H i k); [lia|assumption]. }
      assert (DEC : forall k, (exists i j, (i < j < k)%nat /\ a ^ Z.of_nat i mod r = a ^ Z.of_nat j mod r) \/
                 (forall i j, (i < j < k)%nat -> a ^ Z.of_nat i mod r <> a ^ Z.of_nat j mod r)).
      { induction k.
        - right. intros; lia.
        - destruct IHk as [(i & j & I & E)|H]; [left; exists i, j; split; [lia|assumption]|].
          assert (D2 : forall m, (exists i, (i < m)%nat /\ a ^ Z.of_nat i mod r = a ^ Z.of_nat k mod r) \/
                      (forall i, (i < m)%nat -> a ^ Z.of_nat i mod r <> a ^ Z.of_nat k mod r)).
          { induction m; [right; intros; lia|].
            destruct IHm as [(i & I & E)|M]; [left; exists i; split; [lia|assumption]|].
            destruct (Z.eq_dec (a ^ Z.of_nat m mod r) (a ^ Z.of_nat k mod r)) as [E|E].
            - left; exists m; split; [lia|assumption].
            - right. intros i I. destruct (Nat.eq_dec i m) as [->|]; [assumption|]. apply M; lia. }
          destruct (D2 k) as [(i & I & E)|M].
          + left. exists i, k. split; [lia|assumption].
          + right. intros i j I. destruct (Nat.eq_dec j k) as [->|]; [apply M; lia|apply H; lia]. }
      destruct (DEC N) as [E|E]; [exact E|]. exfalso. apply ND, G, E. }
    destruct EQ as (i & j & Hij & E).
    exists (Z.of_nat j - Z.of_nat i). split; [lia|].
    (* cancel a^i using its inverse a^(i(n-2)) *)
    assert (U : a ^ (Z.of_nat i * (n - 1)) mod r = 1).
    { rewrite Z.mul_comm, Z.pow_mul_r by lia. rewrite Zpower_mod by lia. rewrite (a_unit r Hr Hd).
      rewrite Z.pow_1_l by lia. apply Z.mod_small; lia. }
    assert (S1 : a ^ (Z.of_nat i * (n - 1)) = a ^ Z.of_nat i * a ^ (Z.of_nat i * (n - 2))).
    { rewrite <- Z.pow_add_r by nia. f_equal. ring. }
    assert (S2 : (a ^ (Z.of_nat j - Z.of_nat i) * a ^ (Z.of_nat i * (n - 1))) mod r
               = (a ^ Z.of_nat j * a ^ (Z.of_nat i * (n - 2))) mod r).
    { f_equal. rewrite S1. rewrite Z.mul_assoc. rewrite <- Z.pow_add_r by nia.
      f_equal. f_equal. lia. }
    rewrite Z.mul_mod, U, Z.mul_1_r, Z.mod_mod in S2 by lia.
    rewrite S2. rewrite Z.mul_mod by lia. rewrite <- E. rewrite <- Z.mul_mod by lia.
    rewrite <- S1. exact U.
  Qed.

  (** The least such power. *)
  Lemma order_least : forall r, 1 < r -> (r | n) ->
    exists d, 1 <= d < r /\ a ^ d mod r = 1 /\ (forall e, 0 < e < d -> a ^ e mod r <> 1).
  Proof.
    intros r Hr Hd. destruct (order_exists r Hr Hd) as (d & Bd & Ed).
    revert Bd Ed. revert d.
    assert (G : forall k d, (Z.to_nat d <= k)%nat -> 1 <= d < r -> a ^ d mod r = 1 ->
       exists d, 1 <= d < r /\ a ^ d mod r = 1 /\ (forall e, 0 < e < d -> a ^ e mod r <> 1)).
    { induction k; intros d Hk Bd Ed; [lia|].
      assert (DEC : forall m, (exists e, 0 < e < Z.of_nat m /\ a ^ e mod r = 1) \/
                              (forall e, 0 < e < Z.of_nat m -> a ^ e mod r <> 1)).
      { induction m; [right; intros; lia|].
        destruct IHm as [(e & I & E)|M]; [left; exists e; split; [lia|assumption]|].
        destruct (Z.eq_dec (a ^ Z.of_nat m mod r) 1) as [E|E].
        - destruct m; [right; intros; lia|]. left. exists (Z.of_nat (S m)). split; [lia|assumption].
        - right. intros e I. destruct (Z.eq_dec e (Z.of_nat m)) as [->|]; [assumption|]. apply M; lia. }
      destruct (DEC (Z.to_nat d)) as [(e & I & E)|M].
      - apply (IHk e); [lia|lia|assumption].
      - exists d. split; [assumption|]. split; [assumption|]. intros e I. apply M. lia. }
    intros d Bd Ed. apply (G (Z.to_nat d) d); [lia|assumption|assumption].
  Qed.

  Lemma order_divides : forall r d m, 1 < r -> 1 <= d -> a ^ d mod r = 1 ->
    (forall e, 0 < e < d -> a ^ e mod r <> 1) -> 0 <= m -> a ^ m mod r = 1 -> (d | m).
  Proof.
    intros r d m Hr Hd Ed Ml Hm Em.
    apply Zmod_divide; [lia|].
    pose proof (Z.mod_pos_bound m d ltac:(lia)) as B.
    destruct (Z.eq_dec (m mod d) 0) as [|NZ]; [assumption|]. exfalso.
    apply (Ml (m mod d)); [lia|].
    rewrite (Z.div_mod m d) in Em by lia.
    pose proof (Z.div_pos m d Hm ltac:(lia)).
    rewrite Z.pow_add_r, Z.pow_mul_r, Z.mul_mod, (Zpower_mod (a ^ d)), Ed in Em by lia.
    rewrite Z.pow_1_l, Z.mod_1_l, Z.mul_1_l, Z.mod_mod in Em by lia. exact Em.
  Qed.

  (** A prime [f] dividing [n-1] whose cofactor power minus one is coprime to
      [n] divides the order modulo every divisor. *)
  Lemma factor_divides_order : forall r d f, 1 < r -> (r | n) -> 1 <= d -> a ^ d mod r = 1 ->
    (forall e, 0 < e < d -> a ^ e mod r <> 1) ->
    prime f -> (f | n - 1) -> Z.gcd (a ^ ((n - 1) / f) mod n - 1) n = 1 -> (f | d).
  Proof.
    intros r d f Hr Hrn Hd Ed Ml Pf [c Hc] G.
    assert (F2 : 2 <= f) by (apply prime_ge_2; exact Pf).
    destruct (order_divides r d (n - 1) Hr Hd Ed Ml ltac:(lia) (a_unit r Hr Hrn)) as [k Hk].
    destruct (Zdivide_dec f k) as [[j Hj]|Nk].
    - exfalso.
      assert (Q : (n - 1) / f = c) by (rewrite Hc; apply Z.div_mul; lia).
      rewrite Q in G.
      assert (C : c = j * d) by nia.
      assert (Ec : a ^ c mod r = 1).
      { rewrite C, Z.mul_comm, Z.pow_mul_r by nia. rewrite Zpower_mod, Ed by lia.
        rewrite Z.pow_1_l by nia. apply Z.mod_small; lia. }
      assert (D : (r | a ^ c mod n - 1)).
      { apply Zmod_divide; [lia|].
        assert (X : (a ^ c mod n) mod r = 1).
        { rewrite <- Ec. apply pow_mod_dvd; [lia|assumption|apply Z.mod_mod; lia]. }
        rewrite Zminus_mod, X. rewrite (Z.mod_small 1 r) by lia. rewrite Z.sub_diag. apply Z.mod_0_l; lia. }
      assert (D1 : (r | 1)) by (rewrite <- G; apply Z.gcd_greatest; assumption).
      apply Z.divide_1_r_nonneg in D1; lia.
    - assert (M : (f | k * d)) by (rewrite <- Hk; exists c; exact Hc).
      apply prime_mult in M; [|exact Pf]. destruct M; [contradiction|assumption].
  Qed.
End Pocklington.

Definition prod (l : list Z) : Z := fold_right Z.mul 1 l.

Fixpoint pairwise_ne (l : list Z) : Prop :=
  match l with [] => True | x :: r => (forall y, In y r -> x <> y) /\ pairwise_ne r end.

Lemma prod_divides : forall l d, (forall f, In f l -> prime f /\ (f | d)) -> pairwise_ne l -> (prod l | d).
Proof.
  induction l; intros d H ND; [exists d; cbn; lia|].
  cbn [prod fold_right]. destruct ND as [N ND].
  destruct (H a ltac:(left; reflexivity)) as [Pa [k Hk]].
  assert (D : (prod l | d)) by (apply IHl; [intros f I; apply H; right; exact I|exact ND]).
  assert (RP : rel_prime a (prod l)).
  { clear - N H Pa. assert (PL : forall f, In f l -> prime f) by (intros f I; apply (H f); right; exact I).
    clear H. induction l as [|b l IH]; [apply rel_prime_sym, rel_prime_1|].
    cbn [prod fold_right]. apply rel_prime_mult.
    - apply prime_rel_prime; [exact Pa|].
      intro Dv. apply prime_div_prime in Dv; [|assumption|apply PL; left; reflexivity].
      apply (N b); [left; reflexivity|assumption].
    - apply IH; intros y I; [apply N; right; exact I|apply PL; right; exact I]. }
  rewrite Hk in D. rewrite Z.mul_comm in D.
  apply Gauss in D; [|apply rel_prime_sym; exact RP].
  destruct D as [j Hj]. exists j. change (fold_right Z.mul 1 l) with (prod l). rewrite Hk, Hj. ring.
Qed.

Theorem pocklington : forall n a l, 1 < n ->
  (forall f, In f l -> prime f) -> pairwise_ne l -> (forall f, In f l -> (f | n - 1)) ->
  n < prod l * prod l -> 0 < prod l ->
  a ^ (n - 1) mod n = 1 ->
  (forall f, In f l -> Z.gcd (a ^ ((n - 1) / f) mod n - 1) n = 1) ->
  prime n.
Proof.
  intros n a l Hn Pl ND Dl Hsq Hpos Ha Hg.
  apply prime_alt. split; [exact Hn|].
  assert (BIG : forall r, 1 < r -> (r | n) -> prod l < r).
  { intros r Hr Hd. destruct (order_least n a Hn Ha r Hr Hd) as (d & Bd & Ed & Ml).
    assert (D : (prod l | d)).
    { apply prod_divides; [|exact ND]. intros f I. split; [apply Pl, I|].
      apply (factor_divides_order n a Hn Ha r d f); try assumption; try lia.
      - apply Pl, I. - apply Dl, I. - apply Hg, I. }
    apply Z.divide_pos_le in D; lia. }
  intros r Hr [k Hk].
  assert (1 < k) by nia.
  pose proof (BIG r ltac:(lia) ltac:(exists k; lia)).
  pose proof (BIG k ltac:(lia) ltac:(exists r; lia)).
  nia.
Qed.

(** ** Small primes by trial division *)
Fixpoint no_div (fuel : nat) (d n : Z) : bool :=
  match fuel with
  | O => false
  | S f => if n <? d * d then true else if n mod d =? 0 then false else no_div f (d + 1) n
  end.

Lemma no_div_sound : forall fuel d n, 2 <= d -> no_div fuel d n = true ->
  forall r, d <= r -> r * r <= n -> ~ (r | n).
Proof.
  induction fuel; intros d n Hd H r Hr Hrr D; cbn in H; [discriminate|].
  destruct (Z.ltb_spec n (d * d)); [nia|].
  destruct (Z.eqb_spec (n mod d) 0); [discriminate|].
  destruct (Z.eq_dec r d) as [->|N].
  - apply n0. apply Zdivide_mod. exact D.
  - apply (IHfuel (d + 1) n ltac:(lia) H r); [lia|assumption|assumption].
Qed.

Lemma trial_prime : forall fuel n, 1 < n -> no_div fuel 2 n = true -> prime n.
Proof.
  intros fuel n Hn H. apply prime_alt. split; [exact Hn|].
  intros r Hr [k Hk]. assert (1 < k) by nia.
  destruct (Z.le_gt_cases r k).
  - apply (no_div_sound fuel 2 n ltac:(lia) H r); [lia|nia|exists k; lia].
  - apply (no_div_sound fuel 2 n ltac:(lia) H k); [lia|nia|exists r; lia].
Qed.

(** ** The certificate *)
Ltac trial := apply (trial_prime 1000); [lia | vm_compute; reflexivity].
Ltac pock a l :=
  apply (pocklington _ a l);
  [ lia
  | intros f I; cbn [In] in I; repeat (destruct I as [I|I]; [subst f; assumption|]); contradiction
  | cbn [pairwise_ne In]; repeat split; intros y I; intuition (subst; lia)
  | intros f I; cbn [In] in I;
    repeat (destruct I as [I|I]; [subst f; apply Zmod_divide; [lia|vm_compute; reflexivity]|]); contradiction
  | vm_compute; reflexivity
  | vm_compute; reflexivity
  | rewrite <- Zpow_mod_correct by lia; vm_compute; reflexivity
  | intros f I; cbn [In] in I;
    repeat (destruct I as [I|I]; [subst f; rewrite <- Zpow_mod_correct by lia; vm_compute; reflexivity|]);
    contradiction ].

Lemma prime_159793 : prime 159793. Proof. trial. Qed.
Lemma prime_1069 : prime 1069. Proof. trial. Qed.
Lemma prime_103393 : prime 103393. Proof. trial. Qed.
Lemma prime_25969 : prime 25969. Proof. trial. Qed.
Lemma prime_a1 : prime 14334859726775219.
Proof. pose proof prime_159793. pose proof prime_1069. pock 2 [159793; 1069]. Qed.
Lemma prime_a2 : prime 1254043595354617963043866617659.
Proof. pose proof prime_a1. pock 2 [14334859726775219]. Qed.
Lemma prime_b1 : prime 1176035613847.
Proof. pose proof prime_103393. pose proof prime_25969. pock 2 [103393; 25969]. Qed.
Lemma prime_b2 : prime 101148471075752777.
Proof. pose proof prime_b1. pock 2 [1176035613847]. Qed.

Lemma prime_P_lit : prime 16798108731015832284940804142231733909759579603404752749028378864165570215949.
Proof.
  pose proof prime_a2. pose proof prime_b2.
  pock 2 [1254043595354617963043866617659; 101148471075752777].
Qed.

Theorem prime_P : prime P.
Proof. exact prime_P_lit. Qed.
