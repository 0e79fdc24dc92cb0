(** C74: the stand-alone matrix-multiplication program (tests/mm.cpp). *)
From Coq Require Import ZArith List Bool Arith Lia.
From Verif Require Import Base Field Fp MleSpec Mm MmProofs.
Import ListNotations.
Open Scope nat_scope.

(** Entry [i] of a list of integers, as an element of the field. *)
Definition mm_entry (l : list Z) (i : nat) : F := ofZ (nth i l 0%Z).
(** The point the program means by [z]: its last coordinate belongs to the lowest bit of the gate number. *)
Definition mm_point (z : list Z) : list F := map ofZ (rev z).

(** The first half of the input is a matrix [A], the second the transpose of a matrix [B];
    the output is [A B]. *)
Theorem C74_product : forall d input, 3 * d <= 30 -> length input = 2 * 2 ^ (2 * d) ->
  exists out rest, evaluate d input = Ok (out :: rest) /\ length out = 2 ^ (2 * d) /\
  forall i j, i < 2 ^ d -> j < 2 ^ d ->
    mm_entry out (i * 2 ^ d + j) =
    sumn (2 ^ d) (fun k => mm_entry input (i * 2 ^ d + k) * mm_entry input (2 ^ (2 * d) + (j * 2 ^ d + k)))%F.
Proof.
  intros d input Hd L. destruct (evaluate_ok d input Hd L) as [ls [E [_ [_ [out [rest [-> H]]]]]]].
  exists out, rest. split; [exact E|exact H].
Qed.
Print Assumptions C74_product.

(** random_V_L is the multilinear extension. *)
Theorem C74_extension : forall V z, length V = 2 ^ length z ->
  exists x, random_V_L V z = Ok x /\ ofZ x = mle (mm_point z) (mm_entry V) /\ (- P < x < P)%Z.
Proof. exact random_V_L_ok. Qed.
Print Assumptions C74_extension.

(** The check of an addition layer passes exactly on a right claim, and the claim it leaves
    is always right: it is computed from the gates, not from a message of a prover. *)
Theorem C74_addition_layer : forall gates z ri rnew, length gates = 2 ^ S (length z) -> (- P < ri < P)%Z ->
  exists fail r3, sum_check_addtree (length z) gates z ri rnew = Ok (fail, z ++ [rnew], r3) /\
    (fail = false <-> ofZ ri = mle (mm_point z) (fun i => mm_entry gates (2 * i) + mm_entry gates (2 * i + 1))%F) /\
    ofZ r3 = mle (mm_point (z ++ [rnew])) (mm_entry gates) /\ (- P < r3 < P)%Z.
Proof.
  intros gates z ri rnew L B.
  destruct (addtree_ok (length z) gates z ri rnew eq_refl L B) as [[[f z'] r3] [E [H [-> H2]]]].
  exists f, r3. split; [exact E|]. split; [exact H|exact H2].
Qed.
Print Assumptions C74_addition_layer.

(** The table of the products: number [p] is made of [i], [j] and [k], and holds [A i k * B k j]. *)
Definition mm_products (d : nat) (gates : list Z) (p : nat) : F :=
  (mm_entry gates (p / 2 ^ (2 * d) * 2 ^ d + p mod 2 ^ d) * mm_entry gates (2 ^ (2 * d) + p mod 2 ^ (2 * d)))%F.
Lemma mm_products_eq : forall d gates p, p < 2 ^ (3 * d) ->
  mm_products d gates p = (fent gates (mm_in1 d p) * fent gates (mm_in2 d p))%F.
Proof.
  intros d gates p Hp. unfold mm_products, mm_in1, mm_in2. cbv zeta.
  assert (O : forall n x, Nat.land x (2 ^ n - 1) = x mod 2 ^ n).
  { intros n x. replace (2 ^ n - 1) with (Nat.ones n) by (rewrite Nat.ones_equiv; lia). apply Nat.land_ones. }
  assert (2 ^ (2 * d) <> 0) by (apply Nat.pow_nonzero; lia).
  rewrite !O, Nat.shiftr_div_pow2, Nat.shiftl_mul_pow2.
  rewrite (Nat.mod_small (p / 2 ^ (2 * d))).
  2:{ apply Nat.div_lt_upper_bound; [assumption|]. rewrite <- Nat.pow_add_r. replace (2 * d + d) with (3 * d) by lia. exact Hp. }
  replace (2 ^ (2 * d) - 1 + 1) with (2 ^ (2 * d)) by lia. rewrite (Nat.add_comm (p mod 2 ^ (2 * d))). reflexivity.
Qed.

(** [main] goes through the addition layers without a "fail" and enters the last sum check with
    a right claim about the products; what follows is decided by sum_check_mm. *)
Theorem C74_main_before : forall d input z rs r, 3 * d <= 30 -> length input = 2 * 2 ^ (2 * d) ->
  length z = 2 * d -> length rs = d ->
  exists ri, (- P < ri < P)%Z /\ ofZ ri = mle (mm_point (z ++ rs)) (mm_products d input) /\
    mm_main d input z rs r = (g <- sum_check_mm d input (z ++ rs) r ri ;; Ok (false, g)).
Proof.
  intros d input z rs r Hd L Lz Lr. destruct (main_ok d input z rs r Hd L Lz Lr) as [ri [B [H M]]].
  exists ri. split; [exact B|]. split; [|exact M]. rewrite H. apply mle_ext. intros p Hp. symmetry. apply mm_products_eq.
  rewrite pt_length, app_length, Lz, Lr in Hp. replace (3 * d) with (2 * d + d) by lia. exact Hp.
Qed.
Print Assumptions C74_main_before.

(** The messages of the last sum check are computed without undefined behaviour, and its first
    check passes exactly on a right claim. *)
Theorem C74_first_check : forall d gates z r, 1 <= d -> length gates = 2 * 2 ^ (2 * d) -> length z = 3 * d -> length r = 3 * d + 1 ->
  exists poly s, mm_messages d gates z r = Ok poly /\ length poly = 3 * d /\ (forall q, In q poly -> length q = 4) /\
    get2 poly 0 = Ok s /\
    forall ri, (- P < ri < P)%Z -> (differ s ri = false <-> ofZ ri = mle (mm_point z) (mm_products d gates)).
Proof.
  intros d gates z r Hd Lg Lz Lr. destruct (messages_ok d gates z r Lg Lz Lr) as [poly [E [Lp [F4 H]]]].
  destruct poly as [|q poly]; [simpl in Lp; lia|].
  pose proof (F4 q (or_introl eq_refl)) as Lq. destruct q as [|a [|b q]]; try discriminate.
  exists ((a :: b :: q) :: poly), (Z.rem (a + b) P). split; [exact E|]. split; [exact Lp|]. split; [exact F4|].
  split; [reflexivity|]. intros ri B. rewrite differ_spec by (apply rem_bound || exact B). rewrite ofZ_rem, ofZ_add.
  unfold fent at 1 2 in H. cbn [nth] in H. rewrite H.
  rewrite (mle_ext (mm_point z) (mm_products d gates) (fun p => fent gates (mm_in1 d p) * fent gates (mm_in2 d p))%F).
  - split; intro X; symmetry; exact X.
  - intros p Hp. apply mm_products_eq. unfold mm_point in Hp. rewrite map_length, rev_length, Lz in Hp. exact Hp.
Qed.
Print Assumptions C74_first_check.

(** The program never finishes within the rules of C++: whatever the input and the random
    numbers, the check of the last round reads [r[-1]] (with [d] = 0 it is [poly[0]] of an empty vector,
    and from [d] = 11 the size [n * n * n] already overflows). *)
Theorem C74_undefined : forall d input z rs r, length input = 2 * 2 ^ (2 * d) ->
  length z = 2 * d -> length rs = d -> length r = 3 * d + 1 ->
  mm_main d input z rs r = UB.
Proof.
  intros d input z rs r L Lz Ls Lr. destruct (Nat.le_gt_cases (3 * d) 30) as [Hd|Hd].
  2:{ unfold mm_main, evaluate. replace (30 <? 3 * d) with true by (symmetry; apply Nat.ltb_lt, Hd). reflexivity. }
  destruct (main_ok d input z rs r Hd L Lz Ls) as [ri [_ [_ ->]]].
  destruct (messages_ok d input (z ++ rs) r L) as [poly [E [Lp _]]]; [rewrite app_length; lia|exact Lr|].
  unfold sum_check_mm. rewrite E. cbn [bind]. rewrite mm_checks_ub by exact Lp. reflexivity.
Qed.
Print Assumptions C74_undefined.

(** The defined checks are wrong too: on the program's own messages for a right claim the second one reports
    a mismatch, and no challenge in [r] would repair it (the rounds bind the wrong coordinate of [z]). *)
Theorem C74_own_messages_refuted : exists gates z r q0 q1 q2 s, length gates = 2 * 2 ^ (2 * 1) /\ length z = 3 * 1 /\ length r = 3 * 1 + 1 /\
  mm_messages 1 gates z r = Ok [q0; q1; q2] /\
  mm_check 1 [q0; q1; q2] r 3 1 false = Ok true /\ get2 [q0; q1; q2] 1 = Ok s /\
  forall c, In c r -> exists x, extrap q0 3 c = Ok x /\ differ s x = true.
Proof.
  exists [1; 2; 3; 4; 5; 7; 6; 8]%Z, [7; 9; 3]%Z, [2; 3; 4; 5]%Z.
  assert (E : exists q0 q1 q2, mm_messages 1 [1; 2; 3; 4; 5; 7; 6; 8]%Z [7; 9; 3]%Z [2; 3; 4; 5]%Z = Ok [q0; q1; q2] /\
     q0 = [-408; 756; 2400; 0]%Z /\ q1 = [16798108731015832284940804142231733909759579603404752749028378864165570164109;
       -16798108731015832284940804142231733909759579603404752749028378864165570151797;
       -16798108731015832284940804142231733909759579603404752749028378864165570013773; 0]%Z).
  { do 3 eexists. split; [vm_compute; reflexivity|]. split; reflexivity. }
  destruct E as [q0 [q1 [q2 [E [-> ->]]]]]. do 3 eexists. exists 12312%Z.
  split; [reflexivity|]. split; [reflexivity|]. split; [reflexivity|]. split; [exact E|]. clear E.
  split; [vm_compute; reflexivity|]. split; [vm_compute; reflexivity|].
  intros c H. repeat (destruct H as [<-|H]; [eexists; split; [vm_compute; reflexivity|vm_compute; reflexivity]|]). destruct H.
Qed.
Print Assumptions C74_own_messages_refuted.

(** That read is the only undefined one: every earlier check stays inside its vectors. *)
Theorem C74_only_last_check : forall d poly r n j f, length poly = 3 * d -> (forall q, In q poly -> length q = 4) ->
  length r = 3 * d + 1 -> n <= 4 -> (1 <= j < 3 * Z.of_nat d)%Z ->
  (mm_check (Z.of_nat d) poly r n j f = UB <-> j = (3 * Z.of_nat d - 1)%Z).
Proof.
  intros d poly r n j f Lp Hq Lr Hn Hj. split.
  - intro E. destruct (Z.eq_dec j (3 * Z.of_nat d - 1)) as [C|C]; [exact C|].
    destruct (mm_check_before d poly r n j f Lp Hq Lr Hn ltac:(lia)) as [x [E' _]]. congruence.
  - intros ->. apply mm_check_last.
Qed.
Print Assumptions C74_only_last_check.

(** A run for 2 by 2 matrices: [[1 2] [3 4]] and the transpose of [[5 6] [7 8]]. *)
Definition mm_input : list Z := [1; 2; 3; 4; 5; 7; 6; 8]%Z.
Example C74_product_example : 3 * 1 <= 30 /\ length mm_input = 2 * 2 ^ (2 * 1) /\
  evaluate 1 mm_input = Ok [[19; 22; 43; 50]; [5; 14; 6; 16; 15; 28; 18; 32]; mm_input]%Z.
Proof. split; [lia|]. split; [reflexivity|]. vm_compute. reflexivity. Qed.
Example C74_addition_example : length [5; 14; 6; 16; 15; 28; 18; 32]%Z = 2 ^ S (length [7; 9]%Z) /\
  random_V_L [19; 22; 43; 50]%Z [7; 9]%Z = Ok 466%Z /\
  sum_check_addtree 2 [5; 14; 6; 16; 15; 28; 18; 32]%Z [7; 9]%Z 466 3 = Ok (false, [7; 9; 3], 348)%Z /\
  sum_check_addtree 2 [5; 14; 6; 16; 15; 28; 18; 32]%Z [7; 9]%Z 467 3 = Ok (true, [7; 9; 3], 348)%Z.
Proof. split; [reflexivity|]. split; [vm_compute; reflexivity|]. split; vm_compute; reflexivity. Qed.
Example C74_main_example : length [7; 9]%Z = 2 * 1 /\ length [3]%Z = 1 /\ length [2; 3; 4; 5]%Z = 3 * 1 + 1 /\
  random_V_L [5; 14; 6; 16; 15; 28; 18; 32]%Z [7; 9; 3]%Z = Ok 348%Z /\
  (poly <- mm_messages 1 mm_input [7; 9; 3]%Z [2; 3; 4; 5]%Z ;; get2 poly 0) = Ok 348%Z /\
  mm_main 1 mm_input [7; 9]%Z [3]%Z [2; 3; 4; 5]%Z = UB.
Proof. repeat (split; [vm_compute; reflexivity|]). vm_compute. reflexivity. Qed.
