(** * The runs of the compiled circuit for a Merkle tree *)
From Coq Require Import ZArith List Bool Arith Lia.
From Verif Require Import Base Fp ArithProofs SpecLoader Program SpecCompiler CompilerWiring SpecSha SpecMerkle ShaGen ShaMain ShaProgram MerkleGen MerkleShape MerkleProofs LoaderProofs.
Import ListNotations.
Open Scope Z_scope.

Lemma combine_same : forall (l : list Z), combine l l = map (fun x => (x, x)) l.
Proof. induction l as [|x l IH]; [reflexivity|]. cbn [combine map]. rewrite IH. reflexivity. Qed.
Lemma rins_app : forall a b, rins (a ++ b) = (rins a + rins b)%nat.
Proof. intros a b. unfold rins. rewrite flat_map_app, app_length. reflexivity. Qed.
Lemma rins_none : forall l, (forall s, In s l -> match s with RIn _ _ => False | _ => True end) -> rins l = 0%nat.
Proof. intros l H. unfold rins. rewrite flat_map_none; [reflexivity|]. intros s Hs. specialize (H s Hs). destruct s; try reflexivity. contradiction. Qed.
Lemma rins_all : forall l, rins (map (fun '(x, i) => RIn x i) l) = length l.
Proof. intros l. unfold rins. induction l as [|(x & i) l IH]; [reflexivity|]. cbn [map flat_map app length]. rewrite IH. reflexivity. Qed.
Lemma source_given : forall rnd m al s, 0 <= s < 34 + Z.of_nat m -> source rnd (merkle_file (zrange 34 m) (34 + Z.of_nat m) al) s (given rnd s).
Proof.
  intros rnd m al s Hs. unfold given. destruct (Z.ltb_spec s 34) as [Q|Q].
  - left. assert (In (RConst s (if s =? 0 then 0 else 4 * 2 ^ (s - 1))) (merkle_file (zrange 34 m) (34 + Z.of_nat m) al)) as HI by (apply file_in; left; exists s; split; [reflexivity|lia]).
    apply in_split in HI. destruct HI as (w1 & w2 & E). exists w1, w2. exact E.
  - right. rewrite (proj2 (Z.eqb_neq s 0)) by lia. set (a := Z.to_nat (s - 34)). exists s. unfold merkle_file. rewrite range_length.
    set (c := RConst 0 0). set (cs := map (fun i => RConst i (4 * 2 ^ (i - 1))) (zrange 1 33)). set (tl := map (fun '(x, t) => RPass t x x) _ ++ _).
    assert (E : combine (zrange 34 m) (zrange 34 m) = combine (zrange 34 a) (zrange 34 a) ++ (s, s) :: combine (zrange (s + 1) (m - a - 1)) (zrange (s + 1) (m - a - 1))).
    { rewrite !combine_same. replace m with (a + S (m - a - 1))%nat at 1 by (unfold a; lia). rewrite range_app, map_app. cbn [zrange map]. replace (34 + Z.of_nat a) with s by (unfold a; lia). reflexivity. }
    rewrite E, map_app. cbn [map].
    exists (c :: cs ++ map (fun '(x, i) => RIn x i) (combine (zrange 34 a) (zrange 34 a))), (map (fun '(x, i) => RIn x i) (combine (zrange (s + 1) (m - a - 1)) (zrange (s + 1) (m - a - 1))) ++ tl).
    split; [cbn [app]; rewrite <- !app_assoc; reflexivity|].
    change (c :: cs ++ ?x) with ([c] ++ cs ++ x). rewrite !rins_app, rins_all. rewrite (rins_none [c]) by (intros s0 [<-|[]]; exact I). rewrite (rins_none cs) by (intros s0 Hs0; apply in_map_iff in Hs0; destruct Hs0 as (i & <- & _); exact I).
    rewrite combine_length, range_length, Nat.min_id. reflexivity.
Qed.
Section Tree.
Context (n : nat) (Hn : (0 < n)%nat) (p : list stmt) (w : list rstmt) (EP : sha_program = Ok p) (EW : merkle n = Ok w).
Lemma run_wired : forall rnd r val, run_of rnd p w r val <-> wired (fun s => ofZ (stored (given rnd s))) p w r val.
Proof.
  intros rnd r val. unfold run_of, wired. pose proof (vend_eq n Hn) as VE. pose proof (T_pos n Hn) as TP. split; intros (H1 & H2); (split; [exact H1|]).
  - intros t i s Ht Hs. apply (H2 t i (given rnd s) Ht). pose proof (proj1 (w_routes n Hn w EW _ _) Hs) as (_ & Hat). apply nth_error_In, all_range in Hat; [|exact Hn].
    destruct Hs as (m & o & v & b & A & B & C & D). exists m, o, v, s, b. split; [exact A|]. split; [exact B|]. split; [exact C|]. split; [exact D|]. rewrite (w_eq n Hn w EW). apply source_given. lia.
  - intros t i x Ht (m & o & v & s & b & A & B & C & D & E). assert (Hs : routes w (Z.of_nat (r * length (inputs p) + rank p t)) s) by (exists m, o, v, b; auto).
    rewrite (H2 t i s Ht Hs). pose proof (proj1 (w_routes n Hn w EW _ _) Hs) as (_ & Hat). apply nth_error_In, all_range in Hat; [|exact Hn].
    do 2 f_equal. apply (source_fun rnd w s); [|rewrite (w_eq n Hn w EW); apply source_given; lia|exact E]. rewrite (w_eq n Hn w EW), file_targets. apply range_NoDup.
Qed.
Lemma ent_low : forall r q, 0 <= r <= 2 * T n - 2 -> 34 <= q < 7226 -> 34 <= ent n r q.
Proof.
  intros r q Hr Hq. pose proof (T_pos n Hn) as TP.
  assert (BB : forall x, 0 <= x -> 306 <= base n x) by (intros x Hx; unfold base, leaf; destruct (Z.ltb_spec x (T n)); lia).
  assert (HO : forall x, 0 <= x -> 298 <= hoA n x) by (intros x Hx; pose proof (BB x Hx); unfold hoA; destruct (lastb n x); [lia|destruct (leaf n x); lia]).
  assert (HB : forall x, 0 <= x -> 306 <= hbA n x) by (intros x Hx; pose proof (BB x Hx); unfold hbA; destruct (lastb n x); destruct (leaf n x); lia).
  pose proof (BB r ltac:(lia)) as B1. pose proof (HO r ltac:(lia)) as B2. pose proof (HB r ltac:(lia)) as B3. unfold ent, aeA. destruct (leaf n r) eqn:L.
  - repeat match goal with |- context [q <? ?y] => destruct (Z.ltb_spec q y) end; lia.
  - unfold leaf in L. apply Z.ltb_ge in L. pose proof (HO (2 * (r - T n)) ltac:(lia)) as H3. pose proof (HO (2 * (r - T n) + 1) ltac:(lia)) as H4. pose proof (HB (2 * (r - T n)) ltac:(lia)) as H5. pose proof (HB (2 * (r - T n) + 1) ltac:(lia)) as H6.
    repeat match goal with |- context [q <? ?y] => destruct (Z.ltb_spec q y) end; try lia.
    assert (D : 0 <= (q - 98) / 32 < 15) by (split; [apply Z.div_pos; lia|apply Z.div_lt_upper_bound; lia]). pose proof (Z.mod_pos_bound (q - 98) 32 ltac:(lia)) as M. cbv zeta.
    destruct (Z.ltb_spec ((q - 98) / 32 + 1) 8); lia.
Qed.
Lemma run_input : forall rnd r val t, (r < 2 ^ (n + 1))%nat -> run_of rnd p w r val -> 34 <= t < 7226 -> exists j, val t = ofZ (stored (rnd j)).
Proof.
  intros rnd r val t Hr HR Ht. pose proof (T_pos n Hn) as TP. pose proof (nb_T n Hn) as NB. assert (NP : (2 ^ (n + 1) = S (nb n))%nat) by (unfold nb in *; lia).
  apply run_wired in HR. apply (wired_iff n Hn p w EP EW) in HR; [|lia]. destruct HR as (_ & HR). rewrite HR by lia.
  assert (E : 34 <= ent n (Z.of_nat (bl n r)) t) by (apply ent_low; [unfold bl; lia|exact Ht]). exists (Z.to_nat (ent n (Z.of_nat (bl n r)) t - 34)). unfold given. rewrite (proj2 (Z.eqb_neq _ _)), (proj2 (Z.ltb_ge _ _)) by lia. reflexivity.
Qed.
Lemma run_zero : forall rnd r val, (r < 2 ^ (n + 1))%nat -> run_of rnd p w r val -> val 0 = 0%F.
Proof.
  intros rnd r val Hr HR. pose proof (T_pos n Hn) as TP. pose proof (nb_T n Hn) as NB. assert (NP : (2 ^ (n + 1) = S (nb n))%nat) by (unfold nb in *; lia).
  apply run_wired in HR. apply (wired_iff n Hn p w EP EW) in HR; [|lia]. destruct HR as (_ & HR). rewrite HR by lia. reflexivity.
Qed.
End Tree.
