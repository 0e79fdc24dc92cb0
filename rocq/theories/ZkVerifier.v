(** * Model of src/linear_gkr/zk_verifier.cpp (the verifier proper)

    The circuit loader is in Loader.v.  As in FastVerifier.v the prover is
    reached through a record with one field per member of class [zk_prover] (or
    function run by the prover) that [verify] uses, so that any prover can be
    plugged in.  The keys of the commitment schemes are global variables set by
    the [KeyGen] functions, which only the prover calls; the verifier reads them
    through [zi_kR], [zi_kM], [zi_kI].
    A digest vector ([ret.resize(2)] in the prover) is a pair.  [enc] gives the
    bytes of a curve point object, [rng] is [trans.random(size)]: the challenges
    and the new transcript.  Timing, [proof_size] and the result file are left out. *)
From Coq Require Import ZArith List Bool Arith.
From Verif Require Import Base Limbs Field Fp Poly Circuit FastProver FastVerifier
  VpdGroup VpdR VpdMask VpdInput Transcript ZkProver.
Import ListNotations.
Open Scope nat_scope.

(** Members of [zk_prover] used by [verify] (zk_prover.h:42-91). *)
Record zprover_if (S : Type) := ZProverIf {
  zi_evaluate : S -> outcome (list fe * S);
  zi_commit : S -> nat -> outcome (F * F * F * F * S);
  zi_V_res : S -> list fe -> list fe -> list fe -> nat -> nat -> outcome (fe * S);
  zi_sumcheck_init : S -> nat -> nat -> nat -> nat -> fe -> fe ->
                     list fe -> list fe -> list fe -> list fe -> outcome (F * F * S);
  zi_pre_rho : S -> nat -> nat -> outcome (F * F * S);
  zi_set_rho : S -> fe -> S;
  zi_after_rho : S -> nat -> nat -> outcome S;
  zi_sumc : S -> fe;
  zi_phase1_init : S -> outcome S;
  zi_phase1_update : S -> fe -> nat -> outcome (quadratic_poly * S);
  zi_phase1_lastbit : S -> fe -> nat -> outcome (quintuple_poly * S);
  zi_phase2_init : S -> fe -> list fe -> list fe -> outcome S;
  zi_phase2_update : S -> fe -> nat -> outcome (quadratic_poly * S);
  zi_phase2_lastbit : S -> fe -> nat -> outcome (quintuple_poly * S);
  zi_finalize : S -> fe -> outcome ((fe * fe) * S);
  zi_finalround : S -> fe -> nat -> fe -> outcome (quadratic_poly * S);
  zi_prove_R : S -> list Z -> outcome (Z * list F * list F * S);
  zi_prove_mask : S -> list Z -> outcome (Z * list F * list F * S);
  zi_prove_input : S -> list Z -> Z -> outcome (Z * list F * list F * S);
  zi_v_u : S -> fe; zi_Iuv : S -> fe; zi_preZu : S -> fe; zi_preZv : S -> fe; zi_Zu : S -> fe;
  zi_prepreu1 : S -> fe; zi_preprev1 : S -> fe;
  zi_kR : S -> keyR; zi_kM : S -> keyM; zi_kI : S -> keyI }.
Arguments zi_evaluate {S}. Arguments zi_commit {S}. Arguments zi_V_res {S}. Arguments zi_sumcheck_init {S}.
Arguments zi_pre_rho {S}. Arguments zi_set_rho {S}. Arguments zi_after_rho {S}. Arguments zi_sumc {S}.
Arguments zi_phase1_init {S}. Arguments zi_phase1_update {S}. Arguments zi_phase1_lastbit {S}.
Arguments zi_phase2_init {S}. Arguments zi_phase2_update {S}. Arguments zi_phase2_lastbit {S}.
Arguments zi_finalize {S}. Arguments zi_finalround {S}. Arguments zi_prove_R {S}. Arguments zi_prove_mask {S}.
Arguments zi_prove_input {S}. Arguments zi_v_u {S}. Arguments zi_Iuv {S}. Arguments zi_preZu {S}.
Arguments zi_preZv {S}. Arguments zi_Zu {S}. Arguments zi_prepreu1 {S}. Arguments zi_preprev1 {S}.
Arguments zi_kR {S}. Arguments zi_kM {S}. Arguments zi_kI {S}.

(** The prover of zk_prover.cpp as an instance. *)
Definition zhonest (fr : nat -> u512) (zr : nat -> Z) : zprover_if zprover := {|
  zi_evaluate := zk_evaluate;
  zi_commit := keygen_and_commit fr zr;
  zi_V_res := fun z o r out n m => x <- zk_V_res o r out n m ;; Ok (x, z);
  zi_sumcheck_init := zk_sumcheck_init fr zr;
  zi_pre_rho := generate_maskpoly_pre_rho fr zr;
  zi_set_rho := set_rho;
  zi_after_rho := generate_maskpoly_after_rho;
  zi_sumc := fun z => m_sumc (z_m z);
  zi_phase1_init := zk_phase1_init;
  zi_phase1_update := zk_phase1_update;
  zi_phase1_lastbit := zk_phase1_lastbit;
  zi_phase2_init := zk_phase2_init;
  zi_phase2_update := zk_phase2_update;
  zi_phase2_lastbit := zk_phase2_lastbit;
  zi_finalize := zk_finalize;
  zi_finalround := zk_finalround;
  zi_prove_R := prove_R zr;
  zi_prove_mask := prove_mask zr;
  zi_prove_input := prove_input zr;
  zi_v_u := fun z => p_v_u (z_p z);
  zi_Iuv := fun z => r_Iuv (z_r z); zi_preZu := fun z => r_preZu (z_r z);
  zi_preZv := fun z => r_preZv (z_r z); zi_Zu := fun z => r_Zu (z_r z);
  zi_prepreu1 := fun z => r_prepreu1 (z_r z); zi_preprev1 := fun z => r_preprev1 (z_r z);
  zi_kR := z_kR; zi_kM := z_kM; zi_kI := z_kI |}.

(** zk_verifier.h:18-26: one set of half tables (there are two sets, the second
    for one block of a layer made of repeated blocks). *)
Record zbetas := ZBetas {
  zb_g0f : list fe; zb_g0s : list fe; zb_g1f : list fe; zb_g1s : list fe;
  zb_uf : list fe; zb_us : list fe; zb_vf : list fe; zb_vs : list fe }.

(** ** Equality tables *)
(** One level of a half table, zk_verifier.cpp:683-692 (and the loops like it);
    the two inner loops run one after the other. *)
Definition zlevel (mulop : fe -> fe -> fe) (r o : list fe) (off i : nat) (t : list fe) : outcome (list fe) :=
  t <- for_ (2 ^ i) 0 (fun j t =>
    x <- rd t j ;; a <- rd r (i + off) ;; wr t (Nat.lor j (2 ^ i)) (mulop x a)) t ;;
  for_ (2 ^ i) 0 (fun j t => x <- rd t j ;; b <- rd o (i + off) ;; wr t j (mulop x b)) t.
Definition zhalf (mulop : fe -> fe -> fe) (r o : list fe) (off n : nat) (t : list fe) : outcome (list fe) :=
  for_ n 0 (fun i t => zlevel mulop r o off i t) t.
(** [x.value * y.value % mod] *)
Definition rawmul (x y : fe) : fe := u512_mod (u512_mul x y).
(** zk_verifier.cpp:672-738 with [lg], [lu] the bit lengths, and 739-815 with
    them the logarithms of the block sizes.  The code fills the tables of a pair
    in the same loop, here one after the other (they are separate arrays). *)
Definition zbeta_fill (lg lu : nat) (alpha beta : fe) (r_0 r_1 r_u r_v o_0 o_1 o_u o_v : list fe)
    (B : zbetas) : outcome zbetas :=
  let hg := lg / 2 in let hu := lu / 2 in
  g0f <- wr (zb_g0f B) 0 alpha ;; g0f <- zhalf rawmul r_0 o_0 0 hg g0f ;;
  g1f <- wr (zb_g1f B) 0 beta ;; g1f <- zhalf rawmul r_1 o_1 0 hg g1f ;;
  g0s <- wr (zb_g0s B) 0 (fe_of_int 1) ;; g0s <- zhalf rawmul r_0 o_0 hg (lg - hg) g0s ;;
  g1s <- wr (zb_g1s B) 0 (fe_of_int 1) ;; g1s <- zhalf rawmul r_1 o_1 hg (lg - hg) g1s ;;
  uf <- wr (zb_uf B) 0 (fe_of_int 1) ;; uf <- zhalf fe_mul r_u o_u 0 hu uf ;;
  vf <- wr (zb_vf B) 0 (fe_of_int 1) ;; vf <- zhalf fe_mul r_v o_v 0 hu vf ;;
  us <- wr (zb_us B) 0 (fe_of_int 1) ;; us <- zhalf fe_mul r_u o_u hu (lu - hu) us ;;
  vs <- wr (zb_vs B) 0 (fe_of_int 1) ;; vs <- zhalf fe_mul r_v o_v hu (lu - hu) vs ;;
  Ok (ZBetas g0f g0s g1f g1s uf us vf vs).
(** [log_block_size] as a loop bound and shift amount.  The values outside
    [0, 31) make [1 << log_block_size] undefined (zk_verifier.cpp:229). *)
Definition blog (L : layer) : outcome nat :=
  if ((0 <=? log_block_size L) && (log_block_size L <? 31))%Z then Ok (Z.to_nat (log_block_size L)) else UB.
(** zk_verifier.cpp:665-816.  At depth 1 the parallel branch reads
    [circuit[0].log_block_size], which is never set: an indeterminate value. *)
Definition zbeta_init (depth : nat) (L Lm : layer) (alpha beta : fe)
    (r_0 r_1 r_u r_v o_0 o_1 o_u o_v : list fe) (BB : zbetas * zbetas) : outcome (zbetas * zbetas) :=
  let '(B, Bb) := BB in
  if is_parallel L then
    if depth =? 1 then UB else
    lg <- blog L ;; lu <- blog Lm ;;
    Bb <- zbeta_fill lg lu alpha beta r_0 r_1 r_u r_v o_0 o_1 o_u o_v Bb ;;
    Ok (B, Bb)
  else
    B <- zbeta_fill (bit_length L) (bit_length Lm) alpha beta r_0 r_1 r_u r_v o_0 o_1 o_u o_v B ;;
    Ok (B, Bb).

(** ** Predicates *)
Definition gate_type_count := 14.
(** [l[i] = f (l[i])] *)
Definition upd_at (l : list fe) (i : nat) (f : fe -> fe) : outcome (list fe) :=
  x <- rd l i ;; wr l i (f x).
(** [first[i & mask] * second[i >> h]] with the operator of [field_element]. *)
Definition fe_weight (f s : list fe) (h i : nat) : outcome fe :=
  let mask := 2 ^ h - 1 in
  a <- rd f (Nat.land i mask) ;; b <- rd s (Nat.shiftr i h) ;; Ok (fe_mul a b).
(** The gate types with one term per gate. *)
Definition single_type (ty : Z) : bool :=
  existsb (Z.eqb ty) [0; 1; 6; 7; 8; 9; 13]%Z.

(** zk_verifier.cpp:485-634: one gate in the branch for a layer that is not made of blocks. *)
Definition pred_gate (B : zbetas) (hg hu : nat) (tmp_u_val : list fe) (i : nat) (gt : gate) (ret : list fe)
  : outcome (list fe) :=
  let u := g_u gt in let v := g_v gt in let ty := g_ty gt in
  let gw := g_weight (zb_g0f B) (zb_g0s B) (zb_g1f B) (zb_g1s B) hg i in
  let gfe := (x <- fe_weight (zb_g0f B) (zb_g0s B) hg i ;; y <- fe_weight (zb_g1f B) (zb_g1s B) hg i ;;
              Ok (fe_add x y)) in
  let v0 := fe_weight (zb_vf B) (zb_vs B) hu 0 in
  if single_type ty then
    it <- idx ty ;;
    g <- gw ;;
    iu <- idx u ;; bu <- u_weight (zb_uf B) (zb_us B) hu iu ;;
    iv <- idx v ;; bv <- u_weight (zb_vf B) (zb_vs B) hu iv ;;
    upd_at ret it (fun x => u512_mod (u512_add x (u512_mul (u512_mod (u512_mul g bu)) bv)))
  else if (ty =? 5)%Z then
    g <- gfe ;; b <- v0 ;;
    forz u v (fun j ret =>
      ij <- idx j ;; bu <- fe_weight (zb_uf B) (zb_us B) hu ij ;;
      upd_at ret 5 (fun x => fe_add x (fe_mul (fe_mul g b) bu))) ret
  else if (ty =? 12)%Z then
    g <- gfe ;; b <- v0 ;;
    ' (ret, _) <- forz u (v + 1) (fun j st =>
      let '(ret, b) := st in
      ij <- idx j ;; bu <- fe_weight (zb_uf B) (zb_us B) hu ij ;;
      ret <- upd_at ret 12 (fun x => fe_add x (fe_mul (fe_mul g b) bu)) ;;
      Ok (ret, cred_sub (fe_add b b))) (ret, b) ;;
    Ok ret
  else if (ty =? 10)%Z then
    g <- gw ;; iu <- idx u ;; t <- rd tmp_u_val iu ;;
    upd_at ret 10 (fun x => u512_mod (u512_add x (u512_mul g t)))
  else Ok ret.
(** zk_verifier.cpp:467-636 *)
Definition preds_plain (L Lm : layer) (B : zbetas) : outcome (list fe) :=
  let hg := bit_length L / 2 in let hu := bit_length Lm / 2 in
  zero_v <- u_weight (zb_vf B) (zb_vs B) hu 0 ;;
  tmp_u_val <- for_ (2 ^ bit_length Lm) 0 (fun i t =>
    bu <- u_weight (zb_uf B) (zb_us B) hu i ;;
    wr t i (u512_mod (u512_mul bu zero_v))) (repeat fe_zero (2 ^ bit_length Lm)) ;;
  for_ (2 ^ bit_length L) 0 (fun i ret =>
    gt <- rd (gates L) i ;; pred_gate B hg hu tmp_u_val i gt ret) (repeat (fe_of_int 0) gate_type_count).

(** zk_verifier.cpp:230-416: gate [i] of the first block; [ab] is the pair
    ([one_block_alpha], [one_block_beta]), [lb], [lb'] the logarithms of the block
    sizes of this layer and the previous one. *)
Definition block_gate (B : zbetas) (lb lb' : nat) (i : nat) (gt : gate) (ab : list fe * list fe)
  : outcome (list fe * list fe) :=
  let '(al, be) := ab in
  let hg := lb / 2 in let hu := lb' / 2 in
  let g := Nat.land i (2 ^ lb - 1) in
  let u := Z.land (g_u gt) (2 ^ Z.of_nat lb' - 1) in
  let v := Z.land (g_v gt) (2 ^ Z.of_nat lb' - 1) in
  let ty := g_ty gt in
  if single_type ty || (ty =? 10)%Z then
    it <- idx ty ;;
    iu <- idx u ;; bu <- u_weight (zb_uf B) (zb_us B) hu iu ;;
    iv <- idx v ;; bv <- u_weight (zb_vf B) (zb_vs B) hu iv ;;
    let uv := u512_mod (u512_mul bu bv) in
    ga <- u_weight (zb_g0f B) (zb_g0s B) hg g ;;
    gb <- u_weight (zb_g1f B) (zb_g1s B) hg g ;;
    al <- upd_at al it (fun x => u512_mod (u512_add x (u512_mul ga uv))) ;;
    be <- upd_at be it (fun x => u512_mod (u512_add x (u512_mul gb uv))) ;;
    Ok (al, be)
  else if (ty =? 5)%Z then
    ga <- fe_weight (zb_g0f B) (zb_g0s B) hg g ;;
    gb <- fe_weight (zb_g1f B) (zb_g1s B) hg g ;;
    b <- fe_weight (zb_vf B) (zb_vs B) hu 0 ;;
    ' (al, be) <- forz u v (fun j st =>
      let '(al, be) := st in
      ij <- idx j ;; bu <- fe_weight (zb_uf B) (zb_us B) hu ij ;;
      al <- upd_at al 5 (fun x => fe_add x (fe_mul (fe_mul ga b) bu)) ;;
      be <- upd_at be 5 (fun x => fe_add x (fe_mul (fe_mul gb b) bu)) ;;
      Ok (al, be)) (al, be) ;;
    al <- upd_at al 5 u512_mod ;; be <- upd_at be 5 u512_mod ;;
    Ok (al, be)
  else if (ty =? 12)%Z then
    ga <- fe_weight (zb_g0f B) (zb_g0s B) hg g ;;
    gb <- fe_weight (zb_g1f B) (zb_g1s B) hg g ;;
    b <- fe_weight (zb_vf B) (zb_vs B) hu 0 ;;
    ' (al, be, _) <- forz u (v + 1) (fun j st =>
      let '(al, be, b) := st in
      ij <- idx j ;; bu <- fe_weight (zb_uf B) (zb_us B) hu ij ;;
      al <- upd_at al 12 (fun x => fe_add x (fe_mul (fe_mul ga b) bu)) ;;
      be <- upd_at be 12 (fun x => fe_add x (fe_mul (fe_mul gb b) bu)) ;;
      Ok (al, be, cred_sub (fe_add b b))) (al, be, b) ;;
    al <- upd_at al 12 u512_mod ;; be <- upd_at be 12 u512_mod ;;
    Ok (al, be)
  else Ok (al, be).
(** zk_verifier.cpp:420-451: the factors of block number [i]; [v0] selects the
    second loop, in which the factor for [r_v] is always [1 - r_v]. *)
Definition block_prefix (v0 : bool) (lb lb' lr i : nat) (r_0 r_1 r_u r_v : list fe) : outcome (fe * fe) :=
  let one := fe_of_int 1 in
  for_ lr 0 (fun j st =>
    let '(pa, pb) := st in
    ru <- rd r_u (j + lb') ;; rv <- rd r_v (j + lb') ;;
    r0 <- rd r_0 (j + lb) ;; r1 <- rd r_1 (j + lb) ;;
    if Nat.testbit i j then
      let uv := fe_mul ru (if v0 then fe_sub one rv else rv) in
      Ok (fe_mul (fe_mul pa r0) uv, fe_mul (fe_mul pb r1) uv)
    else
      let uv := fe_mul (fe_sub one ru) (fe_sub one rv) in
      Ok (fe_mul (fe_mul pa (fe_sub one r0)) uv, fe_mul (fe_mul pb (fe_sub one r1)) uv)) (one, one).
(** zk_verifier.cpp:452-464 *)
Definition v0_type (j : nat) : bool := (j =? 6) || (j =? 10) || (j =? 5) || (j =? 12).
(** zk_verifier.cpp:212-466 *)
Definition preds_block (L Lm : layer) (Bb : zbetas) (r_0 r_1 r_u r_v : list fe) : outcome (list fe) :=
  lb <- blog L ;;
  assert_ (2 ^ Z.of_nat lb =? block_size L)%Z ;;;
  lb' <- blog Lm ;;
  let z := repeat (fe_of_int 0) gate_type_count in
  ' (al, be) <- for_ (2 ^ lb) 0 (fun i ab =>
    gt <- rd (gates L) i ;; block_gate Bb lb lb' i gt ab) (z, z) ;;
  let lr := Z.to_nat (log_repeat_num L) in
  for_ (Z.to_nat (repeat_num L)) 0 (fun i ret =>
    ' (pa, pb) <- block_prefix false lb lb' lr i r_0 r_1 r_u r_v ;;
    ' (pa0, pb0) <- block_prefix true lb lb' lr i r_0 r_1 r_u r_v ;;
    for_ gate_type_count 0 (fun j ret =>
      a <- rd al j ;; b <- rd be j ;;
      upd_at ret j (fun x =>
        if v0_type j then u512_mod (u512_add (u512_add x (u512_mul pa0 a)) (u512_mul pb0 b))
        else u512_mod (u512_add (u512_add x (u512_mul pa a)) (u512_mul pb b)))) ret) z.
(** zk_verifier.cpp:195-650.  The assertion of line 647 compares [ret] with the
    vector it was copied from. *)
Definition predicates (depth : nat) (L Lm : layer) (BB : zbetas * zbetas) (r_0 r_1 r_u r_v : list fe)
  : outcome (list fe) :=
  if depth =? 1 then Ok (repeat (fe_of_int 0) gate_type_count)
  else
    ret <- (if is_parallel L then preds_block L Lm (snd BB) r_0 r_1 r_u r_v else preds_plain L Lm (fst BB)) ;;
    Ok (map (fun x => fix_neg (u512_mod x)) ret).

(** ** Commitment answers *)
(** [mpz_class::get_str()], decimal digits as characters. *)
Fixpoint digits (fuel : nat) (z : Z) (acc : list Z) : list Z :=
  match fuel with
  | O => acc
  | S f => let acc := (48 + z mod 10)%Z :: acc in
           if (z / 10 =? 0)%Z then acc else digits f (z / 10)%Z acc
  end.
Definition get_str (z : Z) : list Z :=
  if (z <? 0)%Z then 45%Z :: digits (S (Z.to_nat (Z.log2 (- z)))) (- z)%Z []
  else digits (S (Z.to_nat (Z.log2 z))) z [].
(** zk_verifier.cpp:1149-1151, 1211-1212 *)
Definition fe_of_mpz (z : Z) : fe := u512_parse (get_str z).

(** ** The interactive protocol *)
(** zk_verifier.cpp:1059: the argument of [sumcheck_finalround]; [pv] is the
    vector returned by [predicates]. *)
Definition zgeneral (pv : list fe) (v_u v_v : fe) : outcome fe :=
  add_v <- rd pv 0 ;; mult_v <- rd pv 1 ;; not_v <- rd pv 6 ;; minus_v <- rd pv 7 ;; xor_v <- rd pv 8 ;;
  naab_v <- rd pv 9 ;; sum_v <- rd pv 5 ;; relay_v <- rd pv 10 ;; exp_v <- rd pv 12 ;; bit_v <- rd pv 13 ;;
  let one := fe_of_int 1 in
  Ok (fe_add (fe_add (fe_add (fe_add (fe_add (fe_add (fe_add (fe_add (fe_add
        (fe_mul add_v (fe_add v_u v_v))
        (fe_mul (fe_mul mult_v v_u) v_v))
        (fe_mul not_v (fe_sub one v_u)))
        (fe_mul minus_v (fe_sub v_u v_v)))
        (fe_mul xor_v (fe_sub (fe_add v_u v_v) (fe_mul (fe_mul (fe_of_int 2) v_u) v_v))))
        (fe_mul naab_v (fe_sub v_v (fe_mul v_u v_v))))
        (fe_mul sum_v v_u))
        (fe_mul relay_v v_u))
        (fe_mul exp_v v_u))
        (fe_mul bit_v (fe_mul v_u (fe_sub one v_v)))).
(** zk_verifier.cpp:1152: the factor of [r_c[0]] in the last check (the last term
    is associated differently). *)
Definition zgeneral' (pv : list fe) (v_u v_v : fe) : outcome fe :=
  add_v <- rd pv 0 ;; mult_v <- rd pv 1 ;; not_v <- rd pv 6 ;; minus_v <- rd pv 7 ;; xor_v <- rd pv 8 ;;
  naab_v <- rd pv 9 ;; sum_v <- rd pv 5 ;; relay_v <- rd pv 10 ;; exp_v <- rd pv 12 ;; bit_v <- rd pv 13 ;;
  let one := fe_of_int 1 in
  Ok (fe_add (fe_add (fe_add (fe_add (fe_add (fe_add (fe_add (fe_add (fe_add
        (fe_mul add_v (fe_add v_u v_v))
        (fe_mul (fe_mul mult_v v_u) v_v))
        (fe_mul not_v (fe_sub one v_u)))
        (fe_mul minus_v (fe_sub v_u v_v)))
        (fe_mul xor_v (fe_sub (fe_add v_u v_v) (fe_mul (fe_mul (fe_of_int 2) v_u) v_v))))
        (fe_mul naab_v (fe_sub v_v (fe_mul v_u v_v))))
        (fe_mul sum_v v_u))
        (fe_mul relay_v v_u))
        (fe_mul exp_v v_u))
        (fe_mul (fe_mul bit_v (fe_sub one v_v)) v_u)).

(** Local variables of [verify] that live across layers, the transcript and the prover. *)
Record zvstate (S : Type) := ZVState {
  t_alpha : fe; t_beta : fe; t_sum : fe;
  t_r0 : list fe; t_r1 : list fe; t_o0 : list fe; t_o1 : list fe;
  t_B : zbetas * zbetas; t_tr : list msg; t_p : S }.
Arguments ZVState {S}. Arguments t_alpha {S}. Arguments t_beta {S}. Arguments t_sum {S}.
Arguments t_r0 {S}. Arguments t_r1 {S}. Arguments t_o0 {S}. Arguments t_o1 {S}.
Arguments t_B {S}. Arguments t_tr {S}. Arguments t_p {S}.

Definition quad_msgs (q : quadratic_poly) : list msg := [MFld (q_a q); MFld (q_b q); MFld (q_c q)].
Definition quint_msgs (q : quintuple_poly) : list msg :=
  [MFld (p_a q); MFld (p_b q); MFld (p_c q); MFld (p_d q); MFld (p_e q); MFld (p_f q)].

Section Verifier.
Variable enc : F -> list Z.
Variable rng : list msg -> nat -> outcome (list fe * list msg).

Definition curve_msgs (l : list F) : list msg := map (fun x => MCurve (enc x)) l.

(** zk_verifier.cpp:942-990: phase 1 rounds. *)
Definition zphase1_rounds {S} (I : zprover_if S) (n : nat) (r_u : list fe) (sum : fe) (t : list msg) (s : S)
  : outcome (fe * fe * list msg * S) :=
  for_ n 0 (fun j st =>
    let '(prev, sum, t, s) := st in
    if j + 1 =? n then
      ' (poly, s) <- zi_phase1_lastbit I s prev j ;;
      r <- rd r_u j ;;
      reject_if (fe_ne (fe_add (quintuple_eval poly (fe_of_int 0)) (quintuple_eval poly (fe_of_int 1))) sum) ;;;
      Ok (r, quintuple_eval poly r, t ++ quint_msgs poly, s)
    else
      ' (poly, s) <- zi_phase1_update I s prev j ;;
      r <- rd r_u j ;;
      reject_if (fe_ne (fe_add (quadratic_eval poly (fe_of_int 0)) (quadratic_eval poly (fe_of_int 1))) sum) ;;;
      Ok (r, quadratic_eval poly r, t ++ quad_msgs poly, s)) (fe_of_int 0, sum, t, s).

(** zk_verifier.cpp:997-1041: phase 2 rounds; [zero_rv] is [i == 1]. *)
Definition zphase2_rounds {S} (I : zprover_if S) (n : nat) (zero_rv : bool) (relay : fe)
    (r_v : list fe) (sum : fe) (t : list msg) (s : S) : outcome (fe * fe * list fe * list msg * S) :=
  for_ n 0 (fun j st =>
    let '(prev, sum, r_v, t, s) := st in
    r_v <- (if zero_rv then wr r_v j (fe_of_int 0) else Ok r_v) ;;
    if j + 1 =? n then
      ' (poly, s) <- zi_phase2_lastbit I s prev j ;;
      r <- rd r_v j ;;
      reject_if (fe_ne (fe_add (fe_add (quintuple_eval poly (fe_of_int 0)) (quintuple_eval poly (fe_of_int 1)))
                               (fe_mul relay (zi_v_u I s))) sum) ;;;
      Ok (r, fe_add (quintuple_eval poly r) (fe_mul relay (zi_v_u I s)), r_v, t ++ quint_msgs poly, s)
    else
      ' (poly, s) <- zi_phase2_update I s prev j ;;
      r <- rd r_v j ;;
      reject_if (fe_ne (fe_add (fe_add (quadratic_eval poly (fe_of_int 0)) (quadratic_eval poly (fe_of_int 1)))
                               (fe_mul relay (zi_v_u I s))) sum) ;;;
      Ok (r, fe_add (quadratic_eval poly r) (fe_mul relay (zi_v_u I s)), r_v, t ++ quad_msgs poly, s))
    (fe_of_int 0, sum, r_v, t, s).

(** zk_verifier.cpp:1074-1116: the two openings of the value mask commitment at
    ([prepreu1], [r_c]) and ([preprev1], [r_c]); the values and the conjunction of
    the two checks. *)
Definition open_R {S} (I : zprover_if S) (r_c : fe) (dR : F) (t : list msg) (s : S)
  : outcome (Z * Z * bool * list msg * S) :=
  ra <- gmp (zi_prepreu1 I s) ;; rc <- gmp r_c ;;
  ' (v1, w, wa, s) <- zi_prove_R I s [ra; rc] ;;
  let t := t ++ curve_msgs w ++ curve_msgs wa in
  b1 <- R_verify (zi_kR I s) [ra; rc] dR v1 w wa ;;
  rb <- gmp (zi_preprev1 I s) ;;
  ' (v2, w, wa, s) <- zi_prove_R I s [rb; rc] ;;
  let t := t ++ curve_msgs w ++ curve_msgs wa in
  b2 <- R_verify (zi_kR I s) [rb; rc] dR v2 w wa ;;
  Ok (v1, v2, b1 && b2, t, s).

(** zk_verifier.cpp:1127-1145: the opening of the mask polynomial. *)
Definition open_mask {S} (I : zprover_if S) (n : nat) (r_u r_v : list fe) (r_c : fe) (dM : F)
    (t : list msg) (s : S) : outcome (Z * bool * list msg * S) :=
  ru <- gmps (firstn n r_u) ;; rv <- gmps (firstn n r_v) ;; rc <- gmp r_c ;;
  let r := ru ++ rv ++ [rc] in
  ' (v, w, wa, s) <- zi_prove_mask I s r ;;
  let t := t ++ curve_msgs w ++ curve_msgs wa in
  b <- M_verify (zi_kM I s) r dM v w wa ;;
  Ok (v, b, t, s).

(** zk_verifier.cpp:896-1177: one iteration of the layer loop. *)
Definition zverify_layer {S} (I : zprover_if S) (C : layered_circuit) (i : nat) (st : zvstate S)
  : outcome (zvstate S) :=
  L <- rd (circuit C) i ;;
  Lm <- rd (circuit C) (i - 1) ;;
  let bl := bit_length L in let blm := bit_length Lm in
  let alpha := t_alpha st in let beta := t_beta st in
  ' (rhos, t) <- rng (t_tr st) 1 ;;
  rho <- rd rhos 0 ;;
  ' (dR, dRa, s) <- zi_sumcheck_init I (t_p st) i bl blm blm alpha beta
         (t_r0 st) (t_r1 st) (t_o0 st) (t_o1 st) ;;
  ' (dM, dMa, s) <- zi_pre_rho I s (blm * 2 + 1) 2 ;;
  let t := t ++ curve_msgs [dM; dMa] ++ curve_msgs [dR; dRa] in
  let s := zi_set_rho I s rho in
  s <- zi_after_rho I s (blm * 2 + 1) 2 ;;
  let r_cc := R_check_commit (zi_kR I s) dR dRa in
  let m_cc := M_check_commit (zi_kM I s) dM dMa in
  let sum := addm (t_sum st) (zi_sumc I s) in
  s <- zi_phase1_init I s ;;
  ' (r_u, t) <- rng t blm ;;
  ' (r_v, t) <- rng t blm ;;
  d0 <- direct_relay i bl (t_r0 st) r_u ;;
  d1 <- direct_relay i bl (t_r1 st) r_u ;;
  let drv := fe_add (fe_mul alpha d0) (fe_mul beta d1) in
  ' (r_cs, t) <- rng t 1 ;;
  r_c <- rd r_cs 0 ;;
  o_u <- one_minus r_u blm ;;
  o_v <- one_minus r_v blm ;;
  ' (prev, sum, t, s) <- zphase1_rounds I blm r_u sum t s ;;
  s <- zi_phase2_init I s prev r_u o_u ;;
  ' (prev, sum, r_v, t, s) <- zphase2_rounds I blm (i =? 1) drv r_v sum t s ;;
  ' ((v_u, v_v), s) <- zi_finalize I s prev ;;
  BB <- zbeta_init i L Lm alpha beta (t_r0 st) (t_r1 st) r_u r_v
          (t_o0 st) (t_o1 st) o_u o_v (t_B st) ;;
  pv <- predicates i L Lm BB (t_r0 st) (t_r1 st) r_u r_v ;;
  general <- zgeneral pv v_u v_v ;;
  ' (poly, s) <- zi_finalround I s prev (blm * 2) general ;;
  reject_if (fe_ne (fe_add (fe_add (quadratic_eval poly (fe_of_int 0)) (quadratic_eval poly (fe_of_int 1)))
                           (fe_mul drv v_u)) sum) ;;;
  let r_c := if i =? 1 then fe_of_int 0 else r_c in
  let sum := fe_add (quadratic_eval poly r_c) (fe_mul drv (zi_v_u I s)) in
  ' (vR1, vR2, r_ok, t, s) <- open_R I r_c dR t s ;;
  reject_if (negb (r_ok && r_cc)) ;;;
  ' (vM, m_ok, t, s) <- open_mask I blm r_u r_v r_c dM t s ;;
  reject_if (negb (m_cc && m_ok)) ;;;
  let maskpoly_value := fe_of_mpz vM in
  let maskRg1_value := fe_of_mpz vR1 in
  let maskRg2_value := fe_of_mpz vR2 in
  general <- zgeneral' pv v_u v_v ;;
  reject_if (fe_ne sum
    (fe_add (fe_add (fe_add (fe_add (fe_mul r_c general)
       (fe_mul (fe_mul (fe_mul alpha (zi_Iuv I s)) (zi_preZu I s)) maskRg1_value))
       (fe_mul (fe_mul (fe_mul beta (zi_Iuv I s)) (zi_preZv I s)) maskRg2_value))
       (fe_mul rho maskpoly_value))
       (fe_mul drv v_u))) ;;;
  ' (als, t) <- rng t 1 ;;
  ' (bes, t) <- rng t 1 ;;
  alpha <- rd als 0 ;;
  beta <- rd bes 0 ;;
  let sum := if negb (i =? 1) then fe_add (fe_mul alpha v_u) (fe_mul beta v_v) else v_u in
  Ok (ZVState alpha beta sum r_u r_v o_u o_v BB t s).

(** zk_verifier.cpp:1179-1224: the opening of the input commitment. *)
Definition zverify_input {S} (I : zprover_if S) (n : nat) (dI dI2 : F) (st : zvstate S) : outcome (list msg) :=
  r_0 <- gmps (firstn n (t_r0 st)) ;;
  _ <- gmps (firstn n (t_r1 st)) ;;
  let s := t_p st in
  Zu <- gmp (zi_Zu I s) ;;
  ' (ans, w, wa, s) <- zi_prove_input I s r_0 Zu ;;
  let t := t_tr st ++ curve_msgs w ++ curve_msgs wa in
  Zu <- gmp (zi_Zu I s) ;;
  ok <- I_verify (zi_kI I s) r_0 dI dI2 Zu ans w wa ;;
  reject_if (negb ok) ;;;
  reject_if (fe_ne (t_sum st) (fe_of_mpz ans)) ;;;
  Ok t.

(** zk_verifier.cpp:846-894: the input commitment, the output points and the first
    claim; the two elements of the input commitment that are used later and the
    state before the first layer. *)
Definition zverify_start {S} (I : zprover_if S) (C : layered_circuit) (BB0 : zbetas * zbetas) (s0 : S)
  : outcome (F * F * zvstate S) :=
  let d := total_depth C in
  ' (result, s) <- zi_evaluate I s0 ;;
  L0 <- rd (circuit C) 0 ;;
  ' (dI, dIa, dI2, dI2a, s) <- zi_commit I s (bit_length L0) ;;
  let t := curve_msgs [dI; dIa] ++ curve_msgs [dI2; dI2a] in
  let alpha := fe_of_int 1 in
  let beta := fe_of_int 0 in
  Lout <- rd (circuit C) (d - 1) ;;
  let blo := bit_length Lout in
  ' (r_0, t) <- rng t blo ;;
  ' (r_1, t) <- rng t blo ;;
  o_0 <- one_minus r_0 blo ;;
  o_1 <- one_minus r_1 blo ;;
  ' (a_0, s) <- zi_V_res I s o_0 r_0 result blo (2 ^ blo) ;;
  let a_0 := fe_mul alpha a_0 in
  Ok (dI, dI2, ZVState alpha beta a_0 r_0 r_1 o_0 o_1 BB0 t s).
(** zk_verifier.cpp:896-1177: the first [k] iterations of
    [for(int i = d - 1; i >= 1; --i)]. *)
Definition zverify_layers {S} (I : zprover_if S) (C : layered_circuit) (k : nat) (st : zvstate S) : outcome (zvstate S) :=
  for_ k 0 (fun k st => zverify_layer I C (total_depth C - 1 - k) st) st.
(** zk_verifier.cpp:846-1258: [true] with the final transcript; [RetFalse] is
    [return false]. *)
Definition zverify_body {S} (I : zprover_if S) (C : layered_circuit) (BB0 : zbetas * zbetas) (s0 : S)
  : outcome (bool * list msg) :=
  ' (dI, dI2, st) <- zverify_start I C BB0 s0 ;;
  L0 <- rd (circuit C) 0 ;;
  st <- zverify_layers I C (total_depth C - 1) st ;;
  t <- zverify_input I (bit_length L0) dI dI2 st ;;
  _ <- output_to_file t ;;
  Ok (true, t).
Definition zverify {S} (I : zprover_if S) (C : layered_circuit) (BB0 : zbetas * zbetas) (s0 : S)
  : outcome bool :=
  match zverify_body I C BB0 s0 with RetFalse => Ok false | o => p <- o ;; Ok (fst p) end.
End Verifier.

(** The tables allocated by the loader (zk_verifier.cpp:172-190). *)
Definition init_zbetas (max_bit_length : nat) : zbetas :=
  let h := max_bit_length / 2 in
  let f := repeat fe_zero (2 ^ h) in
  let s := repeat fe_zero (2 ^ (max_bit_length - h)) in
  ZBetas f s f s f s f s.
(** The verifier run against the honest prover on a loaded circuit. *)
Definition run_zk (enc : F -> list Z) (aes : bits -> bits -> bits) (fr : nat -> u512) (zr : nat -> Z)
    (C : layered_circuit) : outcome bool :=
  let m := max_bit_length C in
  zverify enc (transcript_random aes) (zhonest fr zr) C (init_zbetas m, init_zbetas m) (init_zprover C m).
