(** * Model of src/linear_gkr/prover_fast_para_track.cpp

    The multi-threaded prover.  Its build target is commented out in the
    Makefile (lines 57-58).  The functions started as threads are modelled as
    programs over one shared memory ([Conc]); the code around them is a list of
    phases, each a set of threads that are started together and joined, a
    serial piece of code being a phase of one thread.

    A cell is one [field_element] or one [int]: an access to a [field_element]
    is several machine accesses, which makes no difference to an execution
    without a data race.  Timing code is left out; members that no thread
    writes ([length_g], [C], [sumcheck_layer_id], ...) and arguments passed by
    value are parameters.  [unordered_map::operator[]] on a present key
    (lines 251-257, 513-518) is a read of the map. *)
From Coq Require Import ZArith List Bool Arith.
From Verif Require Import Base Limbs Field Poly Circuit FastProver Conc.
Import ListNotations.
Open Scope nat_scope.

(** prover_fast_para_track.cpp:3 *)
Definition NUM_THREADS := 4.

(** ** Memory *)
Inductive table := TV | TA | TM.  (* V_mult_add, addV_array, add_mult_sum *)
Inductive comp := Ca | Cb.        (* .a and .b of a linear_poly *)
(** The arrays.  [Tab s t c] is component [c] of the array [t]: the code swaps
    the pointers [V_mult_add], [nV_mult_add] etc. (lines 399-401, 684-686), so each table
    has two buffers, told apart by [s].  [Out s] are the two buffers of [V_res].
    No cell of [Outside] is ever allocated: it stands for negative indices. *)
Inductive arr :=
| Outside | Raw | Out (s : bool) | OneMinusR0 | RZero | CircuitValue
| G0f | G0s | G1f | G1s | BetaGSum | Uf | Us | BetaU
| Tab (s : bool) (t : table) (c : comp)
| CountA | CountM | RetA | RetB | RetC.
Definition loc := (arr * nat)%type.
Inductive cell := Fe (x : fe) | Int (z : Z).
(** The arrays are typed: the second case does not arise. *)
Definition as_fe (c : cell) : fe := match c with Fe x => x | Int _ => fe_zero end.
Definition as_int (c : cell) : Z := match c with Int z => z | Fe _ => 0%Z end.

Definition table_eqb (a b : table) : bool :=
  match a, b with TV, TV => true | TA, TA => true | TM, TM => true | _, _ => false end.
Definition comp_eqb (a b : comp) : bool := match a, b with Ca, Ca => true | Cb, Cb => true | _, _ => false end.
Definition arr_eqb (a b : arr) : bool :=
  match a, b with
  | Outside, Outside | Raw, Raw | OneMinusR0, OneMinusR0 | RZero, RZero | CircuitValue, CircuitValue
  | G0f, G0f | G0s, G0s | G1f, G1f | G1s, G1s | BetaGSum, BetaGSum | Uf, Uf | Us, Us | BetaU, BetaU
  | CountA, CountA | CountM, CountM | RetA, RetA | RetB, RetB | RetC, RetC => true
  | Out s, Out s' => Bool.eqb s s'
  | Tab s t c, Tab s' t' c' => Bool.eqb s s' && table_eqb t t' && comp_eqb c c'
  | _, _ => false
  end.
Definition loc_eqb (a b : loc) : bool := arr_eqb (fst a) (fst b) && (snd a =? snd b).
Notation memory := (mem loc cell).
Notation thread := (prog loc cell).

Definition getf (a : arr) (i : nat) (k : fe -> thread) : thread := Get (a, i) (fun c => k (as_fe c)).
Definition geti (a : arr) (i : nat) (k : Z -> thread) : thread := Get (a, i) (fun c => k (as_int c)).
Definition putf (a : arr) (i : nat) (x : fe) (k : thread) : thread := Put (a, i) (Fe x) k.
Definition puti (a : arr) (i : nat) (z : Z) (k : thread) : thread := Put (a, i) (Int z) k.
(** Read at an [int] index. *)
Definition getfz (a : arr) (z : Z) (k : fe -> thread) : thread :=
  if (z <? 0)%Z then getf Outside 0 k else getf a (Z.to_nat z) k.

(** ** Phases *)
Definition phase := (nat * pool (L := loc) (V := cell))%type.
Definition serial (p : thread) : phase := (1, fun _ => p).
(** [for(j) threads[j] = std::thread(f, j); for(j) threads[j].join();] *)
Definition parallel (f : nat -> thread) : phase := (NUM_THREADS, f).
(** All outcomes of a list of phases; [None] is undefined behaviour. *)
Inductive exec : list phase -> memory -> option memory -> Prop :=
| exec_nil : forall m, exec [] m (Some m)
| exec_undef : forall n ps r m, undefined loc_eqb n m ps -> exec ((n, ps) :: r) m None
| exec_cons : forall n ps r m m' o, finishes loc_eqb n m ps m' -> exec r m' o -> exec ((n, ps) :: r) m o.

(** ** V_res *)
(** [noutput[j].value = (output[j << 1].value * one_minus_r_0[i].value +
    output[j << 1 | 1].value * r_0[i].value) % mod] *)
Definition V_res_entry (i : nat) (output noutput : arr) (j : nat) : thread :=
  getf output (Nat.shiftl j 1) (fun x0 => getf OneMinusR0 i (fun o =>
  getf output (Nat.lor (Nat.shiftl j 1) 1) (fun x1 => getf RZero i (fun r =>
  putf noutput j (u512_mod (u512_add (u512_mul x0 o) (u512_mul x1 r))) Ret)))).
(** prover_fast_para_track.cpp:10-18 *)
Definition V_res_func (i id : nat) (output noutput : arr) (upper_bound : nat) : thread :=
  let bs := upper_bound / NUM_THREADS in
  let st := id * bs in
  let ed := (id + 1) * bs in
  pfor (ed - st) st (V_res_entry i output noutput).
(** Lines 30-46: round [i], with [output] the buffer [s]. *)
Definition V_res_round (i : nat) (s : bool) (output_size : nat) : phase :=
  let half := Nat.shiftr output_size 1 in
  if NUM_THREADS <=? half
  then parallel (fun id => V_res_func i id (Out s) (Out (negb s)) half)
  else serial (pfor half 0 (V_res_entry i (Out s) (Out (negb s)))).
Fixpoint V_res_rounds (n i : nat) (s : bool) (output_size : nat) : list phase :=
  match n with
  | 0 => []
  | S n' => V_res_round i s output_size :: V_res_rounds n' (S i) (negb s) (Nat.shiftr output_size 1)
  end.
(** prover_fast_para_track.cpp:20-47 *)
Definition V_res_code (r_0_size output_size : nat) : list phase :=
  serial (pfor output_size 0 (fun i => getf Raw i (fun x => putf (Out false) i x Ret)))
  :: V_res_rounds r_0_size 0 false output_size.
(** The buffer [output] points to at the end. *)
Definition V_res_buffer (r_0_size : nat) : bool := Nat.odd r_0_size.

(** ** Slices of the other functions *)
(** [bs = total / NUM_THREADS; if(bs == 0) bs = 1;] *)
Definition block_of (total : nat) : nat := let bs := total / NUM_THREADS in if bs =? 0 then 1 else bs.
(** [st = id * bs, ed = (id + 1) * bs; if(ed > total) ed = total;
    for(int i = st; i < ed; ++i) body] *)
Definition slice (total id : nat) (body : nat -> thread) : thread :=
  let bs := block_of total in
  let st := id * bs in
  let ed := Nat.min ((id + 1) * bs) total in
  pfor (ed - st) st body.
(** The same without the second line (lines 243-247). *)
Definition slice_open (total id : nat) (body : nat -> thread) : thread :=
  let bs := block_of total in
  pfor ((id + 1) * bs - id * bs) (id * bs) body.

(** ** Phase 1, tables *)
(** verifier_fast_para_track.cpp:43, 69: [u_gates[u]] lists [(ty, (g, v))] for
    the gates with left input [u], in the order of [g]. *)
Definition u_gates (gs : list gate) (u : nat) : list (Z * nat * Z) :=
  flat_map (fun gt : nat * gate => let '(g, x) := gt in
    if (g_u x =? Z.of_nat u)%Z then [(g_ty x, g, g_v x)] else []) (combine (seq 0 (length gs)) gs).
(** verifier_fast_para_track.cpp:44, 70: [v_gates[v]] lists [(ty, (g, u))]. *)
Definition v_gates (gs : list gate) (v : nat) : list (Z * nat * Z) :=
  flat_map (fun gt : nat * gate => let '(g, x) := gt in
    if (g_v x =? Z.of_nat v)%Z then [(g_ty x, g, g_u x)] else []) (combine (seq 0 (length gs)) gs).

Fixpoint each {A} (l : list A) (body : A -> thread) : thread :=
  match l with
  | [] => Ret
  | x :: r => andthen (body x) (each r body)
  end.

(** Lines 201-205 *)
Definition reset1 (s : bool) (i : nat) : thread :=
  let zero := fe_of_int 0 in
  getf CircuitValue i (fun x =>
  putf (Tab s TV Ca) i (l_a (linear_of x)) (putf (Tab s TV Cb) i (l_b (linear_of x))
  (putf (Tab s TA Ca) i zero (putf (Tab s TA Cb) i zero
  (putf (Tab s TM Ca) i zero (putf (Tab s TM Cb) i zero Ret)))))).
(** Lines 218-219 *)
Definition beta_g_entry (first_half i : nat) : thread :=
  let mask := 2 ^ first_half - 1 in
  getf G0f (Nat.land i mask) (fun a => getf G0s (Nat.shiftr i first_half) (fun b =>
  getf G1f (Nat.land i mask) (fun c => getf G1s (Nat.shiftr i first_half) (fun d =>
  putf BetaGSum i (u512_mod (u512_add (u512_mul a b) (u512_mul c d))) Ret)))).
(** Lines 254-266: one gate [(ty, g, v)] of [u_gates[u]] *)
Definition phase1_gate_entry (s : bool) (u : nat) (x : Z * nat * Z) : thread :=
  let '(ty, g, v) := x in
  match ty with
  | 0%Z =>
      getf (Tab s TA Cb) u (fun b => getfz CircuitValue v (fun y => getf BetaGSum g (fun w =>
      putf (Tab s TA Cb) u (u512_mod (u512_add b (u512_mul y w)))
      (getf (Tab s TM Cb) u (fun b' => getf BetaGSum g (fun w' =>
      putf (Tab s TM Cb) u (u512_mod (u512_add b' w')) Ret))))))
  | 1%Z =>
      getf (Tab s TM Cb) u (fun b => getfz CircuitValue v (fun y => getf BetaGSum g (fun w =>
      putf (Tab s TM Cb) u (u512_mod (u512_add b (u512_mul y w))) Ret)))
  | _ => Ret
  end.
(** Lines 192-220, then 243-269 *)
Definition phase1_tables (s : bool) (b lg : nat) (id : nat) : thread :=
  andthen (slice (2 ^ b) id (reset1 s)) (slice (2 ^ lg) id (beta_g_entry (Nat.shiftr lg 1))).
Definition phase1_wires (s : bool) (gs : list gate) (b : nat) (id : nat) : thread :=
  slice_open (2 ^ b) id (fun i => each (u_gates gs i) (phase1_gate_entry s i)).
(** prover_fast_para_track.cpp:185-270, for a layer with gates [gs], [length_g]
    = [lg], over a layer with [bit_length] [b]. *)
Definition phase1_init_func (s : bool) (gs : list gate) (b lg : nat) (id : nat) : thread :=
  andthen (phase1_tables s b lg id) (phase1_wires s gs b id).

(** ** Rounds *)
(** One table of lines 341-348, 619-626 ([current_bit == 0]) *)
Definition fold_first (s : bool) (t : table) (i : nat) (k : thread) : thread :=
  getf (Tab s t Cb) (Nat.shiftl i 1) (fun z =>
  putf (Tab (negb s) t Cb) i z
  (getf (Tab s t Cb) (Nat.lor (Nat.shiftl i 1) 1) (fun o => getf (Tab (negb s) t Cb) i (fun nb =>
  putf (Tab (negb s) t Ca) i (fe_sub o nb) k)))).
(** One table of lines 353-360, 631-638; [minus] is how the new slope is formed from [a * r + b] and the new constant. *)
Definition fold_next (minus : u512 -> fe -> u512) (r : fe) (s : bool) (t : table) (i : nat) (k : thread) : thread :=
  getf (Tab s t Ca) (Nat.shiftl i 1) (fun a0 => getf (Tab s t Cb) (Nat.shiftl i 1) (fun b0 =>
  putf (Tab (negb s) t Cb) i (u512_mod (u512_add (u512_mul a0 r) b0))
  (getf (Tab s t Ca) (Nat.lor (Nat.shiftl i 1) 1) (fun a1 => getf (Tab s t Cb) (Nat.lor (Nat.shiftl i 1) 1) (fun b1 =>
  getf (Tab (negb s) t Cb) i (fun nb =>
  putf (Tab (negb s) t Ca) i (u512_mod (minus (u512_add (u512_mul a1 r) b1) nb)) k)))))).
(** Lines 354, 357, 360: [... - nb + mod] *)
Definition minus1 (x : u512) (nb : fe) : u512 := u512_add (u512_sub x nb) modv.
(** Lines 632, 635, 638: [... - nb] *)
Definition minus2 (x : u512) (nb : fe) : u512 := u512_sub x nb.

(** [%] applied or not *)
Definition mod_if (now : bool) (x : u512) : u512 := if now then u512_mod x else x.
(** Lines 363-378, 641-658 *)
Definition sum_entry (s : bool) (id i : nat) (now : bool) : thread :=
  let nV := Tab (negb s) TV in let nA := Tab (negb s) TA in let nM := Tab (negb s) TM in
  getf RetA id (fun ra => getf (nM Ca) i (fun ma => getf (nV Ca) i (fun va =>
  putf RetA id (mod_if now (u512_add ra (u512_mul ma va)))
  (getf RetB id (fun rb => getf (nM Ca) i (fun ma => getf (nV Cb) i (fun vb =>
   getf (nM Cb) i (fun mb => getf (nV Ca) i (fun va => getf (nA Ca) i (fun aa =>
  putf RetB id (mod_if now (u512_add (u512_add (u512_add rb (u512_mul ma vb)) (u512_mul mb va)) aa))
  (getf RetC id (fun rc => getf (nM Cb) i (fun mb => getf (nV Cb) i (fun vb => getf (nA Cb) i (fun ab =>
  putf RetC id (mod_if now (u512_add (u512_add rc (u512_mul mb vb)) ab)) Ret))))))))))))))).
Definition round_entry (minus : u512 -> fe -> u512) (every : nat) (s : bool) (total_uv current_bit : nat) (r : fe)
    (id i : nat) : thread :=
  let fold := if current_bit =? 0 then fold_first s else fold_next minus r s in
  fold TV i (fold TA i (fold TM i
    (sum_entry s id i ((i mod every =? 0) || (i + 1 =? Nat.shiftr total_uv 1))))).
(** Lines 381-383, 662-664 *)
Definition final_mod (id : nat) : thread :=
  getf RetA id (fun a => putf RetA id (u512_mod a)
  (getf RetB id (fun b => putf RetB id (u512_mod b)
  (getf RetC id (fun c => putf RetC id (u512_mod c) Ret))))).
(** Lines 332-334, 675: [rets[id] = 0] *)
Definition zero_ret (id : nat) : thread :=
  putf RetA id (fe_of_int 0) (putf RetB id (fe_of_int 0) (putf RetC id (fe_of_int 0) Ret)).
(** prover_fast_para_track.cpp:321-384 *)
Definition phase1_update_func (s : bool) (total_uv current_bit : nat) (r : fe) (id : nat) : thread :=
  andthen (zero_ret id)
    (andthen (slice (Nat.shiftr total_uv 1) id (round_entry minus1 4 s total_uv current_bit r id)) (final_mod id)).
(** prover_fast_para_track.cpp:604-665 *)
Definition phase2_update_func (s : bool) (total_uv current_bit : nat) (r : fe) (id : nat) : thread :=
  andthen (slice (Nat.shiftr total_uv 1) id (round_entry minus2 8 s total_uv current_bit r id)) (final_mod id).
(** prover_fast_para_track.cpp:386-395 and 667-679, up to the sum of the [rets] *)
Definition phase1_update_code (s : bool) (total_uv current_bit : nat) (r : fe) : list phase :=
  [parallel (phase1_update_func s total_uv current_bit r)].
Definition phase2_update_code (s : bool) (total_uv current_bit : nat) (r : fe) : list phase :=
  [serial (pfor NUM_THREADS 0 zero_ret); parallel (phase2_update_func s total_uv current_bit r)].
(** Lines 396-397, 681-682: [ret = ret + rets[i]] for the cells [RetA], [RetB] or [RetC]. *)
Definition sum_rets (m : memory) (a : arr) : option fe :=
  fold_left (fun acc i => match acc, m (a, i) with
                          | Some x, Some c => Some (fe_add x (as_fe c))
                          | _, _ => None end) (seq 0 NUM_THREADS) (Some (fe_of_int 0)).

(** ** Phase 2, tables *)
(** Line 431 *)
Definition beta_u_entry (first_half i : nat) : thread :=
  let mask := 2 ^ first_half - 1 in
  getf Uf (Nat.land i mask) (fun a => getf Us (Nat.shiftr i first_half) (fun b =>
  putf BetaU i (u512_mod (u512_mul a b)) Ret)).
(** Lines 449-455 *)
Definition reset2 (s : bool) (i : nat) : thread :=
  let zero := fe_of_int 0 in
  putf (Tab s TM Ca) i zero (putf (Tab s TM Cb) i zero (putf (Tab s TA Ca) i zero (putf (Tab s TA Cb) i zero
  (puti CountA i 0 (puti CountM i 0 (getf CircuitValue i (fun x =>
  putf (Tab s TV Ca) i (l_a (linear_of x)) (putf (Tab s TV Cb) i (l_b (linear_of x)) Ret)))))))).
(** [counter[v]++; if(counter[v] > 30) { counter[v] = 0; t[v].b = t[v].b % mod; }] *)
Definition count_up (cnt : arr) (s : bool) (t : table) (v : nat) (k : thread) : thread :=
  geti cnt v (fun n => puti cnt v (n + 1)
  (geti cnt v (fun n' => if (n' >? 30)%Z
     then puti cnt v 0 (getf (Tab s t Cb) v (fun b => putf (Tab s t Cb) v (u512_mod b) k))
     else k))).
(** Lines 519-548: one gate [(ty, g, u)] of [v_gates[v]] *)
Definition phase2_gate_entry (s : bool) (v_u : fe) (v : nat) (x : Z * nat * Z) : thread :=
  let '(ty, g, u) := x in
  match ty with
  | 1%Z =>
      getf (Tab s TM Cb) v (fun b => getf BetaGSum g (fun wg => getfz BetaU u (fun wu =>
      putf (Tab s TM Cb) v (u512_add b (u512_mod (u512_mul (u512_mod (u512_mul wg wu)) v_u)))
      (count_up CountM s TM v Ret))))
  | 0%Z =>
      getf (Tab s TM Cb) v (fun b => getf BetaGSum g (fun wg => getfz BetaU u (fun wu =>
      putf (Tab s TM Cb) v (u512_add b (u512_mul wg wu))
      (getf BetaGSum g (fun wg => getfz BetaU u (fun wu => getf (Tab s TA Cb) v (fun b' =>
      putf (Tab s TA Cb) v (u512_add (u512_mul (u512_mod (u512_mul wg wu)) v_u) b')
      (count_up CountM s TM v (count_up CountA s TA v Ret)))))))))
  | _ => Ret
  end.
(** Lines 555-558 *)
Definition reduce2 (s : bool) (i : nat) : thread :=
  let finish (cnt : arr) (t : table) (k : thread) :=
    geti cnt i (fun n => if (n =? 0)%Z then k
                         else getf (Tab s t Cb) i (fun b => putf (Tab s t Cb) i (u512_mod b) k)) in
  finish CountM TM (finish CountA TA Ret).
(** prover_fast_para_track.cpp:414-560 *)
Definition phase2_init_func (s : bool) (gs : list gate) (b lu : nat) (v_u : fe) (id : nat) : thread :=
  andthen (slice (2 ^ lu) id (beta_u_entry (Nat.shiftr lu 1)))
  (andthen (slice (2 ^ b) id (reset2 s))
  (andthen (slice (2 ^ b) id (fun i => each (v_gates gs i) (phase2_gate_entry s v_u i)))
           (slice (2 ^ b) id (reduce2 s)))).
