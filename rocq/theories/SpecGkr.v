(** * Specification vocabulary for the GKR properties

    Independent of the code: sums over the Boolean cube and the polynomial that
    the sumcheck of one layer runs on. *)
From Coq Require Import ZArith List Bool Arith.
From Verif Require Import Fp MleSpec Circuit.
Import ListNotations.
Open Scope F_scope.

(** Sum over all 0/1 vectors of length [n]. *)
Definition hyper (n : nat) (f : list F -> F) : F := sumn (2 ^ n) (fun x => f (bitvec n x)).

(** Contribution of one gate at the points [X], [Y] of the two input positions,
    where [x], [y] are the previous layer's extension at [X] and [Y].  The copy
    gates (type 4) of layer 1 are bound to the single position [X]. *)
Definition gate_poly (g : gate) (X Y : list F) (x y : F) : F :=
  let u := Z.to_nat (g_u g) in let v := Z.to_nat (g_v g) in
  let at_uv := eqw X u * eqw Y v in
  match g_ty g with
  | 0%Z => at_uv * (x + y)
  | 1%Z => at_uv * (x * y)
  | 4%Z => eqw X u * eqw Y 0 * x
  | 5%Z => sumn (v - u) (fun k => eqw X (u + k)) * eqw Y 0 * x
  | 6%Z => at_uv * (1 - x)
  | 7%Z => at_uv * (x - y)
  | 8%Z => at_uv * (x + y - (1 + 1) * x * y)
  | 9%Z => at_uv * ((1 - x) * y)
  | 10%Z => at_uv * x
  | 12%Z => sumn (v + 1 - u) (fun k => Fpow (1 + 1) k * eqw X (u + k)) * eqw Y 0 * x
  | 13%Z => at_uv * (x * (1 - y))
  | _ => 0
  end.
(** The polynomial of a layer: [gt k] is gate [k] of [n] gates, [W k] its weight
    and [V] the values of the previous layer. *)
Definition layer_poly (n : nat) (gt : nat -> gate) (W V : nat -> F) (X Y : list F) : F :=
  sumn n (fun k => W k * gate_poly (gt k) X Y (mle X V) (mle Y V)).

(** Combined equality weight of output position [k] for two points. *)
Definition out_weight (a b : F) (R0 R1 : list F) (k : nat) : F := a * eqw R0 k + b * eqw R1 k.
