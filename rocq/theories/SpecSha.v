(** * SHA-256, as in FIPS 180-4

    Words are integers in [0, 2^32). *)
From Coq Require Import ZArith List.
From Verif Require Import Fp.
Import ListNotations.
Open Scope Z_scope.

Definition word (x : Z) : Prop := 0 <= x < 2 ^ 32.
(** Section 3.2: shifts and rotations to the right *)
Definition SHR (n x : Z) : Z := Z.shiftr x n.
Definition ROTR (n x : Z) : Z := Z.lor (Z.shiftr x n) (Z.shiftl x (32 - n) mod 2 ^ 32).
(** Section 4.1.2 *)
Definition Ch (x y z : Z) : Z := Z.lxor (Z.land x y) (Z.land (Z.lnot x mod 2 ^ 32) z).
Definition Maj (x y z : Z) : Z := Z.lxor (Z.lxor (Z.land x y) (Z.land x z)) (Z.land y z).
Definition Sigma0 (x : Z) : Z := Z.lxor (Z.lxor (ROTR 2 x) (ROTR 13 x)) (ROTR 22 x).
Definition Sigma1 (x : Z) : Z := Z.lxor (Z.lxor (ROTR 6 x) (ROTR 11 x)) (ROTR 25 x).
Definition sigma0 (x : Z) : Z := Z.lxor (Z.lxor (ROTR 7 x) (ROTR 18 x)) (SHR 3 x).
Definition sigma1 (x : Z) : Z := Z.lxor (Z.lxor (ROTR 17 x) (ROTR 19 x)) (SHR 10 x).
(** Section 4.2.2 *)
Definition sha_K : list Z :=
  [0x428a2f98; 0x71374491; 0xb5c0fbcf; 0xe9b5dba5; 0x3956c25b; 0x59f111f1; 0x923f82a4; 0xab1c5ed5;
   0xd807aa98; 0x12835b01; 0x243185be; 0x550c7dc3; 0x72be5d74; 0x80deb1fe; 0x9bdc06a7; 0xc19bf174;
   0xe49b69c1; 0xefbe4786; 0x0fc19dc6; 0x240ca1cc; 0x2de92c6f; 0x4a7484aa; 0x5cb0a9dc; 0x76f988da;
   0x983e5152; 0xa831c66d; 0xb00327c8; 0xbf597fc7; 0xc6e00bf3; 0xd5a79147; 0x06ca6351; 0x14292967;
   0x27b70a85; 0x2e1b2138; 0x4d2c6dfc; 0x53380d13; 0x650a7354; 0x766a0abb; 0x81c2c92e; 0x92722c85;
   0xa2bfe8a1; 0xa81a664b; 0xc24b8b70; 0xc76c51a3; 0xd192e819; 0xd6990624; 0xf40e3585; 0x106aa070;
   0x19a4c116; 0x1e376c08; 0x2748774c; 0x34b0bcb5; 0x391c0cb3; 0x4ed8aa4a; 0x5b9cca4f; 0x682e6ff3;
   0x748f82ee; 0x78a5636f; 0x84c87814; 0x8cc70208; 0x90befffa; 0xa4506ceb; 0xbef9a3f7; 0xc67178f2].
(** Section 5.3.3 *)
Definition sha_H0 : list Z := [0x6a09e667; 0xbb67ae85; 0x3c6ef372; 0xa54ff53a; 0x510e527f; 0x9b05688c; 0x1f83d9ab; 0x5be0cd19].
(** Section 6.2.2, step 1: the message schedule of the block [M]; the words so far *)
Fixpoint extend (n : nat) (W : list Z) : list Z :=
  match n with
  | O => W
  | S n' =>
      let t := length W in
      extend n' (W ++ [(sigma1 (nth (t - 2) W 0) + nth (t - 7) W 0 + sigma0 (nth (t - 15) W 0) + nth (t - 16) W 0) mod 2 ^ 32])
  end.
Definition message_schedule (M : list Z) : list Z := extend 48 M.
(** Steps 2 and 3: the eight working variables *)
Record vars := Vars { va : Z; vb : Z; vc : Z; vd : Z; ve : Z; vf : Z; vg : Z; vh : Z }.
Definition T1 (s : vars) (k w : Z) : Z := vh s + Sigma1 (ve s) + Ch (ve s) (vf s) (vg s) + k + w.
Definition T2 (s : vars) : Z := Sigma0 (va s) + Maj (va s) (vb s) (vc s).
Definition sha_round (s : vars) (k w : Z) : vars :=
  Vars ((T1 s k w + T2 s) mod 2 ^ 32) (va s) (vb s) (vc s) ((vd s + T1 s k w) mod 2 ^ 32) (ve s) (vf s) (vg s).
Fixpoint sha_rounds (s : vars) (KW : list (Z * Z)) : vars :=
  match KW with
  | [] => s
  | (k, w) :: r => sha_rounds (sha_round s k w) r
  end.
Definition vars_of (H : list Z) : vars :=
  Vars (nth 0 H 0) (nth 1 H 0) (nth 2 H 0) (nth 3 H 0) (nth 4 H 0) (nth 5 H 0) (nth 6 H 0) (nth 7 H 0).
Definition list_of (s : vars) : list Z := [va s; vb s; vc s; vd s; ve s; vf s; vg s; vh s].
(** Step 4, with the constants [K] (those of SHA-256 are [sha_K]): the hash value after the
    block [M], from [H] *)
Definition compress (K H M : list Z) : list Z :=
  map (fun '(x, y) => (x + y) mod 2 ^ 32)
    (combine (list_of (sha_rounds (vars_of H) (combine K (message_schedule M)))) H).

(** The numbers in the [n] variables from [a] on, of the run [val] of a program *)
Definition numbers (val : Z -> F) (a : Z) (n : nat) : list Z := map (fun i => fz (val (a + Z.of_nat i))) (seq 0 n).

(** The test vector of the standard: the message "abc" in one block. *)
Example sha256_abc :
  compress sha_K sha_H0 [0x61626380; 0; 0; 0; 0; 0; 0; 0; 0; 0; 0; 0; 0; 0; 0; 24] =
  [0xba7816bf; 0x8f01cfea; 0x414140de; 0x5dae2223; 0xb00361a3; 0x96177a9c; 0xb410ff61; 0xf20015ad].
Proof. vm_compute. reflexivity. Qed.
