(** * Lines of the two input files of the circuit compiler

    tests/SHA256/parser_sha_data_parallel.cpp:19-30: a line matched against the regular
    expressions, with the numbers in it (the expressions only admit digits, with a sign
    for constants). *)
From Coq Require Import ZArith.
Open Scope Z_scope.

(** ** The program *)
Inductive opname := OAdd | OMul | OXor | OMinus | ONaab | ONot | OBit.
Inductive stmt :=
| Op (o : opname) (t a b : Z)   (* P Vt = Va o Vb E *)
| Sum (t a b : Z)               (* P Vt = Va EXPSUM Vb E *)
| SIn (t i : Z)                 (* P Vt = Ii E *)
| SOut (o a : Z)                (* P Oo = Va E *)
| SBad.                         (* a constant or a line of no known form *)
(** ** The wiring file *)
Inductive rstmt :=
| RConst (t c : Z)              (* P Vt = c E *)
| RIn (t i : Z)                 (* P Vt = Ii E *)
| ROut (o a : Z)                (* P Oo = Va E *)
| RPass (t a b : Z)             (* P Vt = Va PASS Vb E *)
| RBad.                         (* a line of no known form *)
