(** * Model of src/linear_gkr/polynomial.cpp *)
From Coq Require Import ZArith List.
From Verif Require Import Limbs Field.

(** polynomial.h:37-48, [ax + b] *)
Record linear_poly := LinearPoly { l_a : fe; l_b : fe }.
(** polynomial.h:22-33, [ax^2 + bx + c] *)
Record quadratic_poly := QuadraticPoly { q_a : fe; q_b : fe; q_c : fe }.
(** polynomial.h:8-19, [ax^3 + bx^2 + cx + d] *)
Record cubic_poly := CubicPoly { c_a : fe; c_b : fe; c_c : fe; c_d : fe }.
(** polynomial.h:51-61, [ax^4 + bx^3 + cx^2 + dx + e] *)
Record quadruple_poly := QuadruplePoly { f_a : fe; f_b : fe; f_c : fe; f_d : fe; f_e : fe }.
(** polynomial.h:63-73, [ax^5 + bx^4 + cx^3 + dx^2 + ex + f] *)
Record quintuple_poly :=
  QuintuplePoly { p_a : fe; p_b : fe; p_c : fe; p_d : fe; p_e : fe; p_f : fe }.

(** polynomial.cpp:14-22 *)
Definition quintuple_add (p x : quintuple_poly) : quintuple_poly :=
  QuintuplePoly (fe_add (p_a p) (p_a x)) (fe_add (p_b p) (p_b x)) (fe_add (p_c p) (p_c x))
    (fe_add (p_d p) (p_d x)) (fe_add (p_e p) (p_e x)) (fe_add (p_f p) (p_f x)).
Definition quintuple_eval (p : quintuple_poly) (x : fe) : fe :=
  fe_add (fe_mul (fe_add (fe_mul (fe_add (fe_mul (fe_add (fe_mul (fe_add (fe_mul (p_a p) x)
    (p_b p)) x) (p_c p)) x) (p_d p)) x) (p_e p)) x) (p_f p).

(** polynomial.cpp:34-42 *)
Definition quadruple_add (p x : quadruple_poly) : quadruple_poly :=
  QuadruplePoly (fe_add (f_a p) (f_a x)) (fe_add (f_b p) (f_b x)) (fe_add (f_c p) (f_c x))
    (fe_add (f_d p) (f_d x)) (fe_add (f_e p) (f_e x)).
Definition quadruple_eval (p : quadruple_poly) (x : fe) : fe :=
  fe_add (fe_mul (fe_add (fe_mul (fe_add (fe_mul (fe_add (fe_mul (f_a p) x)
    (f_b p)) x) (f_c p)) x) (f_d p)) x) (f_e p).

(** polynomial.cpp:53-61 *)
Definition cubic_add (p x : cubic_poly) : cubic_poly :=
  CubicPoly (fe_add (c_a p) (c_a x)) (fe_add (c_b p) (c_b x)) (fe_add (c_c p) (c_c x))
    (fe_add (c_d p) (c_d x)).
Definition cubic_eval (p : cubic_poly) (x : fe) : fe :=
  fe_add (fe_mul (fe_add (fe_mul (fe_add (fe_mul (c_a p) x) (c_b p)) x) (c_c p)) x) (c_d p).

(** polynomial.cpp:72-85 *)
Definition quadratic_add (p x : quadratic_poly) : quadratic_poly :=
  QuadraticPoly (fe_add (q_a p) (q_a x)) (fe_add (q_b p) (q_b x)) (fe_add (q_c p) (q_c x)).
Definition quadratic_mul (p : quadratic_poly) (x : linear_poly) : cubic_poly :=
  CubicPoly (fe_mul (q_a p) (l_a x))
    (fe_add (fe_mul (q_a p) (l_b x)) (fe_mul (q_b p) (l_a x)))
    (fe_add (fe_mul (q_b p) (l_b x)) (fe_mul (q_c p) (l_a x)))
    (fe_mul (q_c p) (l_b x)).
Definition quadratic_eval (p : quadratic_poly) (x : fe) : fe :=
  fe_add (fe_mul (fe_add (fe_mul (q_a p) x) (q_b p)) x) (q_c p).

(** polynomial.cpp:97-116 *)
Definition linear_of (x : fe) : linear_poly := LinearPoly (fe_of_int 0) x.
Definition linear_add (p x : linear_poly) : linear_poly :=
  LinearPoly (fe_add (l_a p) (l_a x)) (fe_add (l_b p) (l_b x)).
Definition linear_mul (p x : linear_poly) : quadratic_poly :=
  QuadraticPoly (fe_mul (l_a p) (l_a x))
    (fe_add (fe_mul (l_a p) (l_b x)) (fe_mul (l_b p) (l_a x)))
    (fe_mul (l_b p) (l_b x)).
Definition linear_eval (p : linear_poly) (x : fe) : fe := fe_add (fe_mul (l_a p) x) (l_b p).

(** polynomial.cpp:91: default constructor, members default-initialised to 0. *)
Definition linear_default : linear_poly := LinearPoly fe_zero fe_zero.
