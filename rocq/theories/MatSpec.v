(* What the matrix functions are supposed to compute, with the matrices of mathcomp. *)
From Verif Require Import Base ImageModel MatModel.
From mathcomp Require Import all_ssreflect all_algebra.
Set Implicit Arguments.
Unset Strict Implicit.
Unset Printing Implicit Defensive.
Import GRing.Theory.
Local Open Scope ring_scope.

(* the stored matrix v is A *)
Definition is_mat (R : Type) (n m : nat) (v : img R) (A : 'M[R]_(n, m)) : Prop :=
  nr v = n /\ nc v = m /\ length (pix v) = (n * m)%N /\
  forall (i : 'I_n) (j : 'I_m), nth_error (pix v) (i * m + j) = Some (A i j).
(* the stored vector l is x *)
Definition is_vec (R : Type) (n : nat) (l : list R) (x : 'cV[R]_n) : Prop :=
  length l = n /\ forall i : 'I_n, nth_error l i = Some (x i 0).
Definition is_rvec (R : Type) (n : nat) (l : list R) (x : 'rV[R]_n) : Prop :=
  length l = n /\ forall i : 'I_n, nth_error l i = Some (x 0 i).

(* the functions of the library for exact arithmetic in a ring or a field *)
Section Field.
Variable F : fieldType.
Variables (fabs : F -> F) (flt : F -> F -> bool).
Definition lu_decompose_field := lu_decompose 0 (fun a b : F => a - b) (fun a b : F => a * b)
  (fun a b : F => a / b) fabs flt (fun a b : F => a == b).
Definition lu_solve_field := lu_solve 0 (fun a b : F => a - b) (fun a b : F => a * b) (fun a b : F => a / b).
Definition lu_invert_field := lu_invert 0 1 (fun a b : F => a - b) (fun a b : F => a * b) (fun a b : F => a / b).
Definition lu_determinant_field := lu_determinant 1 (fun a : F => - a) (fun a b : F => a * b).
Definition determinant_field := mat_determinant 0 1 (fun a : F => - a) (fun a b : F => a - b) (fun a b : F => a * b)
  (fun a b : F => a / b) fabs flt (fun a b : F => a == b).
Definition invert_field := mat_invert 0 1 (fun a b : F => a - b) (fun a b : F => a * b)
  (fun a b : F => a / b) fabs flt (fun a b : F => a == b).
Definition solve_field := mat_solve 0 (fun a b : F => a - b) (fun a b : F => a * b)
  (fun a b : F => a / b) fabs flt (fun a b : F => a == b).
End Field.
Section Ring.
Variable R : ringType.
Definition mat_mul_ring := mat_mul 0 (fun a b : R => a + b) (fun a b : R => a * b).
Definition mat_vec_ring := mat_vec 0 (fun a b : R => a + b) (fun a b : R => a * b).
Definition vec_mat_ring := vec_mat 0 (fun a b : R => a + b) (fun a b : R => a * b).
End Ring.
(* square roots: a real closed field *)
Section Real.
Variable R : rcfType.
Definition chol_decompose_real := chol_decompose 0 (fun a b : R => a + b) (fun a b : R => a - b)
  (fun a b : R => a * b) (fun a b : R => a / b) (fun a b : R => a <= b) (fun a : R => Num.sqrt a).
Definition substitute_forward_real := substitute_forward (fun a b : R => a - b) (fun a b : R => a * b)
  (fun a b : R => a / b).
Definition substitute_backward_real := substitute_backward (fun a b : R => a - b) (fun a b : R => a * b)
  (fun a b : R => a / b).
Definition chol_solve_real := chol_solve (fun a b : R => a - b) (fun a b : R => a * b) (fun a b : R => a / b).
Definition chol_invert_real := chol_invert 0 1 (fun a b : R => a - b) (fun a b : R => a * b) (fun a b : R => a / b).
Definition lower_inverse_real := lower_inverse 0 1 (fun a b : R => a - b) (fun a b : R => a * b) (fun a b : R => a / b).
Definition lower_determinant_real := lower_determinant 1 (fun a b : R => a * b).
End Real.

(* positive definite *)
Definition posdef (R : rcfType) (n : nat) (A : 'M[R]_n) : Prop :=
  forall x : 'cV[R]_n, x != 0 -> 0 < (x^T *m A *m x) 0 0.
