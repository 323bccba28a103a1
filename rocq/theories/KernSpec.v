(** Vocabulary for the compiled kernels. *)
From mathcomp Require Import all_ssreflect all_algebra.
Set Implicit Arguments.
Unset Strict Implicit.
Unset Printing Implicit Defensive.
Import GRing.Theory.
Local Open Scope ring_scope.

Section Spec.
Variable F : fieldType.
(** entry (w, i, j) of a row-major array whose last dimensions are n and m *)
Definition entry (n m : nat) (s : nat -> F) (w i j : nat) : F := s ((w * n + i) * m + j)%N.
(** entry (i, j) of a row-major matrix with m columns *)
Definition entry2 (m : nat) (s : nat -> F) (i j : nat) : F := s (i * m + j)%N.
(** the first terms of exp(A) X *)
Definition exp_terms p n (A : 'M[F]_p) (order : nat) (X : 'M[F]_(p, n)) : 'M[F]_(p, n) :=
  \sum_(k < order.+1) k`!%:R^-1 *: iter k (mulmx A) X.
(** the same with 1/k in place of 1/k! *)
Definition harmonic_terms p n (A : 'M[F]_p) (order : nat) (X : 'M[F]_(p, n)) : 'M[F]_(p, n) :=
  X + \sum_(k < order) k.+1%:R^-1 *: iter k.+1 (mulmx A) X.
(** matrix w of an array *)
Definition matrix_at (n m : nat) (s : nat -> F) (w : nat) : 'M[F]_(n, m) := \matrix_(i, j) entry n m s w i j.
End Spec.
