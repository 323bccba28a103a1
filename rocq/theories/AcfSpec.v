(** The documented autocorrelation function. *)
From mathcomp Require Import all_ssreflect all_algebra.
Set Implicit Arguments.
Unset Strict Implicit.
Unset Printing Implicit Defensive.
Import GRing.Theory Num.Theory.
Local Open Scope ring_scope.

Section Spec.
Variable (C : numClosedFieldType).
Definition avg (x : seq C) : C := (\sum_(a <- x) a) / (size x)%:R.
(** sum of products of deviations at distance k *)
Definition lagged (x : seq C) (k : nat) : C :=
  \sum_(i < size x - k) (nth 0 x i - avg x) * (nth 0 x (i + k) - avg x).
(** the docstring: ACF(k) = 1/(N-k) sum_i (x_i - mean) (x_{i+k} - mean) *)
Definition documented (x : seq C) (k : nat) : C := lagged x k / (size x - k)%:R.
Definition documented_normalised (x : seq C) (k : nat) : C := documented x k / documented x 0.
End Spec.
