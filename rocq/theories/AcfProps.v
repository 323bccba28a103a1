(** Property of the autocorrelation function: C112. *)
From mathcomp Require Import all_ssreflect all_algebra all_field.
From Verif Require Import AcfModel AcfSpec AcfProofs.
Set Implicit Arguments.
Unset Strict Implicit.
Unset Printing Implicit Defensive.
Import GRing.Theory Num.Theory.
Local Open Scope ring_scope.

(** C112.  The values obtained by Fourier transforms are the sums of products
    of deviations: zero padding to twice the next power of two suffices for
    every lag. *)
Theorem C112_sums_partial : forall (C : numClosedFieldType) (z : C) (x : seq C) (k : nat),
  (2 * next_pow2 (size x)).-primitive_root z -> all (mem Num.real) x -> (k < size x)%N ->
  acf_raw z x k = lagged x k / (4 * next_pow2 (size x))%:R /\ acf z x k = lagged x k / lagged x 0.
Proof. by move=> C z x k pr re kx; split; [exact: raw_ok|exact: acf_ok]. Qed.
Print Assumptions C112_sums_partial.
(** They differ from the documented averages by the factor (N-k)/N ... *)
Theorem C112_factor_partial : forall (C : numClosedFieldType) (z : C) (x : seq C) (k : nat),
  (2 * next_pow2 (size x)).-primitive_root z -> all (mem Num.real) x -> (k < size x)%N ->
  acf z x k = documented_normalised x k * ((size x - k)%:R / (size x)%:R).
Proof. exact acf_documented. Qed.
Print Assumptions C112_factor_partial.
(** ... for instance -1/2 instead of -1 for the series 1, -1. *)
Theorem C112_documented_refuted : exists (z : algC) (x : seq algC) (k : nat),
  (2 * next_pow2 (size x)).-primitive_root z /\ all (mem Num.real) x /\ (k < size x)%N /\
  acf z x k != documented_normalised x k.
Proof. exact acf_bad_ex. Qed.
Print Assumptions C112_documented_refuted.
