(** What the factorisations should give. *)
From mathcomp Require Import all_ssreflect all_algebra.
Set Implicit Arguments.
Unset Strict Implicit.
Unset Printing Implicit Defensive.
Import Order.TTheory GRing.Theory Num.Theory.
Local Open Scope ring_scope.

(** Symmetric positive semidefinite matrices. *)
Definition qform (F : numFieldType) n (M : 'M[F]_n) (x : 'rV[F]_n) : F := (x *m M *m x^T) ord0 ord0.
Definition psd (F : numFieldType) n (M : 'M[F]_n) : Prop :=
  M^T = M /\ forall x, 0 <= qform M x.

(** The matrix represented by a list of vectors. *)
Definition outer_sum (F : fieldType) n (Ls : seq 'rV[F]_n) : 'M[F]_n := \sum_(L <- Ls) L^T *m L.
Definition within (F : numFieldType) n (eps : F) (A B : 'M[F]_n) : Prop :=
  forall i j, `|A i j - B i j| <= eps.

(** Two-electron integrals of a list of Cholesky vectors, and their rotation. *)
Definition eri_of (F : fieldType) p (Ls : seq 'M[F]_p) (a b c d : 'I_p) : F :=
  \sum_(L <- Ls) L a b * L c d.

(** Exchange contraction of one vector with a density. *)
Definition exchange1 (F : fieldType) N (L G : 'M[F]_N) : F :=
  \sum_a \sum_r \sum_b \sum_s L a r * L b s * G a s * G b r.
(** Elements outside the band vanish. *)
Definition in_band (F : fieldType) N (bw : nat) (L : 'M[F]_N) : Prop :=
  forall i j : 'I_N, (i + bw < j)%N || (j + bw < i)%N -> L i j = 0.

(** A singular value decomposition in descending order whose singular values at
    or below the tolerance vanish. *)
Definition exact_svd (F : numFieldType) N (tol : F) (L U : 'M[F]_N) (s : 'I_N -> F) (V : 'M[F]_N) : Prop :=
  [/\ L = U *m diag_mx (\row_k s k) *m V,
      forall i j : 'I_N, (i <= j)%N -> s j <= s i
    & forall j, ~~ (tol < s j) -> s j = 0].
