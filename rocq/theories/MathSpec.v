(** Specification vocabulary for the linear-algebra helpers. *)
From mathcomp Require Import all_ssreflect all_algebra all_fingroup.
From Verif Require Import MathModel.
From Verif Require Base.
Set Implicit Arguments.
Unset Strict Implicit.
Unset Printing Implicit Defensive.
Import GRing.Theory Num.Theory.
Local Open Scope ring_scope.

Section Spec.
Variable F : realFieldType.

(** the mathematical matrix held by an array *)
Definition mat (r c : nat) (A : arr F) : 'M[F]_(r, c) := \matrix_(i, j) at2 A i j.
Definition shape (r c : nat) (A : arr F) : Prop := rows A = r /\ cols A = c.

(** the columns of C are orthonormal with respect to the overlap S *)
Definition orthonormal_cols (n k : nat) (S : 'M[F]_n) (C : 'M[F]_(n, k)) : Prop :=
  C^T *m S *m C = 1%:M.

(** number of electrons of a density in a basis with overlap S *)
Definition nelec (n : nat) (S D : 'M[F]_n) : F := \tr (D *m S).

(** What LAPACK promises for dpstrf(S, lower=1): info >= 0, the pivots are
    p(0)+1, p(1)+1, ... for a permutation p, the lower triangle of the leading
    k x k block of the factor has a non-zero diagonal and squares to the
    leading block of the permuted matrix. *)
Definition dpstrf_ok (n k : nat) (S : 'M[F]_n) (r : arr F * seq int * int * int) : Prop :=
  let: (c, piv, rank, info) := r in
  [/\ (0 <= info)%R, rank = k%:Z, (0 < k <= n)%N &
      exists p : {perm 'I_n},
        [/\ size piv = n,
            forall i : 'I_n, nth 0 piv i = (p i).+1%:Z,
            forall i, (i < k)%N -> at2 c i i != 0 &
            forall i j : 'I_n, (i < k)%N -> (j < k)%N ->
              \sum_(l < k) (if (l <= i)%N then at2 c i l else 0) * (if (l <= j)%N then at2 c j l else 0)
              = S (p i) (p j)]].

(** What scipy's eigh(h, s) promises: columns that are s-orthonormal and solve
    the generalised eigenvalue problem. *)
Definition gen_eig (n : nat) (h s : 'M[F]_n) (e : nat -> F) (c : 'M[F]_n) : Prop :=
  c^T *m s *m c = 1%:M /\ h *m c = s *m c *m diag_mx (\row_i e i).

(** matrices that differ by signs of whole columns *)
Definition same_up_to_signs (n k : nat) (A B : 'M[F]_(n, k)) : Prop :=
  exists s : 'I_k -> bool, forall i j, B i j = (-1) ^+ s j * A i j.
End Spec.

Section HeffSpec.
Variables (C : numClosedFieldType) (vdim : nat).
(** A is linear-algebra self-adjoint on the vectors used *)
Definition hermitian_op (Aop : vec C -> vec C) : Prop :=
  forall x y : vec C, \sum_(a < vdim) (x a)^* * Aop y a = (\sum_(a < vdim) (y a)^* * Aop x a)^*.
(** the projection of A on the vectors xs *)
Definition projected (Aop : vec C -> vec C) (xs : seq (vec C)) (h : nat -> nat -> C) : Prop :=
  forall i j, (i < size xs)%N -> (j < size xs)%N ->
  h i j = \sum_(a < vdim) (nth (@zerov C) xs i a)^* * Aop (nth (@zerov C) xs j) a.
End HeffSpec.
