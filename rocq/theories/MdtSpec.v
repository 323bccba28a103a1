(** What a multi-determinant trial and its orbitals should be, stated without
    the code's formulas. *)
From mathcomp Require Import all_ssreflect all_algebra.
Set Implicit Arguments.
Unset Strict Implicit.
Unset Printing Implicit Defensive.
Import GRing.Theory.
Local Open Scope ring_scope.

Section Spec.
Variables (F : fieldType) (conj : {rmorphism F -> F}).

(** The component of the Slater determinant of the orbitals W along the
    determinant of the basis functions [occ]: the minor of these rows. *)
Definition component p n (occ : 'I_n -> 'I_p) (W : 'M[F]_(p, n)) : F :=
  \det (\matrix_(i, j) W (occ i) j).

(** <Psi|W> for Psi = sum_I c_I |A_I>|B_I>, the terms listed as (c, A, B). *)
Definition overlap p na nb (l : seq (F * (('I_na -> 'I_p) * ('I_nb -> 'I_p))))
   (Wa : 'M[F]_(p, na)) (Wb : 'M[F]_(p, nb)) : F :=
  \sum_(x <- l) conj x.1 * (component x.2.1 Wa * component x.2.2 Wb).

(** Orthonormal orbitals; [S] is the overlap matrix of the basis. *)
Definition orthonormal p n (S : 'M[F]_p) (C : 'M[F]_(p, n)) : Prop :=
  forall i j, \sum_a \sum_b conj (C a i) * S a b * C b j = (i == j)%:R.
End Spec.
