(** The single-band Gutzwiller approximation in the local Fock space of a site,
    independent of the code: configurations 0 (empty), 1 (spin up), 2 (spin
    down), 3 (both). *)
From mathcomp Require Import all_ssreflect all_algebra.
Set Implicit Arguments.
Unset Strict Implicit.
Unset Printing Implicit Defensive.
Import Order.TTheory GRing.Theory Num.Theory.
Local Open Scope ring_scope.

Section Spec.
Variable F : rcfType.

(** The Gutzwiller matrix of a site without magnetisation. *)
Definition phi (f : F * F * F) : 'M[F]_4 := \matrix_(i, j)
  if i == j then (if (i : nat) == 0%N then f.1.1 else if (i : nat) == 3%N then f.2 else f.1.2) else 0.
(** Annihilation operators: c_up |up> = |0>, c_up |both> = |down>,
    c_down |down> = |0>, c_down |both> = - |up>. *)
Definition c_up : 'M[F]_4 := \matrix_(i, j)
  if ((i : nat) == 0%N) && ((j : nat) == 1%N) then 1
  else if ((i : nat) == 2%N) && ((j : nat) == 3%N) then 1 else 0.
Definition c_dn : 'M[F]_4 := \matrix_(i, j)
  if ((i : nat) == 0%N) && ((j : nat) == 2%N) then 1
  else if ((i : nat) == 1%N) && ((j : nat) == 3%N) then -1 else 0.
Definition num (c : 'M[F]_4) : 'M[F]_4 := c^T *m c.

(** Norm, expectation value and numerator of the renormalisation factor. *)
Definition expect (f : F * F * F) (A : 'M[F]_4) : F := \tr ((phi f)^T *m A *m phi f).
Definition hopping (f : F * F * F) (c : 'M[F]_4) : F := \tr ((phi f)^T *m c^T *m phi f *m c).

(** A physical set of amplitudes: norm one, none negative. *)
Definition physical (f : F * F * F) : Prop :=
  [/\ expect f 1%:M = 1, 0 <= f.1.1, 0 <= f.1.2 & 0 <= f.2].

(** Orthonormal eigenvectors as columns, eigenvalues in increasing order. *)
Definition is_eigh n (H C : 'M[F]_n) : Prop :=
  exists e : 'I_n -> F, [/\ C^T *m C = 1%:M, forall j, H *m col j C = e j *: col j C
    & forall i j : 'I_n, (i <= j)%N -> e i <= e j].

(** The energy of a Gutzwiller state: hopping renormalised at both ends, and the
    repulsion of doubly occupied sites. *)
Definition ga_energy n (h rho : 'M[F]_n) (u : 'I_n -> F) (R : 'I_n -> F) (f : 'I_n -> F * F * F) : F :=
  \sum_i \sum_j R i * R j * h i j * rho i j + \sum_i u i * expect (f i) (num c_up *m num c_dn).
End Spec.
