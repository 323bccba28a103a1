(** Vocabulary for the Hubbard mean-field properties. *)
From mathcomp Require Import all_ssreflect all_algebra.
Set Implicit Arguments.
Unset Strict Implicit.
Unset Printing Implicit Defensive.
Import GRing.Theory Num.Theory.
Local Open Scope ring_scope.

Section Spec.
Variables (F : realFieldType) (L : nat).
(** kinetic energy of one spin species *)
Definition kinetic (T p : 'M[F]_L) : F := \tr (T *m p).
(** two electrons on one site repel with strength U *)
Definition repulsion (U : F) (pa pb : 'M[F]_L) : F := U * \sum_i pa i i * pb i i.
(** energy gained by displacing the phonon of each site, which couples with
    strength g to the number of electrons there *)
Definition polaron (g w : F) (pa pb : 'M[F]_L) : F := \sum_i (g * (pa i i + pb i i)) ^+ 2 / w.
(** orthonormal orbitals *)
Definition orthonormal (c : 'M[F]_L) : Prop := c^T *m c = 1%:M.
(** antisymmetric in the first and in the last pair, symmetric under the
    exchange of the pairs *)
Definition antisymmetrised (n : nat) (v : 'I_n -> 'I_n -> 'I_n -> 'I_n -> F) : Prop :=
  forall p q r s, [/\ v p q r s = - v q p r s, v p q r s = - v p q s r & v p q r s = v r s p q].
End Spec.
