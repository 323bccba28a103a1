(** What the integrals for correlated methods should be, stated without the
    arrays of the code: sums over spin orbitals and their spin functions. *)
From mathcomp Require Import all_ssreflect all_algebra.
Set Implicit Arguments.
Unset Strict Implicit.
Unset Printing Implicit Defensive.
Import GRing.Theory.
Local Open Scope ring_scope.

Section Spin.
Variable F : fieldType.
Variables (n : nat) (ca cb : nat -> nat -> F).

(** Component [p] with spin [up] or down of spin orbital [a]; the first [n]
    spin orbitals have spin up. *)
Definition so (a : nat) (up : bool) (p : nat) : F :=
  if up then (if (a < n)%N then ca p a else 0)
  else (if (a < n)%N then 0 else cb p (a - n)%N).

(** Matrix elements of a spin-independent one-electron operator. *)
Definition one_so (h : nat -> nat -> F) (a b : nat) : F :=
  \sum_up \sum_(p < n) \sum_(q < n) so a up p * h p q * so b up q.
(** (ab|cd): both electrons keep their spin. *)
Definition coul (v : nat -> nat -> nat -> nat -> F) (a b c d : nat) : F :=
  \sum_up \sum_up' \sum_(p < n) \sum_(q < n) \sum_(r < n) \sum_(s < n)
    v p q r s * (so a up p * so b up q * (so c up' r * so d up' s)).
(** <ab||cd> *)
Definition anti (v : nat -> nat -> nat -> nat -> F) (a b c d : nat) : F :=
  coul v a c b d - coul v a d b c.
(** The repulsion of the molecule and of the dipole self-energy. *)
Definition with_dse (v : nat -> nat -> nat -> nat -> F) (m : nat) (g : nat -> nat -> nat -> F) :=
  fun p q r s => v p q r s + \sum_(x < m) g x p q * g x r s.
End Spin.

Section Sym.
Variables (F : fieldType).
(** Symmetries of real two-electron integrals. *)
Definition eri_sym (v : nat -> nat -> nat -> nat -> F) : Prop :=
  forall p q r s, v p q r s = v q p r s /\ v p q r s = v r s p q.
Definition sym2 (h : nat -> nat -> F) : Prop := forall p q, h p q = h q p.
(** Orthonormal columns. *)
Definition orthonormal (n : nat) (S c : nat -> nat -> F) : Prop :=
  forall i j, (i < n)%N -> (j < n)%N ->
    \sum_(p < n) \sum_(q < n) c p i * S p q * c q j = (i == j)%:R.
(** Energy of a determinant: one-electron part and half the interaction,
    [occ] listing the occupied spin orbitals. *)
Definition det_energy (n : nat) (ca cb : nat -> nat -> F) (occ : seq nat)
    (h : nat -> nat -> F) (v : nat -> nat -> nat -> nat -> F) : F :=
  (\sum_(i <- occ) one_so n ca cb h i i)
  + 2%:R^-1 * \sum_(i <- occ) \sum_(j <- occ) anti n ca cb v i j i j.
End Sym.

Section Shift.
Variables (F : fieldType) (A : algType F).
(** Modes of frequencies [w] coupled to operators [G]. *)
Definition polaritons (m : nat) (w : nat -> F) (G b bd : nat -> A) : A :=
  \sum_(x < m) (w x *: (bd x * b x) + G x * (b x + bd x)).
End Shift.

Section Dip.
Variables (F : fieldType) (n natom : nat).
(** Expectation of a one-electron operator, electron number, and the dipole of
    all charges. *)
Definition expect (P A : 'M[F]_n) : F := \tr (P *m A).
Definition all_charges (P r : 'M[F]_n) (Z R : 'I_natom -> F) : F :=
  (\sum_i Z i * R i) - expect P r.
End Dip.

Section Fci.
Variables (F : fieldType) (n m : nat) (A : algType F) (hat : {linear 'M[F]_n -> A}).
(** One-electron operator, dipole self-energy as half the sum of squares, and
    the same in normal order: one-electron matrix plus products of integrals. *)
Definition with_squares (h : 'M[F]_n) (g : 'I_m -> 'M[F]_n) : A :=
  hat h + 2%:R^-1 *: \sum_x (hat (g x)) ^+ 2.
Definition normal_ordered (h : 'M[F]_n) (g : 'I_m -> 'M[F]_n) : A :=
  hat h + 2%:R^-1 *: \sum_x ((hat (g x)) ^+ 2 - hat (g x *m g x)).
End Fci.
