(** The Hamiltonian of a spin as the class documents it (spin.py 79-85 and 120-126):
    S.D.S + B.g.S, for any operators [S]. *)
From mathcomp Require Import all_ssreflect all_algebra.
Set Implicit Arguments. Unset Strict Implicit. Unset Printing Implicit Defensive.
Import GRing.Theory.
Local Open Scope ring_scope.

Section spin.
Variables (F : fieldType) (A : lalgType F).
Definition sds (S : 'I_3 -> A) (D : 'M[F]_3) : A := \sum_(a < 3) (\sum_(b < 3) (D a b *: (S a * S b))).
Definition bgs (S : 'I_3 -> A) (B : 'rV[F]_3) (g : 'M[F]_3) : A := \sum_(b < 3) ((B *m g) 0 b *: S b).
Definition x3 : 'I_3 := ord0.
Definition y3 : 'I_3 := lift ord0 ord0.
Definition z3 : 'I_3 := lift ord0 (lift ord0 ord0).
(** square of the spin *)
Definition total (S : 'I_3 -> A) : A := S x3 * S x3 + S y3 * S y3 + S z3 * S z3.
End spin.
