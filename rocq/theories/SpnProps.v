From mathcomp Require Import all_ssreflect all_algebra.
From Verif Require Base.
From Verif Require Import SpnModel SpnSpec SpnProofs.
Set Implicit Arguments. Unset Strict Implicit. Unset Printing Implicit Defensive.
Import GRing.Theory.
Local Open Scope ring_scope.

(** C257: the tensor made from the two splittings gives, for any operators, the
    Hamiltonian D (Sz^2 - S^2/3) + E (Sx^2 - Sy^2), and has no trace *)
Theorem C257_splitting (F : fieldType) (A : lalgType F) (S : 'I_3 -> A) (d e : F) : 3%:R != 0 :> F ->
  sds S (zfs_tensor (DScalar d) e) =
    d *: (S z3 * S z3 - 3%:R^-1 *: total S) + e *: (S x3 * S x3 - S y3 * S y3) /\
  \tr (zfs_tensor (DScalar d) e) = 0 /\ (zfs_tensor (DScalar d) e)^T = zfs_tensor (DScalar d) e.
Proof.
move=> h; split; [exact: zfs_ham|split; [exact: zfs_trace|]].
apply/matrixP=> i j; rewrite !mxE eq_sym; case: eqP => // ->; done.
Qed.
Print Assumptions C257_splitting.

(** a tensor that is given is kept, whatever [E] *)
Theorem C257_given (F : fieldType) (t : 'M[F]_3) (e : F) : zfs_tensor (DTensor t) e = t.
Proof. by []. Qed.
Print Assumptions C257_given.

(** there is no splitting in zero field when the squares of the three components are
    equal, as for spin one half *)
Theorem C257_half (F : fieldType) (A : lalgType F) (S : 'I_3 -> A) (d e : F) : 3%:R != 0 :> F ->
  S x3 * S x3 = S z3 * S z3 -> S y3 * S y3 = S z3 * S z3 -> sds S (zfs_tensor (DScalar d) e) = 0.
Proof.
move=> h hx hy; rewrite zfs_ham // /total hx hy subrr scaler0 addr0.
set Z := S z3 * S z3; have -> : Z + Z + Z = 3%:R *: Z by rewrite scaler_nat -addrA [RHS]mulrS mulr2n.
by rewrite scalerA mulVf // scale1r subrr scaler0.
Qed.
Print Assumptions C257_half.

Example C257_example : 3%:R != 0 :> rat_fieldType /\
  zfs_tensor (DScalar (3%:R : rat_fieldType)) 0 z3 z3 = 2%:R.
Proof. split=> //. by rewrite mxE /= mulfVK. Qed.

(** C258: a number couples the field to the spin along the field, three numbers couple
    each axis with its own factor, and a tensor is kept *)
Theorem C258_gtensor (F : fieldType) (A : lalgType F) (S : 'I_3 -> A) (B : 'rV[F]_3) :
  (forall g : F, exists t, set_gfactor (GScalar g) = Base.Ok t /\ bgs S B t = g *: (\sum_(b < 3) (B 0 b *: S b))) /\
  (forall v : 'rV[F]_3, exists t, set_gfactor (GThree v) = Base.Ok t /\ bgs S B t = \sum_(b < 3) ((B 0 b * v 0 b) *: S b)) /\
  (forall t : 'M[F]_3, set_gfactor (GTensor t) = Base.Ok t) /\
  (forall n, set_gfactor (@GOther F n) = Base.Err Base.ValueError).
Proof.
split; [|split; [|split]] => //.
- by move=> g; eexists; split; [reflexivity|apply: g_scalar].
- by move=> v; eexists; split; [reflexivity|apply: g_three].
Qed.
Print Assumptions C258_gtensor.

Example C258_example : exists t : 'M[rat_fieldType]_3, set_gfactor (GScalar 2%:R) = Base.Ok t /\ t x3 x3 = 2%:R /\ t x3 y3 = 0.
Proof. eexists; split; [reflexivity|]. by rewrite !mxE /= mul0r mul1r. Qed.

(** C259: a spin object carries the tensors of its arguments.  Missing: its attributes
    D and E *)
Theorem C259_object_partial (F : fieldType) (D : zfs_arg F) (E : F) (g : g_arg F) (t : 'M[F]_3) : set_gfactor g = Base.Ok t ->
  exists o, new_spin D E g = Base.Ok o /\ at_zfs o = zfs_tensor D E /\ at_g o = t.
Proof. by rewrite /new_spin => ->; eexists; split. Qed.
Print Assumptions C259_object_partial.

(** the attributes D and E stay zero whatever the splitting *)
Theorem C259_attributes_refuted : exists d : rat_fieldType, d != 0 /\ forall E g o,
  new_spin (DScalar d) E g = Base.Ok o -> at_D o != d /\ at_D o = 0 /\ at_E o = 0.
Proof.
exists 1; split=> // E g o; rewrite /new_spin; case: (set_gfactor g) => // t [<-] /=.
by split.
Qed.
Print Assumptions C259_attributes_refuted.

Example C259_example : exists o, new_spin (DScalar (1 : rat_fieldType)) 0 (GScalar 1) = Base.Ok o /\ at_D o = 0.
Proof. by eexists; split. Qed.
