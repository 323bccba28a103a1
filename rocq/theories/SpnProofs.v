From mathcomp Require Import all_ssreflect all_algebra.
From Verif Require Base.
From Verif Require Import SpnModel SpnSpec.
Set Implicit Arguments. Unset Strict Implicit. Unset Printing Implicit Defensive.
Import GRing.Theory.
Local Open Scope ring_scope.

Section tensors.
Variables (F : fieldType) (A : lalgType F).
Hypothesis three : 3%:R != 0 :> F.
Implicit Types (S : 'I_3 -> A) (d e g : F).

Lemma sds_diag S (D : 'M[F]_3) : (forall i j, i != j -> D i j = 0) ->
  sds S D = D x3 x3 *: (S x3 * S x3) + D y3 y3 *: (S y3 * S y3) + D z3 z3 *: (S z3 * S z3).
Proof.
move=> h; rewrite /sds.
have e (a : 'I_3) : \sum_(b < 3) (D a b *: (S a * S b)) = D a a *: (S a * S a).
  rewrite (bigD1 a) //= big1 ?addr0 // => b hb.
  by rewrite h ?scale0r // eq_sym.
by rewrite (eq_bigr _ (fun a _ => e a)) !big_ord_recl big_ord0 addr0 addrA.
Qed.

Lemma third d : d - d / 3%:R = 2%:R / 3%:R * d.
Proof.
have -> : 2%:R = 3%:R - 1 :> F by rewrite -(natrB _ (isT : 1 <= 3)%N).
by rewrite mulrBl divff // mulrBl !mul1r [3%:R^-1 * _]mulrC.
Qed.

Lemma perm (V : zmodType) (a b c p q z : V) : (- a + p) + (- b - q) + (z - c) = z - (a + b + c) + (p - q).
Proof. by rewrite [- a + p + _]addrACA [LHS]addrAC; congr (_ + _); rewrite [LHS]addrCA !opprD. Qed.

Lemma zfs_ham S d e : sds S (zfs_tensor (DScalar d) e) =
  d *: (S z3 * S z3 - 3%:R^-1 *: total S) + e *: (S x3 * S x3 - S y3 * S y3).
Proof.
rewrite sds_diag; last by move=> i j hij; rewrite mxE hij.
rewrite !mxE /= -third /total.
rewrite mulNr.
set X := S x3 * S x3; set Y := S y3 * S y3; set Z := S z3 * S z3.
rewrite !scalerBr !scalerDr !scalerA !scalerDl !scaleNr.
exact: perm.
Qed.

Lemma zfs_trace d e : \tr (zfs_tensor (DScalar d) e) = 0.
Proof.
rewrite /mxtrace !big_ord_recl big_ord0 !mxE /= -third addr0 mulNr.
set a := d / 3%:R; rewrite [_ - a](_ : _ = 2%:R / 3%:R * d) ?third //.
rewrite addrA [- a + e + _]addrACA addrN addr0 -mulr2n.
by rewrite [2%:R / _]mulrC -mulrA [_ * (_ * d)]mulrCA [3%:R^-1 * d]mulrC -/a mulr_natl mulNrn addNr.
Qed.

Lemma g_scalar S (B : 'rV[F]_3) g t : set_gfactor (GScalar g) = Base.Ok t ->
  bgs S B t = g *: (\sum_(b < 3) (B 0 b *: S b)).
Proof.
move=> [<-]; rewrite /bgs scaler_sumr; apply: eq_bigr => b _.
rewrite mxE (bigD1 b) //= big1; last by move=> k hk; rewrite mxE (negPf hk) mul0r mulr0.
by rewrite mxE eqxx mul1r addr0 scalerA mulrC.
Qed.
Lemma g_three S (B v : 'rV[F]_3) t : set_gfactor (GThree v) = Base.Ok t ->
  bgs S B t = \sum_(b < 3) ((B 0 b * v 0 b) *: S b).
Proof.
move=> [<-]; rewrite /bgs; apply: eq_bigr => b _.
rewrite mxE (bigD1 b) //= big1; last by move=> k hk; rewrite mxE (negPf hk) mul0r mulr0.
by rewrite mxE eqxx mul1r addr0.
Qed.
End tensors.
