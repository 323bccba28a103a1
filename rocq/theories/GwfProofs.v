(** Proofs about the single-band Gutzwiller approximation. *)
From mathcomp Require Import all_ssreflect all_algebra.
From Verif Require Base.
From Verif Require Import LinProofs GwfModel GwfSpec.
Set Implicit Arguments.
Unset Strict Implicit.
Unset Printing Implicit Defensive.
Import Order.TTheory GRing.Theory Num.Theory.
Local Open Scope ring_scope.

Section AbsRing.
Variables (K : Type) (z o : K) (add mul sub : K -> K -> K) (opp : K -> K).
Variable RT : ring_theory z o add mul sub opp (@eq K).
Add Ring KRgwf : RT.
Local Notation "x + y" := (add x y). Local Notation "x * y" := (mul x y).
Local Notation "x - y" := (sub x y). Local Notation "- x" := (opp x).
Lemma ab_init n : (o - n) * (o - n) + (n * (o - n) + n * (o - n)) + n * n = o.
Proof. ring. Qed.
Lemma ab_init2 n : n * (o - n) + n * n = n.
Proof. ring. Qed.
Lemma ab_mix m a b c x y w : a + (b + b) + c = o -> x + (y + y) + w = o ->
  (m * a + (o - m) * x) + ((m * b + (o - m) * y) + (m * b + (o - m) * y)) + (m * c + (o - m) * w) = o.
Proof.
move=> h1 h2; transitivity (m * (a + (b + b) + c) + (o - m) * (x + (y + y) + w)); first by ring.
by rewrite h1 h2; ring.
Qed.
Lemma ab_compl a b c : a + (b + b) + c = o -> o - (b + c) = a + b.
Proof. by move=> <-; ring. Qed.
Lemma ab_cs a b c : (b * b + c * c) * (a * a + b * b) - (c * b + b * a) * (c * b + b * a)
  = (a * c - b * b) * (a * c - b * b).
Proof. ring. Qed.
Lemma ab_emb h k s a b c u m : h + h = o -> s * s = o + o ->
  s * b * (k * s) * a + ((a * (k * s) + (s * b * (m * h) + c * (k * s))) * (s * b)
    + (s * b * (k * s) + c * (u + m)) * c)
  = (o + o) * k * (c * b + b * a + (c * b + b * a)) + u * (c * c) + m * (b * b + c * c).
Proof.
move=> h1 h2; transitivity (s * s * (k * (b * a) + k * (b * a) + k * (b * c) + k * (b * c) + b * b * (m * h))
  + c * c * (u + m)); first by ring.
rewrite h2; transitivity ((o + o) * (k * (b * a) + k * (b * a) + k * (b * c) + k * (b * c))
  + (h + h) * (b * b * m) + c * c * (u + m)); first by ring.
by rewrite h1; ring.
Qed.
End AbsRing.

Section Fock.
Variable F : rcfType.
Implicit Type f : F * F * F.

Lemma phi_diag f : phi f = diag_mx (\row_i (if (i : nat) == 0%N then f.1.1 else if (i : nat) == 3%N then f.2 else f.1.2)).
Proof. by apply/matrixP=> i j; rewrite !mxE; case: (i =P j) => [->|_]; rewrite ?mulr1n ?mulr0n. Qed.

Lemma expectE f (A : 'M[F]_4) : expect f A = \sum_i phi f i i * A i i * phi f i i.
Proof.
rewrite /expect phi_diag tr_diag_mx mul_diag_mx mul_mx_diag /mxtrace; apply: eq_bigr=> i _.
by rewrite !mxE eqxx mulr1n.
Qed.
Lemma hoppingE f (c : 'M[F]_4) : hopping f c = \sum_i \sum_j phi f i i * phi f j j * c j i ^+ 2.
Proof.
rewrite /hopping phi_diag tr_diag_mx mul_diag_mx mul_mx_diag /mxtrace; apply: eq_bigr=> i _.
rewrite mxE; apply: eq_bigr=> j _; rewrite !mxE !eqxx !mulr1n expr2.
by rewrite -!mulrA; congr (_ * _); rewrite mulrCA.
Qed.

Lemma expect1 f : expect f 1%:M = f.1.1 * f.1.1 + (f.1.2 * f.1.2 + f.1.2 * f.1.2) + f.2 * f.2.
Proof.
by rewrite expectE !big_ord_recl big_ord0 /= !mxE /= !mulr1 addr0 !addrA.
Qed.
Lemma hop_up f : hopping f (c_up F) = f.2 * f.1.2 + f.1.2 * f.1.1.
Proof.
rewrite hoppingE !big_ord_recl !big_ord0 /= !mxE /=.
by rewrite !(expr2, mulr0, mul0r, addr0, add0r, mulr1) addrC mulrC.
Qed.
Lemma hop_dn f : hopping f (c_dn F) = f.2 * f.1.2 + f.1.2 * f.1.1.
Proof.
rewrite hoppingE !big_ord_recl !big_ord0 /= !mxE /=.
by rewrite !(expr2, mulr0, mul0r, addr0, add0r, mulrNN, mulr1) addrC mulrC.
Qed.
Lemma num_up f : expect f (num (c_up F)) = f.1.2 * f.1.2 + f.2 * f.2.
Proof.
rewrite expectE !big_ord_recl big_ord0 /= /num !mxE !big_ord_recl !big_ord0 /= !mxE /=.
by rewrite !(mulr0, mul0r, addr0, add0r, mulr1).
Qed.
Lemma num_dn f : expect f (num (c_dn F)) = f.1.2 * f.1.2 + f.2 * f.2.
Proof.
rewrite expectE !big_ord_recl big_ord0 /= /num !mxE !big_ord_recl !big_ord0 /= !mxE /=.
by rewrite !(mulr0, mul0r, addr0, add0r, mulrNN, mulr1).
Qed.
Lemma double f : expect f (num (c_up F) *m num (c_dn F)) = f.2 * f.2.
Proof.
rewrite expectE !big_ord_recl big_ord0 /= /num !mxE !big_ord_recl !big_ord0 /= !mxE !big_ord_recl !big_ord0 /= !mxE /=.
by rewrite !(mulr0, mul0r, addr0, add0r, mulrNN, mulr1).
Qed.
End Fock.

Section Sites.
Variables (F : rcfType) (eps : F).
Hypothesis He : 0 < eps.
Implicit Type f : amps F.

Lemma occupationE f : occupation f = expect f (num (c_up F)) /\ occupation f = expect f (num (c_dn F)).
Proof. by rewrite num_up num_dn; case: f => [[]]. Qed.

Lemma prob_prod (n0 : F) : 0 <= n0 <= 1 -> 0 <= n0 * (1 - n0).
Proof. by case/andP=> a b; rewrite mulr_ge0 // subr_ge0. Qed.

Lemma sqrt_sq (x : F) : 0 <= x -> Num.sqrt x * Num.sqrt x = x.
Proof. by move=> h; rewrite -expr2 sqr_sqrtr. Qed.

Lemma init_ok (n0 : F) : 0 <= n0 <= 1 ->
  exists f, [/\ init_site n0 = Some f, physical f & occupation f = n0].
Proof.
move=> h; have p := prob_prod h; case/andP: (h) => a b.
exists (1 - n0, Num.sqrt (n0 * (1 - n0)), n0); split.
- by rewrite /init_site /np_sqrt ltNge p.
- split=> /=; rewrite ?subr_ge0 ?sqrtr_ge0 // expect1 /= sqrt_sq //.
  exact: (ab_init (frt F)).
- by rewrite /= sqrt_sq //; exact: (ab_init2 (frt F)).
Qed.

Lemma init_nan (n0 : F) : ~~ (0 <= n0 <= 1) -> init_site n0 = None.
Proof.
move=> h; rewrite /init_site /np_sqrt.
have -> // : n0 * (1 - n0) < 0.
case: (ltP n0 0) => [l|l]; first by rewrite nmulr_rlt0 // subr_gt0 (lt_trans l) ?ltr01.
have g : 1 < n0 by move: h; rewrite l /= -ltNge.
by rewrite pmulr_rlt0 ?subr_lt0 // (lt_trans ltr01).
Qed.

Lemma init_norm (n0 : F) f : init_site n0 = Some f -> physical f /\ occupation f = n0.
Proof.
case h: (0 <= n0 <= 1); last by rewrite init_nan ?h.
by have [g [-> p o]] := init_ok h => -[<-].
Qed.

Lemma radicand_gt0 (x : F) : 0 < `|x| + eps.
Proof. by rewrite ltr_paddl. Qed.

Lemma renorm_bounds f (n0 : F) : 0 <= f.1.1 -> 0 <= f.1.2 -> 0 <= f.2 -> 0 <= renorm eps f n0 <= 1.
Proof.
case: f => [[f0 f1] f2] /= a b c; rewrite /renorm; case: ifP=> [_|/negbT]; first by rewrite ler01 lexx.
rewrite -leNgt => ->; rewrite andbT /renorm_raw divr_ge0 ?sqrtr_ge0 // addr_ge0 // mulr_ge0 //.
Qed.

(** With consistent occupations the numerator is bounded (Cauchy-Schwarz). *)
Lemma hop_bound f : physical f ->
  (hopping f (c_up F)) ^+ 2 <= occupation f * (1 - occupation f).
Proof.
case: f => [[f0 f1] f2] [hn a b c]; rewrite hop_up /=.
have -> : 1 - (f1 * f1 + f2 * f2) = f0 * f0 + f1 * f1.
  by apply: (ab_compl (frt F)); move: hn; rewrite expect1.
rewrite -subr_ge0 expr2; have -> := ab_cs (frt F) f0 f1 f2.
by rewrite -expr2 sqr_ge0.
Qed.

Lemma clip_inactive f : physical f -> renorm eps f (occupation f) = renorm_raw eps f (occupation f)
  /\ renorm_raw eps f (occupation f) = hopping f (c_up F) / Num.sqrt (occupation f * (1 - occupation f) + eps).
Proof.
move=> ph; have hb := hop_bound ph.
have p0 : 0 <= occupation f * (1 - occupation f) by apply: le_trans hb; rewrite sqr_ge0.
have rE : renorm_raw eps f (occupation f) = hopping f (c_up F) / Num.sqrt (occupation f * (1 - occupation f) + eps).
  by rewrite hop_up {1}/renorm_raw ger0_norm //; case: (f) => [[]].
split=> //; rewrite /renorm; have q : 0 < Num.sqrt (occupation f * (1 - occupation f) + eps).
  by rewrite sqrtr_gt0 ltr_paddl.
have -> // : (1 < renorm_raw eps f (occupation f)) = false.
apply/negbTE; rewrite -leNgt rE ler_pdivr_mulr // mul1r.
apply: (@le_trans _ _ (Num.sqrt (hopping f (c_up F) ^+ 2))).
  by rewrite sqrtr_sqr ler_norm.
by rewrite ler_sqrt ?(le_trans hb) // ?ler_addl ?ltW // ltr_paddl.
Qed.

Lemma uncorrelated (n0 : F) f : init_site n0 = Some f ->
  renorm eps f n0 ^+ 2 = n0 * (1 - n0) / (n0 * (1 - n0) + eps).
Proof.
move=> h; have [ph o] := init_norm h.
have h01 : 0 <= n0 <= 1 by case: (boolP (0 <= n0 <= 1)) => // /init_nan; rewrite h.
have p := prob_prod h01.
have [c1 c2] := clip_inactive ph; rewrite -o c1 c2 o expr_div_n sqr_sqrtr ?addr_ge0 ?(ltW He) //.
congr (_ / _); rewrite hop_up.
move: h; rewrite /init_site /np_sqrt ltNge p /= => -[<-] /=.
by set q := Num.sqrt _; rewrite [q * _]mulrC -mulrDl addrC subrK mul1r sqr_sqrtr.
Qed.

(** Update of the amplitudes *)
Lemma row_norm (c : 'M[F]_3) : c^T *m c = 1%:M -> expect (new_site c) 1%:M = 1.
Proof.
move=> /mulmx1C /matrixP /(_ ord0 ord0); rewrite !mxE !big_ord_recl big_ord0 /= !mxE => h.
rewrite expect1 /= mulf_div sqrt_sq ?ler0n // -mulrDr -mulr2n -[2%:R^-1 *+ 2]mulr_natr mulVf ?pnatr_eq0 // mulr1.
rewrite -[RHS]h addr0 addrA; congr (_ * _ + _ * _ + _ * _); congr (c _ _); exact: val_inj.
Qed.

Lemma mix_physical (m : F) f g : 0 <= m <= 1 -> expect f 1%:M = 1 -> expect g 1%:M = 1 ->
  physical (mix_site m f g).
Proof.
case: f => [[f0 f1] f2]; case: g => [[g0 g1] g2] /andP [a b]; rewrite !expect1 /= => hf hg.
split=> /=; rewrite ?sqrtr_ge0 // expect1 /= !sqrt_sq.
- exact: (ab_mix (frt F)).
- by rewrite addr_ge0 // mulr_ge0 ?subr_ge0 // -expr2 sqr_ge0.
- by rewrite addr_ge0 // mulr_ge0 ?subr_ge0 // -expr2 sqr_ge0.
- by rewrite addr_ge0 // mulr_ge0 ?subr_ge0 // -expr2 sqr_ge0.
Qed.
End Sites.
