(** Lemmas about the autocorrelation by Fourier transforms. *)
From mathcomp Require Import all_ssreflect all_algebra all_field.
From Verif Require Import AcfModel AcfSpec.
Set Implicit Arguments.
Unset Strict Implicit.
Unset Printing Implicit Defensive.
Import GRing.Theory Num.Theory.
Local Open Scope ring_scope.

Section Acf.
Variable (C : numClosedFieldType).
Implicit Types (z : C) (x : seq C).

Lemma root_sum m z (j : nat) : m.-primitive_root z -> \sum_(q < m) z ^+ (q * j) = if (m %| j)%N then m%:R else 0.
Proof.
move=> pr; have m0 := prim_order_gt0 pr.
have -> : \sum_(q < m) z ^+ (q * j) = \sum_(q < m) (z ^+ j) ^+ q.
  by apply: eq_bigr => q _; rewrite -exprM mulnC.
case: ifP => d.
  have -> : z ^+ j = 1 by apply/eqP; rewrite -(prim_order_dvd pr).
  by under eq_bigr do rewrite expr1n; rewrite sumr_const card_ord.
have n1 : z ^+ j - 1 != 0 by rewrite subr_eq0 -(prim_order_dvd pr) d.
apply: (mulfI n1); rewrite mulr0 -subrX1 -exprM mulnC exprM (prim_expr_order pr) expr1n subrr //.
Qed.
Lemma conj_root m z : m.-primitive_root z -> z^* = z^-1.
Proof.
move=> pr; have m0 := prim_order_gt0 pr.
have h : `|z| = 1.
  apply/eqP; rewrite -(pexpr_eq1 m0) ?normr_ge0 // -normrX (prim_expr_order pr) normr1 //.
have zz : z * z^* = 1 by rewrite -normCK h expr1n.
have z0 : z != 0 by apply/eqP => e; move: zz; rewrite e mul0r => /esym/eqP; rewrite oner_eq0.
by apply: (mulfI z0); rewrite zz divff.
Qed.
Lemma inv_pow m z (p q : nat) : m.-primitive_root z -> (p < m)%N -> z ^- (p * q) = z ^+ ((m - p) * q).
Proof.
move=> pr pm; have z0 : z != 0.
  apply/eqP => e; move: (prim_expr_order pr); rewrite e expr0n; case: eqP => [m0|_ /esym/eqP]; last by rewrite oner_eq0.
  by move: (prim_order_gt0 pr); rewrite m0.
have u : z ^+ (p * q) != 0 by rewrite expf_neq0.
apply: (mulfI u); rewrite divff // -exprD -mulnDl subnKC; last exact: ltnW.
by rewrite exprM (prim_expr_order pr) expr1n.
Qed.
Lemma fft_conj m z (a : seq C) q : m.-primitive_root z -> (forall i, nth 0 a i \is Num.real) ->
  (fft m z a q)^* = \sum_(r < m) nth 0 a r * z ^+ (r * q).
Proof.
move=> pr re; rewrite /fft rmorph_sum; apply: eq_bigr => r _.
rewrite rmorphM /= (CrealP (re r)) fmorphV rmorphX /= (conj_root pr) exprVn invrK //.
Qed.
Lemma dvd_lag m L p r k : (2 * L <= m)%N -> (p < L)%N -> (r < L)%N -> (k < L)%N ->
  (m %| (m - p) + r + k)%N = (p == r + k)%N.
Proof.
move=> Lm pL rL kL.
have pm : (p < m)%N by apply: leq_trans Lm; rewrite mul2n -addnn; apply: (leq_trans pL); apply: leq_addr.
have rkm : (r + k < m)%N.
  by apply: leq_trans Lm; rewrite mul2n -addnn -addnS; apply: leq_add => //; exact: ltnW.
rewrite -addnA; move: (r + k)%N rkm => t tm.
apply/idP/eqP => [/dvdnP[c e]|->]; last by rewrite subnK ?dvdnn // ltnW.
have c1 : c = 1%N.
  have : (c * m < 2 * m)%N by rewrite -e mul2n -addnn -addnS; apply: leq_add => //; exact: leq_subr.
  rewrite ltn_mul2r => /andP[_]; have : (0 < c * m)%N by rewrite -e addn_gt0 subn_gt0 pm.
  by case: c {e} => [|[|c]].
apply/eqP; move: e; rewrite c1 mul1n => /(congr1 (addn^~ p)); rewrite addnAC subnK ?(ltnW pm) // => /addnI -> //.
Qed.
Lemma power_sum m z (a : seq C) k : m.-primitive_root z -> (forall i, nth 0 a i \is Num.real) ->
  (2 * size a <= m)%N -> (k < size a)%N ->
  ifft m z (fun q => fft m z a q * (fft m z a q)^*) k = \sum_(i < size a - k) nth 0 a i * nth 0 a (i + k).
Proof.
move=> pr re Lm kL; have m0 := prim_order_gt0 pr.
have mn : m%:R != 0 :> C by rewrite pnatr_eq0 -lt0n.
have km : (size a <= m)%N by apply: leq_trans Lm; rewrite leq_pmull.
rewrite /ifft.
transitivity (m%:R^-1 * \sum_(p < m) \sum_(r < m) nth 0 a p * nth 0 a r * \sum_(q < m) z ^+ (q * ((m - p) + r + k))).
  congr (_ * _); transitivity (\sum_(q < m) \sum_(p < m) \sum_(r < m) nth 0 a p * nth 0 a r * z ^+ (q * ((m - p) + r + k))).
    apply: eq_bigr => q _; rewrite fft_conj // /fft big_distrl /= mulr_suml; apply: eq_bigr => p _.
    rewrite big_distrr /= mulr_suml; apply: eq_bigr => r _.
    rewrite (inv_pow q pr (ltn_ord p)) mulnDr mulnDr !exprD !(mulnC q).
    by rewrite mulrACA -!mulrA.
  rewrite exchange_big; apply: eq_bigr => p _; rewrite exchange_big; apply: eq_bigr => r _.
  by rewrite big_distrr.
transitivity (\sum_(p < m) \sum_(r < m) nth 0 a p * nth 0 a r * ((m %| (m - p) + r + k)%N)%:R).
  rewrite big_distrr /=; apply: eq_bigr => p _; rewrite big_distrr /=; apply: eq_bigr => r _.
  rewrite (root_sum _ pr) mulrCA; congr (_ * _).
  by case: ifP => _; rewrite ?mulr0 // mulVf.
have z1 (f : nat -> C) : \sum_(p < m) nth 0 a p * f p = \sum_(p < size a) nth 0 a p * f p.
  rewrite -!(big_mkord xpredT (fun p => nth 0 a p * f p)) (big_cat_nat _ _ _ (leq0n (size a)) km) /=.
  rewrite [X in _ + X]big_nat [X in _ + X]big1 ?addr0 //.
  by move=> i /andP[ia _]; rewrite nth_default // mul0r.
transitivity (\sum_(p < size a) \sum_(r < size a) nth 0 a p * nth 0 a r * (p == r + k :> nat)%N%:R).
  under eq_bigr do under eq_bigr do rewrite -mulrA.
  under eq_bigr do rewrite -big_distrr /=.
  rewrite (z1 (fun p => \sum_(r < m) nth 0 a r * ((m %| (m - p) + r + k)%N)%:R)).
  apply: eq_bigr => p _; rewrite (z1 (fun r => ((m %| (m - p) + r + k)%N)%:R)) big_distrr /=.
  by apply: eq_bigr => r _; rewrite mulrA (@dvd_lag m (size a)) // ltn_ord.
rewrite exchange_big /=.
have szk : (size a - k <= size a)%N by apply: leq_subr.
rewrite (big_ord_widen _ (fun i => nth 0 a i * nth 0 a (i + k)) szk) [in RHS]big_mkcond /=.
apply: eq_bigr => r _; case: ltnP => h.
  have h2 : (r + k < size a)%N by rewrite addnC -ltn_subRL.
  rewrite (bigD1 (Ordinal h2)) //= eqxx mulr1 mulrC big1 ?addr0 // => p pn.
  case: eqP => [e|_]; last by rewrite mulr0.
  by case/negP: pn; apply/eqP; apply: val_inj.
rewrite big1 // => p _; case: eqP => [e|_]; last by rewrite mulr0.
by move: (ltn_ord p); rewrite e ltnNge addnC -leq_subLR h.
Qed.

Lemma centred_nth x i : (i < size x)%N -> nth 0 (centred x) i = nth 0 x i - avg x.
Proof. by move=> h; rewrite /centred (nth_map 0). Qed.
Lemma size_centred x : size (centred x) = size x.
Proof. exact: size_map. Qed.
Lemma avg_real x : all (mem Num.real) x -> avg x \is Num.real.
Proof.
move=> /allP h; rewrite /avg rpred_div ?realn // big_seq rpred_sum // => a ax; exact: h.
Qed.
Lemma size_pow2 l : (0 < l)%N -> (l <= next_pow2 l)%N.
Proof. by move=> h; rewrite /next_pow2 up_logP. Qed.
Lemma raw_ok z x k : (2 * next_pow2 (size x)).-primitive_root z -> all (mem Num.real) x -> (k < size x)%N ->
  acf_raw z x k = lagged x k / (4 * next_pow2 (size x))%:R.
Proof.
move=> pr re kx; rewrite /acf_raw; congr (_ / _).
have x0 : (0 < size x)%N by apply: leq_ltn_trans kx.
rewrite power_sum ?size_centred //.
- rewrite /lagged; apply: eq_bigr => i _.
  have ik : (i + k < size x)%N by rewrite addnC -ltn_subRL.
  by rewrite !centred_nth //; apply: leq_ltn_trans ik; apply: leq_addr.
- move=> i; case: (ltnP i (size x)) => h; last by rewrite nth_default ?size_centred ?real0.
  rewrite centred_nth // rpredB ?avg_real //; exact: (allP re _ (mem_nth _ h)).
- by rewrite leq_mul2l size_pow2.
Qed.
Lemma pow2_neq0 l : (4 * next_pow2 l)%:R != 0 :> C.
Proof. by rewrite pnatr_eq0 muln_eq0 /= expn_eq0. Qed.
Lemma acf_ok z x k : (2 * next_pow2 (size x)).-primitive_root z -> all (mem Num.real) x -> (k < size x)%N ->
  acf z x k = lagged x k / lagged x 0.
Proof.
move=> pr re kx; have x0 : (0 < size x)%N by apply: leq_ltn_trans kx.
rewrite /acf !raw_ok //; have := pow2_neq0 (size x); move: (4 * _)%:R => n n0.
by rewrite invfM invrK mulrACA mulVf // mulr1.
Qed.
Lemma acf_documented z x k : (2 * next_pow2 (size x)).-primitive_root z -> all (mem Num.real) x -> (k < size x)%N ->
  acf z x k = documented_normalised x k * ((size x - k)%:R / (size x)%:R).
Proof.
move=> pr re kx; rewrite acf_ok // /documented_normalised /documented subn0.
have x0 : (0 < size x)%N by apply: leq_ltn_trans kx.
have a : (size x)%:R != 0 :> C by rewrite pnatr_eq0 -lt0n.
have b : (size x - k)%:R != 0 :> C by rewrite pnatr_eq0 -lt0n subn_gt0.
rewrite invfM invrK; move: (lagged x k) (lagged x 0)^-1 (size x)%:R (size x - k)%:R a b => u v s t a b.
by rewrite -!mulrA [s * _]mulrCA divff // mulr1 [t^-1 * _]mulrCA mulVf // mulr1.
Qed.
Lemma acf_bad z : (2 * next_pow2 2).-primitive_root z ->
  acf z [:: 1; -1] 1 = - 2%:R^-1 /\ documented_normalised [:: 1; -1 : C] 1 = -1.
Proof.
move=> pr.
have a0 : avg [:: 1; -1 : C] = 0 by rewrite /avg !big_cons big_nil addr0 subrr mul0r.
have l1 : lagged [:: 1; -1 : C] 1 = -1 by rewrite /lagged big_ord_recl big_ord0 /= a0 !subr0 mul1r addr0.
have l0 : lagged [:: 1; -1 : C] 0 = 2%:R.
  by rewrite /lagged /= !big_ord_recl big_ord0 /= a0 !subr0 mulr1 mulrNN mulr1 addr0.
have re : all (mem Num.real) [:: 1; -1 : C] by rewrite /= realN real1.
split; first by rewrite acf_ok // l1 l0 mulN1r.
rewrite /documented_normalised /documented l1 l0 /= divr1 divff ?divr1 //.
by rewrite pnatr_eq0.
Qed.
End Acf.

Lemma acf_bad_ex : exists (z : algC) (x : seq algC) (k : nat),
  (2 * next_pow2 (size x)).-primitive_root z /\ all (mem Num.real) x /\ (k < size x)%N /\
  acf z x k != documented_normalised x k.
Proof.
have [z pr] : {z : algC | (2 * next_pow2 2).-primitive_root z} by apply: C_prim_root_exists.
exists z, [:: 1; -1], 1%N; split=> //; split; first by rewrite /= realN real1.
split=> //; have [-> ->] := acf_bad pr.
rewrite eqr_opp; apply/eqP => e.
have : (2%:R : algC) * 2%:R^-1 = 1 by rewrite divff // pnatr_eq0.
by rewrite e mulr1 => /eqP; rewrite -[X in _ == X]/(1%:R) eqr_nat.
Qed.
