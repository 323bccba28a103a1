(** Proofs about whole propagation steps: calculus of expansions in sqrt(dt). *)
From mathcomp Require Import all_ssreflect all_fingroup all_algebra all_field.
From Verif Require Import LinModel LinSpec LinProofs EBModel EbsModel EbsSpec.
Set Implicit Arguments.
Unset Strict Implicit.
Unset Printing Implicit Defensive.
Import Order.TTheory GRing.Theory Num.Theory.
Local Open Scope ring_scope.

Section Jets.
Variable F : numFieldType.
Implicit Types (f g : F -> F) (q r : {poly F}).

Lemma small_common (d1 d2 : F) : 0 < d1 -> 0 < d2 -> exists d, [/\ 0 < d, d <= d1 & d <= d2].
Proof.
move=> p1 p2; have p12 : 0 < d1 + d2 by apply: addr_gt0.
exists (d1 * d2 / (d1 + d2)); split.
- by rewrite divr_gt0 // mulr_gt0.
- by rewrite ler_pdivr_mulr // ler_pmul2l // ler_addr ltW.
- by rewrite ler_pdivr_mulr // mulrC ler_pmul2l // ler_addl ltW.
Qed.

Definition near f q : Prop := exists C d : F, [/\ 0 <= C, 0 < d &
    forall s, `|s| <= d -> `|f s - q.[s]| <= C * `|s| ^+ 3].

Definition jp (a b c : F) : {poly F} := a%:P + b *: 'X + c *: 'X^2.

Lemma jpE a b c s : (jp a b c).[s] = a + b * s + c * s ^+ 2.
Proof. by rewrite /jp !(hornerD, hornerC, hornerZ, hornerX, hornerXn). Qed.

Lemma expandsE f a b c : expands f a b c <-> near f (jp a b c).
Proof.
by split=> -[C [d [p q h]]]; exists C, d; split=> // s /h; rewrite jpE.
Qed.

Lemma poly_bound q : exists2 B, 0 <= B & forall s : F, `|s| <= 1 -> `|q.[s]| <= B.
Proof.
exists (\sum_(i < size q) `|q`_i|); first by apply: sumr_ge0=> i _; apply: normr_ge0.
move=> s s1; rewrite horner_coef; apply: (le_trans (ler_norm_sum _ _ _)).
apply: ler_sum=> i _; rewrite normrM normrX ler_pimulr ?normr_ge0 //.
by rewrite exprn_ile1 ?normr_ge0.
Qed.

Lemma near_ext f g q (d : F) : 0 < d -> (forall s, `|s| <= d -> f s = g s) -> near g q -> near f q.
Proof.
move=> d0 fg [C [e [C0 e0 h]]]; have [m [m0 md me]] := small_common d0 e0.
exists C, m; split=> // s sm; rewrite fg ?(le_trans sm) //; apply: h; exact: le_trans sm me.
Qed.

Lemma near_eq f g q : f =1 g -> near g q -> near f q.
Proof. by move=> fg; apply: (near_ext (@ltr01 F))=> s _; apply: fg. Qed.

Lemma near_id f q : (forall s, f s = q.[s]) -> near f q.
Proof.
by move=> h; exists 0, 1; split; rewrite ?lexx ?ltr01 // => s _; rewrite h subrr normr0 mul0r.
Qed.

Lemma near_add f g q r : near f q -> near g r -> near (fun s => f s + g s) (q + r).
Proof.
move=> [C [d [C0 d0 h]]] [D [e [D0 e0 k]]]; have [m [m0 md me]] := small_common d0 e0.
exists (C + D), m; split=> //; first exact: addr_ge0.
move=> s sm; rewrite hornerD.
have -> : f s + g s - (q.[s] + r.[s]) = (f s - q.[s]) + (g s - r.[s]) by rewrite opprD addrACA.
rewrite mulrDl; apply: (le_trans (ler_norm_add _ _)); apply: ler_add.
- by apply: h; apply: le_trans sm md.
- by apply: k; apply: le_trans sm me.
Qed.

Lemma near_mul f g q r : near f q -> near g r -> near (fun s => f s * g s) (q * r).
Proof.
move=> [C [d [C0 d0 h]]] [D [e [D0 e0 k]]].
have [m0' [m00 md me]] := small_common d0 e0.
have [m [mp mm m1]] := small_common m00 ltr01.
have [B B0 hB] := poly_bound q; have [B' B'0 hB'] := poly_bound r.
exists (C * (B' + D) + B * D), m; split=> //.
  by apply: addr_ge0; apply: mulr_ge0=> //; apply: addr_ge0.
move=> s sm; rewrite hornerM.
have s1 : `|s| <= 1 by apply: le_trans m1.
have hf := h s (le_trans sm (le_trans mm md)).
have hg := k s (le_trans sm (le_trans mm me)).
have -> : f s * g s - q.[s] * r.[s] = (f s - q.[s]) * g s + q.[s] * (g s - r.[s]).
  by rewrite mulrBl mulrBr addrA subrK.
have gb : `|g s| <= B' + D.
  rewrite -[g s](subrK r.[s]) addrC; apply: (le_trans (ler_norm_add _ _)); apply: ler_add; first exact: hB'.
  by apply: (le_trans hg); rewrite ler_pimulr // exprn_ile1 // normr_ge0.
apply: (le_trans (ler_norm_add _ _)); rewrite !normrM mulrDl; apply: ler_add.
- by rewrite -[X in _ <= X]mulrA [_ * `|s| ^+ 3]mulrC mulrA; apply: ler_pmul; rewrite ?normr_ge0.
- by rewrite -mulrA; apply: ler_pmul; rewrite ?normr_ge0 // hB.
Qed.

Lemma near_const a : near (fun=> a) a%:P.
Proof. by apply: near_id=> s; rewrite hornerC. Qed.

Lemma near_sum (I : Type) (l : seq I) (P : pred I) (f : I -> F -> F) (q : I -> {poly F}) :
  (forall i, P i -> near (f i) (q i)) ->
  near (fun s => \sum_(i <- l | P i) f i s) (\sum_(i <- l | P i) q i).
Proof.
move=> h; elim: l => [|i l IH].
  by rewrite big_nil; apply: (near_eq _ (near_const 0))=> s; rewrite big_nil.
rewrite big_cons; case: ifP=> Pi; last by apply: (near_eq _ IH)=> s; rewrite big_cons Pi.
by apply: (near_eq _ (near_add (h i Pi) IH))=> s; rewrite big_cons Pi.
Qed.

Lemma near_prod (I : Type) (l : seq I) (P : pred I) (f : I -> F -> F) (q : I -> {poly F}) :
  (forall i, P i -> near (f i) (q i)) ->
  near (fun s => \prod_(i <- l | P i) f i s) (\prod_(i <- l | P i) q i).
Proof.
move=> h; elim: l => [|i l IH].
  by rewrite big_nil; apply: (near_eq _ (near_const 1))=> s; rewrite big_nil.
rewrite big_cons; case: ifP=> Pi; last by apply: (near_eq _ IH)=> s; rewrite big_cons Pi.
by apply: (near_eq _ (near_mul (h i Pi) IH))=> s; rewrite big_cons Pi.
Qed.

Lemma near_det n (M : F -> 'M[F]_n) (Q : 'M[{poly F}]_n) :
  (forall i j, near (fun s => M s i j) (Q i j)) -> near (fun s => \det (M s)) (\det Q).
Proof.
move=> h; rewrite /determinant; apply: near_sum=> t _; apply: near_mul.
  by apply: near_id=> s; case: (odd_perm t); rewrite ?expr0 ?expr1 ?hornerN ?hornerC.
by apply: near_prod=> i _; apply: h.
Qed.

(** only the first three coefficients matter *)
Lemma low_split q : exists r, q = jp q`_0 q`_1 q`_2 + 'X^3 * r.
Proof.
exists (\poly_(i < size q) q`_(i.+3)); apply/polyP=> i.
rewrite /jp !coefD coefC !coefZ coefX coefXn coefXnM coef_poly.
case: i => [|[|[|i]]] /=; rewrite ?(mulr1, mulr0, addr0, add0r) //.
rewrite subSS subSS subSS subn0; case: ifP=> // /negbT; rewrite -leqNgt => h.
by rewrite nth_default // (leq_trans h) // -addn3 leq_addr.
Qed.

Lemma near_low f q : near f q <-> near f (jp q`_0 q`_1 q`_2).
Proof.
have [r e] := low_split q; have [B B0 hB] := poly_bound r.
split=> -[C [d [C0 d0 h]]]; have [m [mp md m1]] := small_common d0 ltr01;
  (exists (C + B), m; split=> //; first exact: addr_ge0); move=> s sm.
- have -> : f s - (jp q`_0 q`_1 q`_2).[s] = (f s - q.[s]) + s ^+ 3 * r.[s].
    by rewrite [in RHS]e hornerD hornerM hornerXn opprD addrA subrK.
  apply: (le_trans (ler_norm_add _ _)); rewrite mulrDl; apply: ler_add.
    by apply: h; apply: le_trans md.
  by rewrite normrM normrX mulrC ler_pmul ?exprn_ge0 // hB // (le_trans sm).
- have -> : f s - q.[s] = (f s - (jp q`_0 q`_1 q`_2).[s]) - s ^+ 3 * r.[s].
    by rewrite [in LHS]e hornerD hornerM hornerXn opprD addrA.
  apply: (le_trans (ler_norm_sub _ _)); rewrite mulrDl; apply: ler_add.
    by apply: h; apply: le_trans md.
  by rewrite normrM normrX mulrC ler_pmul ?exprn_ge0 // hB // (le_trans sm).
Qed.

Lemma coef_jp a b c : [/\ (jp a b c)`_0 = a, (jp a b c)`_1 = b & (jp a b c)`_2 = c].
Proof.
by split; rewrite /jp !coefD coefC !coefZ coefX coefXn /= ?(mulr1, mulr0, addr0, add0r).
Qed.

Lemma near_jp f q a b c : near f q -> q`_0 = a -> q`_1 = b -> q`_2 = c -> near f (jp a b c).
Proof. by move=> /near_low h <- <- <-. Qed.

Lemma low_eq f q r : (forall i, (i < 3)%N -> q`_i = r`_i) -> near f q -> near f r.
Proof.
move=> h /near_low; rewrite (h 0%N) // (h 1%N) // (h 2%N) // => nq.
by apply/near_low.
Qed.

Lemma coefM0 q r : (q * r)`_0 = q`_0 * r`_0.
Proof. by rewrite coefM big_ord_recl big_ord0 addr0. Qed.
Lemma coefM1 q r : (q * r)`_1 = q`_0 * r`_1 + q`_1 * r`_0.
Proof. by rewrite coefM !big_ord_recl big_ord0 addr0. Qed.
Lemma coefM2 q r : (q * r)`_2 = q`_0 * r`_2 + q`_1 * r`_1 + q`_2 * r`_0.
Proof. by rewrite coefM !big_ord_recl big_ord0 addr0 addrA. Qed.

Lemma ex_mul f g a b c a' b' c' : expands f a b c -> expands g a' b' c' ->
  expands (fun s => f s * g s) (a * a') (a * b' + b * a') (a * c' + b * b' + c * a').
Proof.
rewrite !expandsE => h k; have := near_mul h k.
have [e0 e1 e2] := coef_jp a b c; have [g0 g1 g2] := coef_jp a' b' c'.
by move/near_jp; apply; rewrite ?coefM0 ?coefM1 ?coefM2 ?e0 ?e1 ?e2 ?g0 ?g1 ?g2.
Qed.

Lemma jp_add a b c a' b' c' : jp a b c + jp a' b' c' = jp (a + a') (b + b') (c + c').
Proof. by rewrite /jp polyCD !scalerDl addrACA; congr (_ + _); rewrite addrACA. Qed.

Lemma ex_add f g a b c a' b' c' : expands f a b c -> expands g a' b' c' ->
  expands (fun s => f s + g s) (a + a') (b + b') (c + c').
Proof. by rewrite !expandsE -jp_add; apply: near_add. Qed.

Lemma ex_const (a : F) : expands (fun=> a) a 0 0.
Proof. by rewrite expandsE; apply: near_id=> s; rewrite jpE !mul0r !addr0. Qed.

Lemma ex_poly f a b c : (forall s, f s = a + b * s + c * s ^+ 2) -> expands f a b c.
Proof. by move=> h; rewrite expandsE; apply: near_id=> s; rewrite jpE h. Qed.

Lemma ex_scale f a b c k : expands f a b c -> expands (fun s => k * f s) (k * a) (k * b) (k * c).
Proof.
move=> /(ex_mul (ex_const k)); rewrite !mul0r !addr0; exact.
Qed.

Lemma ex_eq f g a b c : f =1 g -> expands g a b c -> expands f a b c.
Proof. by move=> fg /expandsE h; apply/expandsE; apply: near_eq h. Qed.

Lemma ex_ext f g a b c (d : F) : 0 < d -> (forall s, `|s| <= d -> f s = g s) ->
  expands g a b c -> expands f a b c.
Proof. by move=> d0 fg /expandsE h; apply/expandsE; apply: (near_ext d0 fg h). Qed.

Lemma ex_sum (I : Type) (l : seq I) (P : pred I) (f : I -> F -> F) (a b c : I -> F) :
  (forall i, P i -> expands (f i) (a i) (b i) (c i)) ->
  expands (fun s => \sum_(i <- l | P i) f i s) (\sum_(i <- l | P i) a i)
    (\sum_(i <- l | P i) b i) (\sum_(i <- l | P i) c i).
Proof.
move=> h; elim: l => [|i l IH].
  by rewrite !big_nil; apply: (ex_eq _ (ex_const 0))=> s; rewrite big_nil.
rewrite !big_cons; case: ifP=> Pi; last by apply: (ex_eq _ IH)=> s; rewrite big_cons Pi.
by apply: (ex_eq _ (ex_add (h i Pi) IH))=> s; rewrite big_cons Pi.
Qed.

Lemma zero_coef (a : F) (C d : F) : 0 <= C -> 0 < d ->
  (forall s, 0 < s -> s <= d -> `|a| <= C * s) -> a = 0.
Proof.
move=> C0 d0 h; apply/eqP; rewrite -normr_eq0; apply/negPn/negP=> na.
have ap : 0 < `|a| by rewrite lt0r na normr_ge0.
have C1 : 0 < C + 1 by apply: ltr_paddl; rewrite ?ltr01.
have [m [mp m1 m2]] := small_common d0 (divr_gt0 ap C1).
have m3 : 0 < m / 2%:R by rewrite divr_gt0 // ltr0n.
have m4 : m / 2%:R <= m by rewrite ler_pdivr_mulr ?ltr0n // ler_pmulr // ler1n.
have := h (m / 2%:R) m3 (le_trans m4 m1).
have : C * (m / 2%:R) < `|a|; last by move=> k /(lt_le_trans k); rewrite ltxx.
apply: (@le_lt_trans _ _ ((C + 1) * (m / 2%:R))).
  by rewrite ler_pmul2r // ler_addl ler01.
apply: (@lt_le_trans _ _ ((C + 1) * m)).
  by rewrite ltr_pmul2l // ltr_pdivr_mulr ?ltr0n // ltr_pmulr // ltr1n.
by rewrite mulrC -ler_pdivl_mulr.
Qed.

Lemma decays_unique f (r r' : F) : decays_at f r -> decays_at f r' -> r = r'.
Proof.
move=> [C [d [C0 d0 h]]] [D [e [D0 e0 k]]]; have [m [m0 md me]] := small_common d0 e0.
suff /eqP : r' - r = 0 by rewrite subr_eq0 => /eqP.
apply: (@zero_coef _ (C + D) m)=> //; first exact: addr_ge0.
move=> s s0 sm; have as' : `|s| = s by rewrite ger0_norm // ltW.
have hs := h s; have ks := k s; rewrite !as' in hs ks.
have {}hs := hs (le_trans sm md); have {}ks := ks (le_trans sm me).
have s2 : 0 < s ^+ 2 by rewrite exprn_gt0.
rewrite -(ler_pmul2r s2) -mulrA -exprS mulrDl.
have -> : `|r' - r| * s ^+ 2 = `|(r' - r) * s ^+ 2| by rewrite normrM (ger0_norm (ltW s2)).
have -> : (r' - r) * s ^+ 2 = (f s - (1 + 0 * s + - r' * s ^+ 2)) - (f s - (1 + 0 * s + - r * s ^+ 2)).
  by rewrite opprB [RHS]addrC addrA subrK !mul0r !addr0 mulrBl !mulNr opprD opprK addrACA subrr add0r addrC.
apply: (le_trans (ler_norm_sub _ _)); rewrite addrC; exact: ler_add.
Qed.
End Jets.

(** The first coefficients of det(1 + X A). *)
Section Det.
Variable F : numFieldType.

Definition dpol n (A : 'M[F]_n) : {poly F} := \det (1%:M + 'X *: map_mx polyC A).

Lemma coef1X (a : F) : (1 + 'X * a%:P)`_0 = 1 /\ (1 + 'X * a%:P)`_1 = a.
Proof. by split; rewrite coefD coef1 coefXM coefC /= ?addr0 ?add0r. Qed.

Lemma coef_prod1 (I : Type) (l : seq I) (a : I -> F) :
  (\prod_(i <- l) (1 + 'X * (a i)%:P))`_0 = 1 /\ (\prod_(i <- l) (1 + 'X * (a i)%:P))`_1 = \sum_(i <- l) a i.
Proof.
elim: l => [|i l [IH0 IH1]]; first by rewrite !big_nil !coef1.
have [e0 e1] := coef1X (a i).
by rewrite !big_cons coefM0 coefM1 IH0 IH1 e0 e1 !mul1r mulr1 addrC.
Qed.

Lemma dpol_entry n (A : 'M[F]_n) i j :
  (1%:M + 'X *: map_mx polyC A) i j = (i == j)%:R + 'X * (A i j)%:P.
Proof. by rewrite !mxE. Qed.

Lemma perm_two n (t : 'S_n) : t != 1%g -> exists i, t i != i /\ t (t i) != t i.
Proof.
move=> nt; have [/forallP h|] := boolP [forall i, t i == i].
  by case/negP: nt; apply/eqP/permP=> i; rewrite perm1; apply/eqP.
rewrite negb_forall => /existsP [i ti]; exists i; split=> //.
by apply: contra ti => /eqP /perm_inj ->.
Qed.

Lemma dpol_low n (A : 'M[F]_n) : (dpol A)`_0 = 1 /\ (dpol A)`_1 = \tr A.
Proof.
have key k : (k < 2)%N ->
    (dpol A)`_k = (\prod_i (1 + 'X * (A i i)%:P))`_k.
  move=> k2; rewrite /dpol /determinant coef_sum (bigD1 (1 : 'S_n)%g) //= [X in _ + X]big1 => [|t nt].
    rewrite addr0 odd_perm1 expr0 mul1r; apply: (congr1 (fun q : {poly F} => q`_k)).
    by apply: eq_bigr=> i _; rewrite dpol_entry perm1 eqxx.
  have [i [ti tti]] := perm_two nt.
  rewrite (bigD1 i) //= (bigD1 (t i)) //= !dpol_entry.
  rewrite eq_sym (negbTE ti) [t i == t (t i)]eq_sym (negbTE tti) !add0r.
  set r := \prod_(_ < n | _) _; set u := (A i _)%:P; set v := (A (t i) _)%:P.
  have -> : (-1) ^+ t * ('X * u * ('X * v * r)) = 'X^2 * ((-1) ^+ t * u * v * r).
    by rewrite expr2 -!mulrA [u * ('X * _)]mulrCA; move: ((-1) ^+ t) => c; rewrite [c * ('X * _)]mulrCA [c * ('X * _)]mulrCA.
  by rewrite coefXnM k2.
have [p0 p1] := coef_prod1 (index_enum (ordinal_finType n)) (fun i => A i i).
by rewrite !key.
Qed.

Lemma comp_Xn (v : {poly F}) k : 'X^k \Po v = v ^+ k.
Proof. by rewrite rmorphX /= comp_polyX. Qed.

Lemma comp_low (q : {poly F}) (c : F) :
  let r := q \Po (c *: 'X) in r`_0 = q`_0 /\ r`_1 = c * q`_1 /\ r`_2 = c ^+ 2 * q`_2.
Proof.
have [u e] := low_split q; set r := q \Po _.
have -> : r = (q`_0)%:P + (c * q`_1) *: 'X + (c ^+ 2 * q`_2) *: 'X^2 + 'X^3 * ((c ^+ 3) *: (u \Po (c *: 'X))).
  rewrite /r {1}e /jp !comp_polyD comp_polyM comp_polyC !comp_polyZ comp_polyX !comp_Xn.
  by rewrite !exprZn !scalerA -[q`_1 * c]mulrC [q`_2 * _]mulrC -scalerAl -scalerAr.
rewrite /= !coefD !coefC !coefZ !coefX !coefXn !coefXnM /=.
by rewrite ?(mulr1, mulr0, addr0, add0r).
Qed.

Lemma dpol_comp n (A : 'M[F]_n) (v : {poly F}) :
  (dpol A) \Po v = \det (1%:M + v *: map_mx polyC A).
Proof.
rewrite /dpol -[LHS](det_map_mx [rmorphism of comp_poly v]); congr (\det _).
apply/matrixP=> i j; rewrite !mxE /= comp_polyD comp_polyM comp_polyX comp_polyC.
by case: (i == j); rewrite ?comp_polyC // -polyC0 comp_polyC.
Qed.

Lemma dpol_two n (A : 'M[F]_n) : (dpol A)`_2 = 2%:R^-1 * (\tr A ^+ 2 - \tr (A *m A)).
Proof.
have [a0 a1] := dpol_low A; have [b0 b1] := dpol_low (A *m A).
have sq : dpol A * (dpol A \Po ((-1) *: 'X)) = dpol (A *m A) \Po (- 'X^2).
  rewrite !dpol_comp -det_mulmx; congr (\det _).
  rewrite mulmxDl mul1mx mulmxDr mulmx1 -scalemxAl -scalemxAr scalerA scaleN1r mulrN -expr2.
  rewrite map_mxM /= -!addrA; congr (_ + _).
  by rewrite [(- _) *: map_mx _ _]scaleNr addrA addNr add0r.
have [c0 [c1 c2]] := comp_low (dpol A) (-1).
have := congr1 (fun q : {poly F} => q`_2) sq; rewrite coefM2 c0 c1 c2 a0 a1.
have [u e] := low_split (dpol (A *m A)).
have -> : (dpol (A *m A) \Po (- 'X^2))`_2 = - \tr (A *m A).
  rewrite e b0 b1 /jp !comp_polyD comp_polyM comp_polyC !comp_polyZ comp_polyX !comp_Xn.
  rewrite -scaleN1r !exprZn -!exprM !scalerA.
  rewrite !coefD coefC !coefZ -scalerAl coefZ coefXnM !coefXn /=.
  by rewrite ?(mulr1, mulr0, addr0, add0r) mulrN1.
rewrite sqrrN expr1n !mul1r mulr1 mulN1r mulrN => h.
have nz : (2%:R : F) != 0 by rewrite pnatr_eq0.
apply: (mulfI nz); rewrite mulrA divff // mul1r -h expr2 mulr_natl mulr2n.
by rewrite addrA [_ + (_ - _)]addrC subrK.
Qed.

Lemma comp_sq_low (q : {poly F}) :
  let r := q \Po 'X^2 in r`_0 = q`_0 /\ r`_1 = 0 /\ r`_2 = q`_1.
Proof.
have [u e] := low_split q; set r := q \Po _.
have -> : r = (q`_0)%:P + q`_1 *: 'X^2 + 'X^3 * (q`_2 *: 'X + 'X^3 * (u \Po 'X^2)).
  rewrite /r {1}e /jp !comp_polyD comp_polyM comp_polyC !comp_polyZ comp_polyX !comp_Xn.
  rewrite -!exprM mulrDr -scalerAr -exprSr mulrA -exprD /=.
  by rewrite -!addrA.
rewrite /= !coefD !coefC !coefZ !coefXn !coefXnM /=.
by rewrite ?(mulr1, mulr0, addr0, add0r).
Qed.

Definition JM m n (M : F -> 'M[F]_(m, n)) (A B C : 'M[F]_(m, n)) : Prop :=
  forall i j, expands (fun s => M s i j) (A i j) (B i j) (C i j).

Lemma JM_mul m n k (M : F -> 'M[F]_(m, n)) (N : F -> 'M[F]_(n, k)) A B C A' B' C' :
  JM M A B C -> JM N A' B' C' ->
  JM (fun s => M s *m N s) (A *m A') (A *m B' + B *m A') (A *m C' + B *m B' + C *m A').
Proof.
move=> h h' i j; rewrite !mxE -!big_split /=.
apply: (ex_eq (g := fun s => \sum_l M s i l * N s l j)); first by move=> s; rewrite mxE.
by apply: ex_sum=> l _; apply: ex_mul.
Qed.

Lemma JM_const m n (A : 'M[F]_(m, n)) : JM (fun=> A) A 0 0.
Proof. by move=> i j; rewrite !mxE; apply: ex_const. Qed.

Lemma JM_eq m n (M N : F -> 'M[F]_(m, n)) A B C : M =1 N -> JM N A B C -> JM M A B C.
Proof. by move=> e h i j; apply: ex_eq (h i j)=> s; rewrite e. Qed.

Lemma JM_add m n (M N : F -> 'M[F]_(m, n)) A B C A' B' C' :
  JM M A B C -> JM N A' B' C' -> JM (fun s => M s + N s) (A + A') (B + B') (C + C').
Proof.
move=> h h' i j; rewrite !mxE; apply: (ex_eq _ (ex_add (h i j) (h' i j)))=> s; by rewrite mxE.
Qed.

Lemma JM_scale m n (M : F -> 'M[F]_(m, n)) A B C k :
  JM M A B C -> JM (fun s => k *: M s) (k *: A) (k *: B) (k *: C).
Proof. by move=> h i j; rewrite !mxE; apply: (ex_eq _ (ex_scale k (h i j)))=> s; rewrite mxE. Qed.

Lemma ex_det n (M : F -> 'M[F]_n) A B : JM M 1%:M A B ->
  expands (fun s => \det (M s)) 1 (\tr A) (\tr B + 2%:R^-1 * (\tr A ^+ 2 - \tr (A *m A))).
Proof.
move=> h; rewrite expandsE.
pose Q := (1%:M + 'X *: map_mx polyC A) *m (1%:M + 'X^2 *: map_mx polyC B).
have dQ : \det Q = dpol A * (dpol B \Po 'X^2) by rewrite dpol_comp det_mulmx.
have QE : Q = 1%:M + 'X *: map_mx polyC A + 'X^2 *: map_mx polyC B + 'X^3 *: map_mx polyC (A *m B).
  rewrite /Q mulmxDl mul1mx mulmxDr mulmx1 -scalemxAl -scalemxAr scalerA -exprS map_mxM /=.
  by rewrite addrA; congr (_ + _); rewrite addrAC.
have nQ : near (fun s => \det (M s)) (\det Q).
  apply: near_det=> i j; have /expandsE := h i j; apply: low_eq => k k3.
  rewrite QE; have -> : (1%:M + 'X *: map_mx polyC A + 'X^2 *: map_mx polyC B
     + 'X^3 *: map_mx polyC (A *m B)) i j
     = ((i == j)%:R)%:P + 'X * (A i j)%:P + 'X^2 * (B i j)%:P + 'X^3 * ((A *m B) i j)%:P.
    by rewrite !mxE; case: (i == j).
  rewrite /jp !mxE !coefD !coefC !coefZ coefX !coefXn coefXM !coefXnM !coefC.
  by move: k k3 => [|[|[|]]] //= _; rewrite ?(mulr1, mulr0, addr0, add0r).
move: nQ; rewrite dQ => nQ.
have [a0 a1] := dpol_low A; have [b0 b1] := dpol_low B; have [c0 [c1 c2]] := comp_sq_low (dpol B).
apply: (near_jp nQ); rewrite ?coefM0 ?coefM1 ?coefM2 c0 ?c1 ?c2 a0 b0 ?a1 ?b1 ?mulr1 ?mulr0 ?add0r ?addr0 ?mul1r //.
by rewrite dpol_two.
Qed.
End Det.
