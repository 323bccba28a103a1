(** Proofs about the integral factorisations. *)
From mathcomp Require Import all_ssreflect all_algebra.
From Verif Require Import CholModel CholSpec.
From Verif Require Base.
Set Implicit Arguments.
Unset Strict Implicit.
Unset Printing Implicit Defensive.
Import Order.TTheory GRing.Theory Num.Theory.
Local Open Scope ring_scope.

Section Psd.
Variables (F : numFieldType) (n : nat).
Implicit Types (R : 'M[F]_n) (x y : 'rV[F]_n).
Definition bf R x y : F := (x *m R *m y^T) ord0 ord0.
Lemma bfE R x : bf R x x = qform R x. Proof. by []. Qed.
Lemma bfDl R x x' y : bf R (x + x') y = bf R x y + bf R x' y.
Proof. by rewrite /bf !mulmxDl mxE. Qed.
Lemma bfDr R x y y' : bf R x (y + y') = bf R x y + bf R x y'.
Proof. by rewrite /bf linearD mulmxDr mxE. Qed.
Lemma bfZl R a x y : bf R (a *: x) y = a * bf R x y.
Proof. by rewrite /bf -!scalemxAl mxE. Qed.
Lemma bfZr R a x y : bf R x (a *: y) = a * bf R x y.
Proof. by rewrite /bf linearZ /= -scalemxAr mxE. Qed.
Lemma bf_sym R x y : R^T = R -> bf R x y = bf R y x.
Proof.
move=> S; rewrite /bf -[x *m R *m y^T]trmxK [LHS]mxE !trmx_mul trmxK S mulmxA //.
Qed.
Definition ev (i : 'I_n) : 'rV[F]_n := delta_mx ord0 i.
Lemma bf_ev R i j : bf R (ev i) (ev j) = R i j.
Proof. by rewrite /bf /ev -rowE trmx_delta -colE !mxE. Qed.

Lemma psd_diag R i : psd R -> 0 <= R i i.
Proof. by case=> _ /(_ (ev i)); rewrite -bfE bf_ev. Qed.

Lemma psd_sym R i j : psd R -> R i j = R j i.
Proof. by case=> S _; rewrite -[in LHS]S mxE. Qed.
End Psd.

Section Bound.
Variables (F : realFieldType) (n : nat).
Implicit Types (R : 'M[F]_n) (x y : 'rV[F]_n).
Lemma low_half (a b c d : F) : 0 <= a + c + (c + b) -> a <= d -> b <= d -> - d <= c.
Proof.
move=> H A B; rewrite leNgt; apply/negP => L.
have : a + c + (c + b) < (d + - d) + (- d + d).
  by apply: ltr_le_add; [apply: ler_lt_add|apply: ler_add => //; exact: ltW].
by rewrite subrr addNr addr0 ltNge H.
Qed.
(** every element is bounded by the largest diagonal element *)
Lemma psd_bound R d : psd R -> (forall i, R i i <= d) -> forall i j, `|R i j| <= d.
Proof.
move=> P H i j; have [S Q] := P.
have A := Q (ev _ i + ev _ j); have B := Q (ev _ i + (-1) *: ev _ j).
move: A B; rewrite -!bfE !bfDl !bfDr !bfZl !bfZr !bf_ev (psd_sym j i P) => A B.
rewrite ler_norml (low_half A) //= -ler_opp2; move: B; rewrite !mulN1r opprK => B.
exact: (low_half B).
Qed.

(** one elimination step *)
Definition schur R (nu : 'I_n) : 'M[F]_n := R - (R nu nu)^-1 *: ((row nu R)^T *m row nu R).

Lemma schur_sym R nu : R^T = R -> (schur R nu)^T = schur R nu.
Proof. by move=> S; rewrite /schur linearB linearZ /= trmx_mul trmxK S. Qed.

Lemma schur_bf R nu x : R^T = R -> bf (schur R nu) x x = bf R x x - (R nu nu)^-1 * bf R x (ev F nu) ^+ 2.
Proof.
move=> S; rewrite /bf /schur mulmxBr mulmxBl mxE [X in _ + X]mxE; congr (_ - _).
rewrite -scalemxAr -scalemxAl mxE; congr (_ * _).
rewrite !mulmxA -[x *m _ *m _ *m _]mulmxA mxE big_ord_recl big_ord0 addr0 expr2; congr (_ * _).
  by rewrite /ev rowE trmx_mul S mulmxA.
rewrite rowE -/(bf R (delta_mx 0 nu) x) -/(bf R x (ev F nu)) bf_sym //.
Qed.

Lemma schur_psd R nu : psd R -> 0 < R nu nu -> psd (schur R nu).
Proof.
move=> [S Q] c0; split; first exact: schur_sym.
move=> x; rewrite -bfE schur_bf //; set b := bf R x (ev F nu); set c : F := R nu nu.
have cn : c != 0 by rewrite gt_eqF.
have := Q (x + (- (c^-1 * b)) *: ev F nu).
rewrite -bfE bfDl !bfDr !bfZl !bfZr bf_ev -/c (bf_sym (ev F nu) x S) -/b.
suff -> : bf R x x + - (c^-1 * b) * b + (- (c^-1 * b) * b + - (c^-1 * b) * (- (c^-1 * b) * c))
  = bf R x x - c^-1 * b ^+ 2 by [].
rewrite -addrA; congr (_ + _).
have -> : - (c^-1 * b) * (- (c^-1 * b) * c) = c^-1 * b * b.
  by rewrite mulrA mulrNN -mulrA [c^-1 * b * c]mulrAC mulVf // mul1r.
by rewrite !mulNr addNr addr0 expr2 mulrA.
Qed.

Lemma schur_row0 R nu : R nu nu != 0 -> row nu (schur R nu) = 0.
Proof.
move=> c; apply/rowP => j; rewrite !mxE big_ord_recl big_ord0 !mxE addr0.
by rewrite mulrA mulVf ?mul1r ?subrr.
Qed.

Lemma schur_rank R nu : R^T = R -> R nu nu != 0 -> (\rank (schur R nu) < \rank R)%N.
Proof.
move=> S c; have sub : (schur R nu <= R)%MS.
  rewrite /schur -scaleNr; apply: addmx_sub; first exact: submx_refl.
  exact: scalemx_sub (submx_trans (submxMl _ _) (row_sub _ _)).
rewrite ltnNge; apply/negP => le; have e : (schur R nu == R)%MS.
  by rewrite -(mxrank_leqif_eq sub).2 eqn_leq le (mxrankS sub).
have r0 : (row nu R <= schur R nu)%MS by rewrite (eqmxP e) row_sub.
case/submxP: r0 => D E.
have : row nu R ord0 nu = 0.
  have -> : row nu R ord0 nu = (row nu R *m (delta_mx nu ord0 : 'M[F]_(n, 1))) ord0 ord0.
    by rewrite -colE !mxE.
  rewrite E -mulmxA -colE -[col _ _]trmxK tr_col schur_sym // schur_row0 // trmx0 mulmx0 mxE //.
by rewrite mxE => /eqP; rewrite (negbTE c).
Qed.
End Bound.

Section Loop.
Variables (F : rcfType) (n' : nat).
Notation n := n'.+1.
Variables (M : 'M[F]_n) (thresh : F).
Implicit Types (Ks Ls : seq 'rV[F]_n).

Lemma argmaxP (f : 'I_n -> F) i : f i <= f (argmax f).
Proof. by rewrite /argmax; case: arg_maxP => // k _; apply. Qed.

Definition res_ Ks : 'M[F]_n := M - outer_sum Ks.
Definition pivot_vec (R : 'M[F]_n) (nu : 'I_n) : 'rV[F]_n := (Num.sqrt (R nu nu))^-1 *: row nu R.

Lemma outer_rcons Ks L : outer_sum (rcons Ks L) = outer_sum Ks + L^T *m L.
Proof. by rewrite /outer_sum -cats1 big_cat big_seq1. Qed.

Lemma pivot_outer (R : 'M[F]_n) nu : 0 < R nu nu ->
  (pivot_vec R nu)^T *m pivot_vec R nu = (R nu nu)^-1 *: ((row nu R)^T *m row nu R).
Proof.
move=> c0; rewrite /pivot_vec -scalemxAr [_^T]linearZ /= -scalemxAl scalerA; congr (_ *: _).
by rewrite -invfM -expr2 sqr_sqrtr // ltW.
Qed.

Lemma next_vectorE Ls nu : next_vector M Ls nu (res_ Ls nu nu) = pivot_vec (res_ Ls) nu.
Proof.
rewrite /next_vector /pivot_vec; congr (_ *: _).
rewrite /eri_chunk sqrtr1 invr1 scale1r; apply/rowP => j; rewrite !mxE; congr (_ - _).
rewrite /outer_sum !summxE; apply: eq_bigr => L _.
by rewrite !mxE big_ord_recl big_ord0 addr0 !mxE.
Qed.

Record inv Ks (L map_ : 'rV[F]_n) (d : F) : Prop := Inv {
  i_psd : psd (res_ Ks);
  i_nu : exists nu, [/\ d = res_ Ks nu nu, forall i, res_ Ks i i <= d & L = pivot_vec (res_ Ks) nu];
  i_map : forall i, map_ ord0 i = outer_sum Ks i i;
  i_rank : (size Ks + \rank (res_ Ks) <= \rank M)%N }.

Lemma inv_step Ks L m d : inv Ks L m d -> 0 < d ->
  let Ls := rcons Ks L in
  let m' := \row_i (m ord0 i + L ord0 i * L ord0 i) in
  let delta i := M i i - m' ord0 i in
  let nu := argmax (fun i => `|delta i|) in
  inv Ls (next_vector M Ls nu `|delta nu|) m' `|delta nu|.
Proof.
move=> [P [mu [dE dmax LE]] mE rk] d0 Ls m' delta nu.
have RE : res_ Ls = schur (res_ Ks) mu.
  by rewrite /res_ /Ls outer_rcons opprD addrA -/(res_ Ks) LE pivot_outer //; rewrite -dE.
have P' : psd (res_ Ls) by rewrite RE; apply: schur_psd; rewrite // -dE.
have m'E i : m' ord0 i = outer_sum Ls i i.
  by rewrite /Ls outer_rcons /m' !mxE mE big_ord_recl big_ord0 addr0 !mxE.
have deltaE i : delta i = res_ Ls i i by rewrite /delta m'E /res_ !mxE.
have absE i : `|delta i| = res_ Ls i i by rewrite deltaE ger0_norm // psd_diag.
rewrite absE; split=> //.
- exists nu; split=> //; last exact: next_vectorE.
  by move=> i; rewrite -!absE; exact: (argmaxP (fun i => `|delta i|)).
- rewrite /Ls size_rcons addSn -/Ls RE.
  by apply: leq_trans rk; rewrite ltn_add2l schur_rank //; [case: P|rewrite -dE gt_eqF].
Qed.

Lemma inv_done Ks L m d : 0 <= thresh -> inv Ks L m d -> `|d| <= thresh ->
  [/\ within thresh M (outer_sum Ks), (size Ks <= \rank M)%N & psd (M - outer_sum Ks)].
Proof.
move=> t0 [P [nu [dE dm _]] _ rk] le; split=> //; last by apply: leq_trans rk; rewrite leq_addr.
move=> i j; have := psd_bound P dm i j; rewrite /res_ !mxE => B.
by apply: le_trans B _; apply: le_trans le; rewrite ler_norm.
Qed.
Lemma inv_pos Ks L m d : 0 <= thresh -> inv Ks L m d -> (`|d| <= thresh) = false -> 0 < d.
Proof.
move=> t0 [P [nu [dE _ _]] _ _] /negbT; rewrite -ltNge dE ger0_norm ?psd_diag // => H.
exact: le_lt_trans t0 H.
Qed.

Lemma loop_ok fuel : forall cap Ks L m d r, 0 <= thresh -> inv Ks L m d -> (size Ks < cap)%N ->
  chol_loop M thresh fuel cap (rcons Ks L) m d = Base.Ok r ->
  [/\ within thresh M (outer_sum r), (size r <= \rank M)%N & psd (M - outer_sum r)]
  /\ (size r < cap)%N.
Proof.
elim: fuel => [|f IH] cap Ks L m d r t0 I sz /=.
  case: ifP => // le [<-]; rewrite size_rcons /= -cats1 take_size_cat //.
  by split=> //; apply: inv_done I le.
case: ifP => [le [<-]|nle].
  rewrite size_rcons /= -cats1 take_size_cat //; by split=> //; apply: inv_done I le.
have d0 := inv_pos t0 I nle.
case: ifP => // /negbT; rewrite -ltnNge => lt; rewrite last_rcons [in (size _).-1]size_rcons /=.
rewrite leqNgt lt /=; apply: IH => //; exact: (inv_step I d0).
Qed.

Lemma loop_total fuel : forall cap Ks L m d, 0 <= thresh -> inv Ks L m d ->
  (\rank M < cap)%N -> (\rank (res_ Ks) <= fuel)%N ->
  exists r, chol_loop M thresh fuel cap (rcons Ks L) m d = Base.Ok r.
Proof.
elim: fuel => [|f IH] cap Ks L m d t0 I rc rf /=; case: ifP => [_|nle]; try by eexists.
- have d0 := inv_pos t0 I nle; have [P [nu [dE _ _]] _ _] := I.
  have := schur_rank (R := res_ Ks) (nu := nu); case: P => S _ /(_ S).
  by rewrite -dE gt_eqF // => /(_ isT); move: rf; rewrite leqn0 => /eqP ->.
have d0 := inv_pos t0 I nle.
have I' := inv_step I d0.
have [P [nu [dE _ LE]] _ rk] := I.
have RE : res_ (rcons Ks L) = schur (res_ Ks) nu.
  by rewrite /res_ outer_rcons opprD addrA -/(res_ Ks) LE pivot_outer //; rewrite -dE.
have lt : (\rank (res_ (rcons Ks L)) < \rank (res_ Ks))%N.
  by rewrite RE schur_rank //; [case: P|rewrite -dE gt_eqF].
have sz : (size (rcons Ks L) < cap)%N.
  rewrite size_rcons; apply: leq_ltn_trans rc; apply: leq_trans rk.
  by rewrite -addn1 leq_add2l; apply: leq_ltn_trans lt.
rewrite leqNgt sz /= last_rcons [in (size _).-1]size_rcons /= leqNgt sz /=.
apply: IH => //.
by rewrite -ltnS; apply: leq_trans lt rf.
Qed.

Lemma inv_init : psd M -> let nu := argmax (fun i => M i i) in
  inv [::] (eri_chunk M nu (M nu nu)) 0 (M nu nu).
Proof.
move=> P nu; have E : res_ [::] = M by rewrite /res_ /outer_sum big_nil subr0.
split; rewrite ?E //.
- by exists nu; split=> // i; apply: (argmaxP (fun i => M i i)).
- by move=> i; rewrite /outer_sum big_nil !mxE.
Qed.

Lemma chols_ok cap r : psd M -> 0 <= thresh -> chols_blocked M thresh cap = Base.Ok r ->
  [/\ within thresh M (outer_sum r), (size r <= \rank M)%N, psd (M - outer_sum r) & (size r < cap)%N].
Proof.
move=> P t0; rewrite /chols_blocked; case: ifP => // /negbT; rewrite -lt0n => c.
by move/(@loop_ok _ _ [::] _ _ _ _ t0 (inv_init P) c) => [[]].
Qed.
Lemma chols_total cap : psd M -> 0 <= thresh -> (\rank M < cap)%N ->
  exists r, chols_blocked M thresh cap = Base.Ok r.
Proof.
move=> P t0 rc; rewrite /chols_blocked; case: ifP => [/eqP c|_]; first by move: rc; rewrite c.
apply: (@loop_total _ _ [::] _ _ _ t0 (inv_init P) rc).
by rewrite /res_ /outer_sum big_nil subr0 ltnW.
Qed.

(** SVD route *)
Lemma full_ok (U : 'M[F]_n) (s : 'I_n -> F) :
  U *m U^T = 1%:M -> (forall k, 0 <= s k) -> 0 <= thresh ->
  M = U *m diag_mx (\row_k s k) *m U^T ->
  within thresh M (outer_sum (chols_full thresh U s)).
Proof.
move=> O sp t0 ME i j.
have E : outer_sum (chols_full thresh U s) i j = \sum_(k | thresh < s k) s k * (U i k * U j k).
  rewrite /outer_sum /chols_full big_map big_filter summxE big_enum_cond /=.
  apply: eq_bigr => k _; rewrite !mxE big_ord_recl big_ord0 addr0 !mxE.
  by rewrite mulrACA -expr2 sqr_sqrtr // mulrC.
have A : M i j = \sum_k s k * (U i k * U j k).
  rewrite ME !mxE; apply: eq_bigr => k _; rewrite mul_mx_diag !mxE.
  by rewrite mulrAC mulrC.
rewrite A E [X in X - _](bigID (fun k => thresh < s k)) /= addrAC subrr add0r.
apply: le_trans (ler_norm_sum _ _ _) _.
have row1 p : \sum_k U p k ^+ 2 = 1.
  have E1 : (U *m U^T) p p = 1 by rewrite O mxE eqxx.
  rewrite -E1 mxE.
  by apply: eq_bigr => k _; rewrite mxE expr2.
have step : forall k, ~~ (thresh < s k) -> `|s k * (U i k * U j k)| <= thresh * (2%:R^-1 * (U i k ^+ 2 + U j k ^+ 2)).
  move=> k; rewrite -leNgt => le; rewrite normrM (ger0_norm (sp k)).
  apply: ler_pmul => //; rewrite ?normr_ge0 //.
  rewrite ler_pdivl_mull ?ltr0n // normrM -(real_normK (num_real (U i k))) -(real_normK (num_real (U j k))).
  by rewrite -subr_ge0 mulr_natl addrAC -sqrrB sqr_ge0.
apply: le_trans (ler_sum _ step) _.
apply: le_trans (_ : \sum_k thresh * (2%:R^-1 * (U i k ^+ 2 + U j k ^+ 2)) <= _).
  rewrite [X in _ <= X](bigID (fun k => thresh < s k)) /= ler_addr.
  by apply: sumr_ge0 => k _; rewrite !mulr_ge0 ?invr_ge0 ?ler0n ?addr_ge0 ?sqr_ge0.
rewrite -mulr_sumr -mulr_sumr big_split /= !row1 -[1 + 1]/(2%:R) mulVf ?pnatr_eq0 // mulr1 //.
Qed.
End Loop.

Section More.
Variables (F : rcfType).
Lemma loop_no_fuel n' (M : 'M[F]_n'.+1) thresh fuel : forall cap Ls m d,
  (size Ls <= cap)%N -> (cap < fuel + size Ls)%N ->
  chol_loop M thresh fuel cap Ls m d <> Base.Err Base.OutOfFuel.
Proof.
elim: fuel => [|f IH] cap Ls m d le lt /=; case: ifP => // _; first by move: lt; rewrite ltnNge le.
case: ifP => // /negbT; rewrite -ltnNge => sz; case: ifP => // _.
by apply: IH; rewrite size_rcons // addnS -addSn.
Qed.
Lemma chols_errors n' (M : 'M[F]_n'.+1) thresh cap e :
  chols_blocked M thresh cap = Base.Err e -> e <> Base.OutOfFuel.
Proof.
rewrite /chols_blocked; case: ifP => [_ [<-] //|/negbT c0 E eq]; move: E; rewrite eq.
by apply: loop_no_fuel => //=; rewrite ?lt0n // addn1.
Qed.

Lemma psd1 n : psd (1%:M : 'M[F]_n).
Proof.
split; first by rewrite trmx1.
move=> x; rewrite /qform mulmx1 mxE; apply: sumr_ge0 => k _; rewrite mxE -expr2; exact: sqr_ge0.
Qed.
Lemma limit_bad : chols_blocked (1%:M : 'M[F]_1) 0 1 = Base.Err Base.IndexError.
Proof.
by rewrite /chols_blocked /= [argmax _]ord1 mxE eqxx normr1 ler10.
Qed.

Lemma modify_one n (M : 'M[F]_n) (g : 'rV[F]_n) nu :
  modify_chunk [:: g] nu (row nu M) = Base.Ok (row nu (M + outer_sum [:: g])).
Proof.
rewrite /modify_chunk /outer_sum big_seq1; congr (Base.Ok _); apply/rowP => j; rewrite !mxE.
by rewrite big_ord_recl big_ord0 addr0 !mxE.
Qed.
Lemma modify_two n (g g' : 'rV[F]_n.+1) nu col :
  modify_chunk [:: g; g'] nu col = Base.Err Base.ValueError.
Proof.
rewrite /modify_chunk /= (_ : (2 * n.+1 == n.+1) = false)%N //.
by rewrite -{2}[n.+1]mul1n eqn_pmul2r.
Qed.
End More.

Section Rotation.
Variables (F : fieldType) (conj : {rmorphism F -> F}) (p q : nat) (X : 'M[F]_(p, q)).
Lemma rotateE (L : 'M[F]_p) a b :
  rotate_chol conj X L a b = \sum_i \sum_j conj (X i a) * X j b * L i j.
Proof.
rewrite /rotate_chol mxE; under eq_bigr => j _ do rewrite mxE mulr_suml.
rewrite exchange_big /=; apply: eq_bigr => i _; apply: eq_bigr => j _.
by rewrite !mxE mulrAC.
Qed.
Lemma eri_rotate (Ls : seq 'M[F]_p) a b c d :
  eri_of [seq rotate_chol conj X L | L <- Ls] a b c d
  = \sum_i \sum_j \sum_k \sum_l
      conj (X i a) * X j b * conj (X k c) * X l d * eri_of Ls i j k l.
Proof.
rewrite /eri_of big_map.
under [RHS]eq_bigr => i _ do under eq_bigr => j _ do under eq_bigr => k _ do
  under eq_bigr => l _ do rewrite mulr_sumr.
under [RHS]eq_bigr => i _ do under eq_bigr => j _ do under eq_bigr => k _ do rewrite exchange_big /=.
under [RHS]eq_bigr => i _ do under eq_bigr => j _ do rewrite exchange_big /=.
under [RHS]eq_bigr => i _ do rewrite exchange_big /=.
rewrite [RHS]exchange_big /=; apply: eq_bigr => L _.
rewrite !rotateE mulr_suml; apply: eq_bigr => i _; rewrite mulr_suml; apply: eq_bigr => j _.
rewrite mulr_sumr; apply: eq_bigr => k _; rewrite mulr_sumr; apply: eq_bigr => l _.
by rewrite mulrACA -!mulrA.
Qed.
End Rotation.

Section PlanP.
Variables (F : numFieldType) (N : nat).
Implicit Types (L G : 'M[F]_N).

Lemma blksize_covers thr (Ls : seq 'M[F]_N) : forall b, get_blksize thr Ls = Base.Ok b ->
  forall L, L \in Ls -> forall i j, thr <= `|L i j| -> (i <= j + b)%N && (j <= i + b)%N.
Proof.
elim: Ls => [|L r IH] b //=.
case E: (offdiag thr L) => [|x o] //=; case E2: (get_blksize thr r) => [b2|] //= [<-] L'.
rewrite inE => /orP[/eqP->|/IH H] i j le; last first.
  have /andP[A B] := H _ E2 i j le.
  by apply/andP; split; [apply: leq_trans A _|apply: leq_trans B _]; rewrite leq_add2l leq_maxr.
have M : (maxn i j - minn i j)%N \in offdiag thr L.
  apply/mapP; exists (i, j) => //; by rewrite mem_filter le mem_enum.
have big : forall s, (maxn i j - minn i j)%N \in s -> (maxn i j - minn i j <= foldr maxn 0 s)%N.
  elim=> [|y s IHs] //=; rewrite inE => /orP[/eqP->|/IHs h]; first by rewrite leq_max leqnn.
  by rewrite leq_max h orbT.
have := big _ M; rewrite E /= => h.
have {}h : (maxn i j <= minn i j + maxn (maxn x (foldr maxn 0 o)) b2)%N.
  rewrite -leq_subLR; apply: leq_trans h _; by rewrite leq_max leqnn.
apply/andP; split.
  by apply: leq_trans (leq_maxl i j) (leq_trans h _); rewrite leq_add2r geq_minr.
by apply: leq_trans (leq_maxr i j) (leq_trans h _); rewrite leq_add2r geq_minl.
Qed.
Lemma blksize_raises thr : 0 < thr -> get_blksize thr [:: (0 : 'M[F]_N)] = Base.Err Base.ValueError.
Proof.
move=> t0; rewrite /= /offdiag (eq_filter (a2 := pred0)) ?filter_pred0 //.
by move=> p /=; rewrite mxE normr0 lt_geF.
Qed.

Lemma self_dot_exchange L G : self_dot (L^T *m G) = exchange1 L G.
Proof.
rewrite /self_dot /exchange1.
transitivity (\sum_r \sum_s \sum_a \sum_b (L a r * G a s) * (L b s * G b r)).
  apply: eq_bigr => r _; apply: eq_bigr => s _; rewrite !mxE mulr_suml.
  apply: eq_bigr => a _; rewrite mulr_sumr; apply: eq_bigr => b _; by rewrite !mxE.
rewrite [LHS](eq_bigr (fun r => \sum_a \sum_b \sum_s L a r * L b s * G a s * G b r)); last first.
  move=> r _; rewrite exchange_big /=; apply: eq_bigr => a _; rewrite exchange_big /=.
  apply: eq_bigr => b _; apply: eq_bigr => s _; by rewrite mulrACA !mulrA.
by rewrite exchange_big /=.
Qed.

Lemma bandedE bw L G : in_band bw L -> banded_LT_dot_G bw L G = L^T *m G.
Proof.
move=> B; apply/matrixP => q m; rewrite !mxE.
rewrite [RHS](bigID (fun p : 'I_N => (q - bw <= p)%N && (p < q + bw + 1)%N)) /= [X in _ + X]big1 ?addr0.
  by apply: eq_bigr => p _; rewrite mxE.
move=> p; rewrite negb_and -ltnNge -leqNgt addn1 => H; rewrite mxE B ?mul0r //.
by move: H; rewrite ltn_subRL addnC.
Qed.

Lemma card_below m : (m <= N)%N -> #|[pred i : 'I_N | (i < m)%N]| = m.
Proof.
move=> le; rewrite -sum1_card (eq_bigl (fun i : 'I_N => (i < m)%N)) // (big_ord_narrow le).
by rewrite sum_nat_const card_ord muln1.
Qed.
Lemma num_rankE tol (s : 'I_N -> F) : (forall i j : 'I_N, (i <= j)%N -> s j <= s i) ->
  forall j : 'I_N, (j < num_rank tol s)%N = (tol < s j).
Proof.
move=> desc j; rewrite /num_rank; case T: (tol < s j).
  rewrite -[X in (X <= _)%N](card_below (ltn_ord j)); apply: subset_leq_card; apply/subsetP => i; rewrite !inE => le.
  exact: lt_le_trans T (desc _ _ le).
apply/negbTE; rewrite -leqNgt -[X in (_ <= X)%N](card_below (ltnW (ltn_ord j))); apply: subset_leq_card; apply/subsetP => i; rewrite !inE => ti.
rewrite ltnNge; apply/negP => le; by rewrite (lt_le_trans ti (desc _ _ le)) in T.
Qed.

Lemma lowrank_exact tol mr L d X Ur : exact_svd tol L (sU d) (ss d) (sV d) ->
  plan_entry tol mr d = Lowrank X Ur -> X *m Ur^T = L.
Proof.
move=> [LE desc small]; rewrite /plan_entry; case: ifP => // _ [<- <-].
apply/matrixP => a b; rewrite LE !mxE; apply: eq_bigr => k _.
rewrite mul_mx_diag !mxE num_rankE //.
by case: ifP => [_ //|/negbT /small ->]; rewrite mul0r mulr0 mul0r.
Qed.

Lemma plan_exchange tol mr bw L d G : exact_svd tol L (sU d) (ss d) (sV d) -> L^T = L -> in_band bw L ->
  self_dot (plan_LG bw (plan_entry tol mr d) L G) = exchange1 L G.
Proof.
move=> E S B; rewrite -self_dot_exchange.
case P: (plan_entry tol mr d) => [X Ur|] /=; last by rewrite bandedE.
by rewrite trmx_mul trmxK mulmxA (lowrank_exact E P) S.
Qed.

Lemma exx_plan_ok tol mr bw (ps : seq ('M[F]_N * svd_of F N)) G :
  (forall L d, List.In (L, d) ps -> [/\ exact_svd tol L (sU d) (ss d) (sV d), L^T = L & in_band bw L]) ->
  exx_plan bw (build_plan tol mr (unzip2 ps)) (unzip1 ps) G
  = 2%:R^-1 * \sum_(L <- unzip1 ps) exchange1 L G.
Proof.
move=> H; rewrite /exx_plan; congr (_ * _).
elim: ps H => [|[L d] ps IH] H /=; first by rewrite !big_nil.
have [E S B] := H L d (or_introl erefl).
rewrite !big_cons /= plan_exchange // IH // => L' d' I; exact: H (or_intror I).
Qed.
End PlanP.

Section StochasticP.
Variables (F : fieldType) (isq : F) (nao nchol nst : nat) (L : 'I_nchol -> 'M[F]_nao).
Notation signs := {ffun 'I_nst * 'I_nchol -> bool}.
Definition flip (k : 'I_nst * 'I_nchol) (sg : signs) : signs :=
  [ffun x => if x == k then ~~ sg x else sg x].
Lemma flipK k : involutive (flip k).
Proof. by move=> sg; apply/ffunP => x; rewrite !ffunE; case: eqP => // _; rewrite negbK. Qed.
Lemma xi_flip sg u g : xi isq (flip (u, g) sg) u g = - xi isq sg u g.
Proof. by rewrite /xi ffunE eqxx; case: (sg _); rewrite /= ?mulN1r ?mul1r ?opprK ?mulNr ?mul1r. Qed.
Lemma xi_flip_other sg u g g' : g' != g -> xi isq (flip (u, g) sg) u g' = xi isq sg u g'.
Proof. by move=> ne; rewrite /xi ffunE xpair_eqE eqxx (negbTE ne). Qed.
Hypothesis two : 2%:R != 0 :> F.
Lemma xi_cross u g g' : g != g' -> \sum_(sg : signs) xi isq sg u g * xi isq sg u g' = 0.
Proof.
move=> ne; set S := \sum_sg _.
have E : S = - S.
  rewrite {1}/S (reindex_inj (inv_inj (flipK (u, g)))) /= -sumrN; apply: eq_bigr => sg _.
  by rewrite xi_flip xi_flip_other 1?eq_sym // mulNr.
apply/eqP; have : S + S == 0 by rewrite {1}E addNr.
by rewrite -mulr2n -mulr_natl mulf_eq0 (negbTE two).
Qed.
Lemma xi_same u g : \sum_(sg : signs) xi isq sg u g * xi isq sg u g = #|{: signs}|%:R * (isq * isq).
Proof.
rewrite (eq_bigr (fun=> isq * isq)); first by rewrite big_const iter_addr_0 -mulr_natl.
by move=> sg _; rewrite /xi; case: (sg _); rewrite ?mul1r // mulN1r mulrNN.
Qed.
Lemma sri_mean a b c d : isq * isq * nst%:R = 1 ->
  \sum_(sg : signs) \sum_u sri_X isq L sg u a b * sri_X isq L sg u c d
  = #|{: signs}|%:R * \sum_g L g a b * L g c d.
Proof.
move=> N1; rewrite exchange_big /=.
rewrite (eq_bigr (fun=> #|{: signs}|%:R * (isq * isq) * \sum_g L g a b * L g c d)).
  rewrite sumr_const card_ord -mulr_natr mulrAC -[_ * _ * nst%:R]mulrA N1 mulr1 //.
move=> u _.
transitivity (\sum_g \sum_g' (\sum_(sg : signs) xi isq sg u g * xi isq sg u g') * (L g a b * L g' c d)).
  rewrite [RHS](eq_bigr (fun g => \sum_(sg : signs) \sum_g' xi isq sg u g * xi isq sg u g' * (L g a b * L g' c d))).
    rewrite exchange_big /=; apply: eq_bigr => sg _; rewrite /sri_X !summxE mulr_suml.
    apply: eq_bigr => g _; rewrite mulr_sumr; apply: eq_bigr => g' _; by rewrite !mxE mulrACA.
  move=> g _; rewrite exchange_big /=; apply: eq_bigr => g' _; by rewrite mulr_suml.
rewrite mulr_sumr; apply: eq_bigr => g _; rewrite (bigD1 g) //= xi_same big1 ?addr0 // => g' ne.
by rewrite xi_cross 1?eq_sym // mul0r.
Qed.
End StochasticP.

(** An antisymmetric-looking vector: L = e0 e1^T. *)
Section Bad.
Definition swap2 : 'M[rat]_2 := \matrix_(i, j) (i != j)%:R.
Definition bad_svd : svd_of [numFieldType of rat] 2 := Svd 1%:M (fun k => (k == ord0)%:R) swap2.
Definition badL : 'M[rat]_2 := \matrix_(i, j) ((i == ord0) && (j != ord0))%:R.
Definition badG : 'M[rat]_2 := \matrix_(i, j) ((i != ord0) && (j == ord0))%:R.
Lemma bad_exact : exact_svd 0 badL (sU bad_svd) (ss bad_svd) (sV bad_svd).
Proof.
split=> /=.
- apply/matrixP => i j; rewrite mul1mx mul_diag_mx !mxE.
  by case: i => [[|[|i]] hi]; case: j => [[|[|j]] hj].
- by move=> i j; case: i => [[|[|i]] hi]; case: j => [[|[|j]] hj].
- by move=> j; case: j => [[|[|j]] hj].
Qed.
Lemma bad_band : in_band 1 badL.
Proof. by move=> i j; case: i => [[|[|i]] hi]; case: j => [[|[|j]] hj]. Qed.
Lemma bad_rank : num_rank 0 (ss bad_svd) = 1%N.
Proof.
rewrite /num_rank -sum1_card big_mkcond /=.
by rewrite !big_ord_recl big_ord0.
Qed.
Lemma bad_plan : exx_plan 1 (build_plan 0 1 [:: bad_svd]) [:: badL] badG
  <> 2%:R^-1 * \sum_(L <- [:: badL]) exchange1 L badG.
Proof.
rewrite /exx_plan /build_plan /= !big_seq1 /=.
case E: (plan_entry 0 1 bad_svd) => [X Ur|]; last by move: E; rewrite /plan_entry bad_rank.
rewrite /= trmx_mul trmxK mulmxA (lowrank_exact bad_exact E) -self_dot_exchange.
rewrite /self_dot !big_ord_recl !big_ord0 !mxE !big_ord_recl !big_ord0 !mxE /=.
move/eqP; by [].
Qed.
End Bad.

Section Examples.
Variable F : rcfType.
Lemma sqrt4 : Num.sqrt (4%:R : F) = 2%:R.
Proof. by rewrite (_ : 4%:R = 2%:R ^+ 2) ?sqrtr_sqr ?normr_nat // -natrX. Qed.
Lemma modes_bad : exists (M : 'M[F]_1) (g : seq 'rV[F]_1),
  forall nu, modify_chunk g nu (row nu M) <> Base.Ok (row nu (M + outer_sum g)).
Proof. by exists 1%:M, [:: 1%:M; 1%:M] => nu; rewrite modify_two. Qed.
Lemma four_psd : psd (4%:R *: 1%:M : 'M[F]_1).
Proof.
split; first by rewrite linearZ /= trmx1.
move=> x; rewrite /qform -scalemxAr -scalemxAl mxE; apply: mulr_ge0; first exact: ler0n.
by case: (@psd1 F 1) => _; apply.
Qed.
Lemma chols_four : chols_blocked (4%:R *: 1%:M : 'M[F]_1) 0 2 = Base.Ok [:: 2%:R *: 1%:M].
Proof.
have N2 : 2%:R != 0 :> F by rewrite pnatr_eq0.
rewrite /chols_blocked /= [argmax _]ord1 !mxE eqxx mulr1 normr_nat (lern0 F 4) /=.
have L0 : eri_chunk (4%:R *: 1%:M : 'M[F]_1) ord0 4%:R = 2%:R *: 1%:M.
  apply/rowP => j; rewrite [j]ord1 !mxE /= mulr1 sqrt4.
  by rewrite (_ : 4%:R = 2%:R * 2%:R) ?mulKf ?mulr1 // -natrM.
rewrite L0.
have S : (Num.sqrt 4%:R)^-1 * 4%:R = 2%:R :> F.
  by rewrite sqrt4 (_ : 4%:R = 2%:R * 2%:R) ?mulKf // -natrM.
rewrite [argmax _]ord1 !eqxx !mulr1 S add0r -natrM subrr !normr0 lexx.
by [].
Qed.
Lemma full_four : outer_sum (chols_full 1 (1%:M : 'M[F]_1) (fun=> 4%:R)) = 4%:R *: 1%:M.
Proof.
have lt : (1 : F) < 4%:R by rewrite ltr1n.
rewrite /outer_sum /chols_full big_map big_filter big_enum_cond /= (eq_bigl xpredT); last by move=> k; rewrite lt.
rewrite big_ord_recl big_ord0 addr0; apply/matrixP => i j; rewrite [i]ord1 [j]ord1 !mxE big_ord_recl big_ord0 !mxE.
by rewrite sqrt4 eqxx !mul1r mulr1 addr0 -natrM.
Qed.
Lemma limit_fits : [/\ psd (1%:M : 'M[F]_1), within 0 (1%:M : 'M[F]_1) (outer_sum [:: 1%:M]), (size [:: (1%:M : 'M[F]_1)] <= 1)%N
  & chols_blocked (1%:M : 'M[F]_1) 0 1 = Base.Err Base.IndexError].
Proof.
split=> //; [exact: psd1| |exact: limit_bad].
by move=> i j; rewrite /outer_sum big_seq1 trmx1 mulmx1 subrr normr0.
Qed.
End Examples.

Lemma one_exact : exact_svd 0 (1%:M : 'M[rat]_2) 1%:M (fun=> 1) 1%:M
  /\ in_band 1 (1%:M : 'M[rat]_2) /\ exchange1 (1%:M : 'M[rat]_2) 1%:M = 2%:R.
Proof.
split; [split=> //|split].
- rewrite mul1mx mulmx1; apply/matrixP => i j; rewrite !mxE.
  by case: i => [[|[|i]] hi]; case: j => [[|[|j]] hj].
- by move=> i j; case: i => [[|[|i]] hi]; case: j => [[|[|j]] hj].
- rewrite -self_dot_exchange trmx1 mulmx1 /self_dot !big_ord_recl !big_ord0 !mxE /=; exact/eqP.
Qed.

Section Least.
Variables (F : numFieldType) (N : nat).
Lemma fold_mem (s : seq nat) x : foldr maxn x s \in x :: s.
Proof.
elim: s => [|y s IH] /=; first by rewrite inE.
rewrite /maxn; case: ifP => _; last by rewrite !inE eqxx orbT.
move: IH; rewrite !inE => /orP[->|->] //; by rewrite !orbT.
Qed.
Lemma offdiag_memP thr (L : 'M[F]_N) b : b \in offdiag thr L ->
  exists i j, thr <= `|L i j| /\ (nat_of_ord i == j + b)%N || (nat_of_ord j == i + b)%N.
Proof.
move=> /mapP[[i j]]; rewrite mem_filter => /andP[/= le _] ->; exists i, j; split=> //.
rewrite /=; case: (leqP i j) => h.
  by rewrite (subnKC h) eqxx orbT.
by rewrite (subnKC (ltnW h)) eqxx.
Qed.
Lemma blksize_least thr (Ls : seq 'M[F]_N) : forall b, get_blksize thr Ls = Base.Ok b -> Ls != [::] ->
  exists L i j, [/\ L \in Ls, thr <= `|L i j| & (nat_of_ord i == j + b)%N || (nat_of_ord j == i + b)%N].
Proof.
elim: Ls => [|L r IH] b //=.
case E: (offdiag thr L) => [|x o] //=; case E2: (get_blksize thr r) => [b2|] //= [<-] _.
have M : maxn x (foldr maxn 0%N o) \in offdiag thr L.
  have := fold_mem o x; rewrite E (_ : foldr maxn x o = maxn x (foldr maxn 0%N o)) //.
  by elim: o {E} => [|y o IHo] /=; rewrite ?maxn0 // IHo maxnCA.
case: (ltnP (maxn x (foldr maxn 0%N o)) b2) => lt.
  case: r IH E2 => [|L2 r] IH E2; first by move: E2 lt => [<-]; rewrite ltn0.
  have [L' [i [j [I le eq]]]] := IH _ E2 isT; exists L', i, j; split=> //; by rewrite inE I orbT.
have [i [j [le eq]]] := offdiag_memP M; exists L, i, j; split=> //; by rewrite mem_head.
Qed.
End Least.
Lemma blksize_badL : get_blksize 1 [:: badL] = Base.Ok 1%N.
Proof.
rewrite /get_blksize.
have H p : p \in offdiag 1 badL -> p = 1%N.
  move=> /mapP[[i j]]; rewrite mem_filter => /andP[/= le _] ->; move: le; rewrite mxE.
  by case: i => [[|[|i]] hi]; case: j => [[|[|j]] hj].
have : 1%N \in offdiag 1 badL.
  by apply/mapP; exists (ord0, lift ord0 ord0) => //; rewrite mem_filter mem_enum !mxE /=.
move: H; case: (offdiag 1 badL) => [|x o] H //= _; congr (Base.Ok _); rewrite maxn0.
have -> : x = 1%N by apply: H; rewrite mem_head.
have : forall p, p \in o -> p = 1%N by move=> p h; apply: H; rewrite inE h orbT.
elim: o {H} => [|y o IH] //= H; rewrite (H y) ?mem_head // IH // => p h; apply: H; by rewrite inE h orbT.
Qed.
