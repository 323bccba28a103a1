(** Proofs for the aggregate model. *)
From Coq Require Import Lia Ring.
From mathcomp Require Import all_ssreflect all_algebra.
From Verif Require Base.
From Verif Require Import AggModel AggSpec.
Set Implicit Arguments.
Unset Strict Implicit.
Unset Printing Implicit Defensive.
Import GRing.Theory Num.Theory Order.TTheory.
Local Open Scope ring_scope.

(** ring identities over an abstract ring *)
Section AbsRing.
Variables (K : Type) (z o : K) (add mul sub : K -> K -> K) (opp : K -> K).
Variable RT : ring_theory z o add mul sub opp (@eq K).
Add Ring KRagg : RT.
Local Notation "x +! y" := (add x y) (at level 50, left associativity).
Local Notation "x -! y" := (sub x y) (at level 50, left associativity).
Local Notation "x *! y" := (mul x y) (at level 40, left associativity).
Lemma abs_two a b c s :
  (a *! (c *! c) +! b *! (s *! s)) *! c +! (b -! a) *! (c *! s) *! opp s = a *! c *! (c *! c +! s *! s) /\
  (a *! (c *! c) +! b *! (s *! s)) *! s +! (b -! a) *! (c *! s) *! c = b *! s *! (c *! c +! s *! s) /\
  (b -! a) *! (c *! s) *! c +! (a *! (s *! s) +! b *! (c *! c)) *! opp s = a *! opp s *! (c *! c +! s *! s) /\
  (b -! a) *! (c *! s) *! s +! (a *! (s *! s) +! b *! (c *! c)) *! c = b *! c *! (c *! c +! s *! s).
Proof. by do !split; ring. Qed.
End AbsRing.

Section P.
Variable F : realFieldType.
Notation vec := (nat -> F).
Notation mat := (nat -> nat -> F).

(** ** spectra *)
Lemma spec_nth elist state (w d : vec) gamma i : (i < size elist)%N ->
  nth 0 (linear_spec elist state w d gamma) i =
  \sum_(j <- state) d j ^+ 2 * lorentz gamma (nth 0 elist i - w j).
Proof.
move=> hi; rewrite (nth_map 0) //; apply: eq_bigr => j _.
by rewrite /lorentz expr2 mulrA.
Qed.
Lemma spec_size elist state (w d : vec) gamma : size (linear_spec elist state w d gamma) = size elist.
Proof. by rewrite size_map. Qed.

Lemma lorentz_ge0 (gamma x : F) : 0 <= gamma -> 0 <= lorentz gamma x.
Proof. by move=> h; rewrite divr_ge0 // addr_ge0 // sqr_ge0. Qed.
Lemma lorentz_le (gamma x : F) : 0 < gamma -> lorentz gamma x <= gamma^-1.
Proof.
move=> h; rewrite /lorentz ler_pdivr_mulr; last by rewrite ltr_paddl ?sqr_ge0 // exprn_gt0.
have -> : gamma^-1 * (x ^+ 2 + gamma ^+ 2) = gamma^-1 * x ^+ 2 + gamma
  by rewrite mulrDr [gamma ^+ 2]expr2 mulKf ?gt_eqF //.
by rewrite ler_addr mulr_ge0 ?invr_ge0 ?(ltW h) // sqr_ge0.
Qed.
Lemma lorentz_sym (gamma x : F) : lorentz gamma (- x) = lorentz gamma x.
Proof. by rewrite /lorentz sqrrN. Qed.

Lemma spec_ge0 elist state (w d : vec) gamma i : 0 <= gamma -> (i < size elist)%N ->
  0 <= nth 0 (linear_spec elist state w d gamma) i.
Proof.
move=> h hi; rewrite spec_nth //; apply: sumr_ge0 => j _.
by rewrite mulr_ge0 ?sqr_ge0 ?lorentz_ge0.
Qed.
Lemma spec_le elist state (w d : vec) gamma i : 0 < gamma -> (i < size elist)%N ->
  nth 0 (linear_spec elist state w d gamma) i <= (\sum_(j <- state) d j ^+ 2) / gamma.
Proof.
move=> h hi; rewrite spec_nth // mulr_suml; apply: ler_sum => j _.
by rewrite ler_wpmul2l ?sqr_ge0 ?lorentz_le.
Qed.
Lemma spec_cat elist s1 s2 (w d : vec) gamma i : (i < size elist)%N ->
  nth 0 (linear_spec elist (s1 ++ s2) w d gamma) i =
  nth 0 (linear_spec elist s1 w d gamma) i + nth 0 (linear_spec elist s2 w d gamma) i.
Proof. by move=> hi; rewrite !spec_nth // big_cat. Qed.
Lemma spec_perm elist s1 s2 (w d : vec) gamma : perm_eq s1 s2 ->
  linear_spec elist s1 w d gamma = linear_spec elist s2 w d gamma.
Proof. by move=> h; apply: eq_map => e; apply: perm_big. Qed.

(** ** the Hamiltonian matrix *)
Lemma fill_prefix n t (g : vec) (a : mat) k p q :
  foldl (fill_site n t g) a (iota 0 k) p q =
  if (p == q) && (p < k)%N then g p
  else if [&& q == p.+1, (p < k)%N & (q < n)%N] || [&& p == q.+1, (q < k)%N & (p < n)%N] then t else a p q.
Proof.
elim: k p q => [|k IH] p q.
  by rewrite /= !ltn0 !andbF.
rewrite -addn1 iotaD foldl_cat /= addn1 /fill_site add0n.
have E : (if (k.+1 < n)%N
   then set2 (set2 (set2 (foldl (fill_site n t g) a (iota 0 k)) k k (g k)) k k.+1 t) k.+1 k t
   else set2 (foldl (fill_site n t g) a (iota 0 k)) k k (g k)) p q =
  if (k.+1 < n)%N && ((p == k.+1) && (q == k)) then t else
  if (k.+1 < n)%N && ((p == k) && (q == k.+1)) then t else
  if (p == k) && (q == k) then g k else foldl (fill_site n t g) a (iota 0 k) p q.
  by case: ifP => h /=; rewrite /set2.
rewrite {}E IH.
case: (@eqP _ p k) => h1; case: (@eqP _ q k) => h2; try subst p; try subst q;
 repeat match goal with
 | |- context [@eq_op _ ?a ?b] => case: (@eqP _ a b) => ?; try (exfalso; lia)
 | |- context [(?a < ?b)%N] => case: (@ssrnat.ltP a b) => ?; try (exfalso; lia)
 end; rewrite //=; try congruence.
Qed.

Lemma fill_chain n t (g : vec) (a : mat) p q : clean n a -> (p < n)%N -> (q < n)%N ->
  fill n t g a p q = chain g t p q.
Proof.
move=> ca hp hq; rewrite /fill fill_prefix /chain hp hq !andbT.
case: eqP => //= /eqP h1; case: eqP => //= /eqP h2; case: eqP => //= /eqP h3.
exact: ca.
Qed.
Lemma fill_clean n t (g : vec) (a : mat) : clean n a -> clean n (fill n t g a).
Proof.
move=> ca p q hp hq h1 h2 h3; rewrite fill_chain // /chain.
by rewrite (negbTE h1) (negbTE h2) (negbTE h3).
Qed.

Lemma chain_sym (e : vec) t i j : chain e t i j = chain e t j i.
Proof. by rewrite /chain eq_sym orbC; case: eqP => // ->. Qed.

Lemma tri_zero n (e : vec) t lam (x : vec) : t != 0 ->
  (forall i, (i < n)%N -> \sum_(k < n) chain e t i k * x k = lam * x i) -> x 0%N = 0 ->
  forall i, (i < n)%N -> x i = 0.
Proof.
move=> ht hx h0; elim/ltn_ind => -[|i] IH hi //.
have hi' := ltnW hi; have := hx i hi'.
rewrite (IH i) // mulr0 (bigD1 (Ordinal hi)) //= big1 => [|k kn].
  rewrite addr0 /chain ltn_eqF // eqxx /= => /eqP.
  by rewrite mulf_eq0 (negbTE ht) => /eqP.
case: (leqP k i) => hk; first by rewrite (IH k) ?mulr0 // (leq_ltn_trans hk).
rewrite /chain [i == k :> nat]ltn_eqF //.
have -> : (k == i.+1 :> nat) = false by apply: negbTE; apply: contra kn => /eqP E; apply/eqP/val_inj.
by rewrite ltn_eqF ?mul0r // ltnW.
Qed.

Lemma eig_ext n (a b : mat) wv : (forall p q, (p < n)%N -> (q < n)%N -> a p q = b p q) ->
  eig_ok n a wv -> eig_ok n b wv.
Proof.
move=> E [h1 h2 h3]; split=> // i u hi hu; rewrite -h1 //; apply: eq_bigr => k _; by rewrite E.
Qed.

Lemma ortho n (e : vec) t (w : vec) (v : mat) : t != 0 -> eig_ok n (chain e t) (w, v) ->
  forall u u', (u < n)%N -> (u' < n)%N -> \sum_(k < n) v k u * v k u' = delta F u u'.
Proof.
move=> ht [/= h1 h2 h3] u u' hu hu'; rewrite /delta.
case: (eqVneq u u') => [<-|uu'] /=.
  by rewrite -(h2 u hu); apply: eq_bigr => k _; rewrite expr2.
have nz u0 : (u0 < n)%N -> v 0%N u0 != 0.
  move=> hu0; apply/eqP => z; have := h2 u0 hu0; rewrite big1 => [/eqP|k _].
    by rewrite eq_sym oner_eq0.
  by rewrite (@tri_zero n e t (w u0) (fun k => v k u0)) ?expr0n //= => i hi; apply: h1.
set G := \sum_(k < n) _.
have : w u' * G = w u * G.
  rewrite /G !mulr_sumr.
  transitivity (\sum_(k < n) v k u * \sum_(l < n) chain e t k l * v l u').
    by apply: eq_bigr => k _; rewrite h1 // mulrCA.
  transitivity (\sum_(l < n) \sum_(k < n) v k u * (chain e t k l * v l u')).
    by rewrite exchange_big; apply: eq_bigr => k _; rewrite mulr_sumr.
  apply: eq_bigr => l _; rewrite mulrA -h1 // mulr_suml; apply: eq_bigr => k _.
  by rewrite mulrA [v k u * _]mulrC (chain_sym e t k l).
move/eqP; rewrite -subr_eq0 -mulrBl mulf_eq0 => /orP[|/eqP //]; rewrite subr_eq0 => /eqP ww.
exfalso.
have x0 : forall i, (i < n)%N -> v 0%N u' * v i u - v 0%N u * v i u' = 0.
  apply: (@tri_zero n e t (w u) (fun i => v 0%N u' * v i u - v 0%N u * v i u')) => // [i hi|]; last first.
    by rewrite mulrC subrr.
  transitivity (v 0%N u' * (\sum_(k < n) chain e t i k * v k u) - v 0%N u * (\sum_(k < n) chain e t i k * v k u')).
    rewrite !mulr_sumr -sumrB; apply: eq_bigr => k _; rewrite mulrBr.
    by congr (_ - _); rewrite mulrCA.
  rewrite !h1 // ww mulrBr; congr (_ - _); by rewrite mulrCA.
pose V : 'M[F]_n := \matrix_(i, j) v i j.
pose c : 'cV[F]_n := \col_j (if j == u :> nat then v 0%N u' else if j == u' :> nat then - v 0%N u else 0).
have Vc : V *m c = 0.
  apply/matrixP => i j; rewrite !mxE (bigD1 (Ordinal hu)) //= (bigD1 (Ordinal hu')) /=; last first.
    by rewrite -val_eqE /= eq_sym.
  rewrite big1 => [|k /andP[/negbTE k1 /negbTE k2]]; last first.
    move: k1 k2; rewrite -!val_eqE /= !mxE => -> ->; by rewrite mulr0.
  rewrite !mxE /= !eqxx [u' == u]eq_sym (negbTE uu') addr0 mulrN ![v i _ * _]mulrC.
  exact: x0.
have : c = 0 by rewrite -(mulKmx h3 c) Vc mulmx0.
move/colP/(_ (Ordinal hu)); rewrite !mxE /= eqxx => z; by have := nz u' hu'; rewrite z eqxx.
Qed.

Lemma ortho_rows n (v : mat) :
  (forall u u', (u < n)%N -> (u' < n)%N -> \sum_(k < n) v k u * v k u' = delta F u u') ->
  forall i j, (i < n)%N -> (j < n)%N -> \sum_(u < n) v i u * v j u = delta F i j.
Proof.
move=> h i j hi hj; pose V : 'M[F]_n := \matrix_(i, j) v i j.
have : V^T *m V = 1%:M.
  apply/matrixP => a b; rewrite !mxE -[(a == b)%:R]/(delta F a b) -(h _ _ (ltn_ord a) (ltn_ord b)).
  by apply: eq_bigr => k _; rewrite !mxE.
move/mulmx1C/matrixP/(_ (Ordinal hi) (Ordinal hj)); rewrite !mxE -val_eqE /= /delta => <-.
by apply: eq_bigr => k _; rewrite !mxE.
Qed.

Lemma kernel_solves gauss eig argsort (m : dma F) : hopping m != 0 -> clean (nsite m) (amat m) ->
  let g := gauss (epsilon m) (sigma m * `|hopping m|) in
  (forall a, (forall p q, (p < nsite m)%N -> (q < nsite m)%N -> a p q = chain g (hopping m) p q) ->
     eig_ok (nsite m) a (eig a)) ->
  (forall f, argsort_ok (nsite m) f (argsort f)) ->
  let m' := kernel gauss eig argsort m in
  [/\ nsite m' = nsite m, clean (nsite m) (amat m') &
   exists w v, [/\ evals m' = Some w, evecs m' = Some v & solves (nsite m) g (hopping m) w v]].
Proof.
move=> ht ca g he ha m'; rewrite /m' /kernel -/g.
set a := fill _ _ _ _; have := he a (fun p q hp hq => fill_chain _ _ ca hp hq); case E: (eig a) => [w v] hwv; split=> //=; first exact: fill_clean.
do 2!eexists; split; first by []; first by [].
set n := nsite m in ca he ha hwv *; set idx := argsort w.
have hwv' : eig_ok n (chain g (hopping m)) (w, v).
  by apply: eig_ext hwv => p q hp hq; apply: fill_chain.
have [pa sa] := ha w; rewrite -/idx in pa sa.
have si : size idx = n by rewrite (perm_size pa) size_iota.
have lt u : (u < n)%N -> (nth 0%N idx u < n)%N.
  move=> hu; have : nth 0%N idx u \in idx by rewrite mem_nth ?si.
  by rewrite (perm_mem pa) mem_iota.
have uq : uniq idx by rewrite (perm_uniq pa) iota_uniq.
have ort := ortho ht hwv'.
have ort' u u' : (u < n)%N -> (u' < n)%N ->
    \sum_(k < n) v k (nth 0%N idx u) * v k (nth 0%N idx u') = delta F u u'.
  by move=> hu hu'; rewrite ort ?lt // /delta nth_uniq ?si.
split; last by split; [|apply: (ortho_rows (v := fun i u => v i (nth 0%N idx u)))].
  by move=> i u hi hu; have [/= h _ _] := hwv'; apply: h => //; apply: lt.
move=> u u' uu' hu'; apply: (sorted_leq_nth _ _ 0%N sa) => //; rewrite ?inE ?si //.
- by move=> x y z; apply: le_trans.
- exact: (leq_ltn_trans uu').
Qed.

(** consequences of [solves] *)
Lemma solves_sum n (e : vec) t w v : solves n e t w v -> \sum_(u < n) strength n v u = n%:R :> F.
Proof.
case=> _ _ [_ h].
transitivity (\sum_(u < n) \sum_(i < n) \sum_(j < n) v i u * v j u).
  by apply: eq_bigr => u _; rewrite /strength expr2 mulr_suml; apply: eq_bigr => i _; rewrite mulr_sumr.
rewrite exchange_big /=.
transitivity (\sum_(i < n) \sum_(j < n) delta F i j).
  by apply: eq_bigr => i _; rewrite exchange_big /=; apply: eq_bigr => j _; apply: h.
rewrite -[n in n%:R]card_ord -sumr_const; apply: eq_bigr => i _.
rewrite (bigD1 i) //= big1 ?addr0 /delta ?eqxx // => j ji.
by rewrite eq_sym val_eqE (negbTE ji).
Qed.
Lemma solves_trace n (e : vec) t w v : solves n e t w v -> \sum_(u < n) w u = \sum_(i < n) e i.
Proof.
case=> h1 _ [h2 h3].
transitivity (\sum_(u < n) \sum_(i < n) v i u * \sum_(k < n) chain e t i k * v k u).
  apply: eq_bigr => u _; transitivity (w u * \sum_(i < n) v i u * v i u).
    by rewrite h2 // /delta eqxx mulr1.
  by rewrite mulr_sumr; apply: eq_bigr => i _; rewrite h1 // mulrCA.
rewrite exchange_big; apply: eq_bigr => i _.
transitivity (\sum_(u < n) \sum_(k < n) chain e t i k * (v i u * v k u)).
  by apply: eq_bigr => u _; rewrite mulr_sumr; apply: eq_bigr => k _; rewrite mulrCA.
rewrite exchange_big (bigD1 i) //= [X in _ + X]big1 => [|k ki].
  by rewrite -mulr_sumr h3 // /delta eqxx mulr1 addr0 /chain eqxx.
by rewrite -mulr_sumr h3 // /delta eq_sym val_eqE (negbTE ki) mulr0.
Qed.
Lemma near_sum n (P : pred 'I_n) (c : F) : 0 <= c -> (forall i j, P i -> P j -> i = j) ->
  \sum_(k < n) (if P k then c else 0) <= c.
Proof.
move=> hc hP; rewrite -big_mkcond /=.
case: (pickP P) => [i hi|h]; last by rewrite big_pred0.
rewrite (big_pred1 i) // => k /=; apply/idP/eqP => [hk|->] //; exact: hP.
Qed.
Lemma solves_bound n (e : vec) t w v u : (u < n)%N -> solves n e t w v ->
  exists2 i, (i < n)%N & `|w u - e i| <= 2%:R * `|t|.
Proof.
move=> hu [h1 _ [h2 _]].
case: n hu h1 h2 => // n hu h1 h2.
have [i _ hmax] : exists2 i : 'I_n.+1, true & forall k : 'I_n.+1, `|v k u| <= `|v i u|.
  case: (arg_maxP (fun i : 'I_n.+1 => `|v i u|) (P := predT) (i0 := ord0)) => // i _ hi.
  by exists i => // k; apply: hi.
have vi : 0 < `|v i u|.
  rewrite normr_gt0; apply/eqP => z; have := h2 u u hu hu; rewrite /delta eqxx big1 => [/eqP|k _].
    by rewrite eq_sym oner_eq0.
  have := hmax k; rewrite z normr0 normr_le0 => /eqP ->; by rewrite mul0r.
exists i => //; rewrite -(ler_pmul2r vi) -normrM mulrBl -h1 // (bigD1 i) //=.
rewrite {1}/chain eqxx addrC addKr (le_trans (ler_norm_sum _ _ _)) //.
apply: (@le_trans _ _ (\sum_(k < n.+1 | k != i) `|chain e t i k| * `|v i u|)).
  by apply: ler_sum => k _; rewrite normrM ler_wpmul2l.
rewrite -mulr_suml ler_wpmul2r //.
apply: (@le_trans _ _ (\sum_(k < n.+1) ((if k == i.+1 :> nat then `|t| else 0) + (if i == k.+1 :> nat then `|t| else 0)))).
  rewrite [X in _ <= X](bigD1 i) //= -[X in X <= _]add0r ler_add //.
    by rewrite addr_ge0 //; case: ifP.
  apply: ler_sum => k ki; rewrite /chain eq_sym val_eqE (negbTE ki).
  case: eqP => /= _; first by rewrite ler_addl; case: ifP.
  by rewrite add0r; case: ifP => // _; rewrite normr0.
rewrite big_split /= mulr_natl mulr2n ler_add //; apply: near_sum => //.
- by move=> a b /eqP ea /eqP eb; apply/val_inj; rewrite /= ea eb.
- by move=> a b /eqP ea /eqP eb; apply/val_inj; move: ea; rewrite eb => -[].
Qed.

(** ** dipoles and absorption *)
Lemma sum_iota (f : vec) n : \sum_(j <- iota 0 n) f j = \sum_(j < n) f j.
Proof. by rewrite -(big_mkord xpredT f) /index_iota subn0. Qed.

Lemma init_ok n ne (eps t sig : F) : exists m, dma_init BdObject n ne eps t sig = Ok m /\ [/\ nsite m = n,
  nexc m = minn ne n, (hopping m, epsilon m, sigma m) = (t, eps, sig), clean n (amat m) & excdipole1 m = None /\ dipsortidx m = None].
Proof. by eexists; split; first by []. Qed.

Lemma linearabs_fresh (m : dma F) w v es sel gamma : evals m = Some w -> evecs m = Some v -> excdipole1 m = None ->
  exists m' d, [/\ linearabs m (Some es) sel gamma = Ok (m', linear_spec es (odflt (iota 0 (nexc m)) sel) w d gamma),
    excdipole1 m' = Some d & forall u, d u ^+ 2 = strength (nsite m) v u].
Proof.
move=> hw hv hd; rewrite /linearabs /ensure_dipole hd /dipole hv /= hw; do 2!eexists; split; first by [].
  by [].
by move=> u /=; rewrite sum_iota.
Qed.
Lemma linearabs_with (m : dma F) w v es sel gamma : evals m = Some w -> evecs m = Some v -> excdipole1 m = None ->
  exists2 d, linearabs m (Some es) sel gamma = Ok (with_dipole m d, linear_spec es (odflt (iota 0 (nexc m)) sel) w d gamma) &
    forall u, d u ^+ 2 = strength (nsite m) v u.
Proof.
move=> hw hv hd; rewrite /linearabs /ensure_dipole hd /dipole hv /= hw; eexists; first by [].
by move=> u /=; rewrite sum_iota.
Qed.
Lemma linearabs_stale gauss eig argsort (m : dma F) d es sel gamma : excdipole1 m = Some d ->
  exists w, evals (kernel gauss eig argsort m) = Some w /\
  linearabs (kernel gauss eig argsort m) (Some es) sel gamma =
  Ok (kernel gauss eig argsort m, linear_spec es (odflt (iota 0 (nexc m)) sel) w d gamma).
Proof.
move=> hd; rewrite /kernel; case: (eig _) => w v; eexists; split; first by [].
by rewrite /linearabs /ensure_dipole /= hd.
Qed.
Lemma linearabs_none (m : dma F) sel gamma : linearabs m None sel gamma = Err Base.RuntimeError.
Proof. by []. Qed.

Lemma part_strength n (e : vec) t w v ne : solves n e t w v -> (ne <= n)%N ->
  \sum_(u < ne) strength n v u <= n%:R.
Proof.
move=> h hn; rewrite -(solves_sum h) -[X in _ <= X](big_mkord xpredT (strength n v)).
rewrite (big_cat_nat _ _ _ (leq0n ne) hn) /= big_mkord ler_addl.
by apply: sumr_ge0 => u _; rewrite sqr_ge0.
Qed.

(** ** choice of states *)
Lemma ex_step_inv n v (d : vec) c1 cut gs u acc w : (w < n)%N ->
  uniq acc -> all (fun x => x \notin gs) acc -> all (fun x => (x < n)%N) acc ->
  let acc' := ex_step n v d c1 cut gs u acc w in
  [/\ uniq acc', all (fun x => x \notin gs) acc' & all (fun x => (x < n)%N) acc'].
Proof.
move=> hw h1 h2 h3 /=; rewrite /ex_step; case: eqP => // _; case: ifP => // /negbT; rewrite negb_or => /andP[a1 a2].
case: ifP => // _; case: ifP => // _.
by rewrite rcons_uniq a1 h1 !all_rcons a2 hw h2 h3.
Qed.
Lemma ex_inner_inv n v (d : vec) c1 cut gs u : forall ws acc, all (fun x => (x < n)%N) ws ->
  uniq acc -> all (fun x => x \notin gs) acc -> all (fun x => (x < n)%N) acc ->
  let acc' := foldl (ex_step n v d c1 cut gs u) acc ws in
  [/\ uniq acc', all (fun x => x \notin gs) acc' & all (fun x => (x < n)%N) acc'].
Proof.
elim=> [|w ws IH] acc //= /andP[hw hws] h1 h2 h3.
have [a1 a2 a3] := ex_step_inv v d c1 cut u hw h1 h2 h3; exact: IH.
Qed.
Lemma local_ex_inv n v (d : vec) c1 cut gs :
  let ex := local_ex n v d c1 cut gs in
  [/\ uniq ex, all (fun x => x \notin gs) ex & all (fun x => (x < n)%N) ex].
Proof.
have G us acc : uniq acc -> all (fun x => x \notin gs) acc -> all (fun x => (x < n)%N) acc ->
  let acc' := foldl (fun acc u => foldl (ex_step n v d c1 cut gs u) acc (iota 0 n)) acc us in
  [/\ uniq acc', all (fun x => x \notin gs) acc' & all (fun x => (x < n)%N) acc'].
  elim: us acc => [|u us IH] acc //= h1 h2 h3.
  have hi : all (fun x => (x < n)%N) (iota 0 n) by apply/allP => x; rewrite mem_iota.
  have [a1 a2 a3] := ex_inner_inv v d c1 cut u hi h1 h2 h3; exact: IH.
exact: G.
Qed.
Lemma sum_sub n (f : vec) s : (forall i, 0 <= f i) -> uniq s -> all (fun x => (x < n)%N) s ->
  \sum_(u <- s) f u <= \sum_(u <- iota 0 n) f u.
Proof.
move=> hf us /allP hs.
have p : perm_eq (iota 0 n) (s ++ [seq x <- iota 0 n | x \notin s]).
  apply: uniq_perm; rewrite ?iota_uniq ?cat_uniq ?us ?filter_uniq ?iota_uniq //= ?andbT.
    by apply/hasPn => x; rewrite mem_filter => /andP[].
  move=> x; rewrite mem_cat mem_filter mem_iota /= add0n.
  by case: (boolP (x \in s)) => //= /hs.
rewrite (perm_big _ p) big_cat /= ler_addl; exact: sumr_ge0.
Qed.

Lemma pos_match (T : Type) n (x y : T) : (0 < n)%N -> (if n is 0%N then x else y) = y.
Proof. by case: n. Qed.
Lemma zero_match (T : Type) n (x y : T) : (0 < n)%N = false -> (if n is 0%N then x else y) = x.
Proof. by case: n. Qed.
Lemma selection argsort (m : dma F) v gs ex r1 r2 : evecs m = Some v -> excdipole1 m = None -> dipsortidx m = None ->
  (forall f, argsort_ok (nsite m) f (argsort f)) ->
  spdfselection argsort m = Ok (gs, ex, r1, r2) ->
  [/\ uniq (gs ++ ex), all (fun u => (u < nsite m)%N) (gs ++ ex), 0 <= r1, r1 <= r2 & r2 <= 1] /\
  forall u, (u < nsite m)%N -> (u \in gs) = (4%:R / 5%:R <= `| \sum_(j < nsite m) v j u * `|v j u| |).
Proof.
move=> hv hd hs ha; rewrite /spdfselection hs /sortdipole /ensure_dipole hd /dipole hv /=.
set n := nsite m in ha *; set d := fun u => _.
case n0: (0 < n)%N; last by rewrite zero_match.
rewrite pos_match //= hv.
set order := rev _; set cut := 10%:R^-1 * _; set tot := \sum_(i <- iota 0 n) (d i * d i) => -[<- <- <- <-].
set G := local_gs _ _ _ _; set X := local_ex _ _ _ _ _ _.
have po : perm_eq order (iota 0 n).
  by rewrite /order; apply: (@perm_trans _ (argsort (fun i => `|d i|))); [rewrite perm_rev|case: (ha (fun i => `|d i|))].
have uG : uniq G by rewrite filter_uniq // (perm_uniq po) iota_uniq.
have aG : all (fun u => (u < n)%N) G.
  by apply/allP => u; rewrite mem_filter (perm_mem po) mem_iota => /andP[].
have [uX /allP dX aX] := local_ex_inv n v d 2%:R^-1 cut G.
have u1 : uniq (G ++ X).
  by rewrite cat_uniq uG uX andbT /=; apply/hasPn => x /dX.
have a1 : all (fun u => (u < n)%N) (G ++ X) by rewrite all_cat aG aX.
have tE : tot = \sum_(i <- iota 0 n) d i ^+ 2 by rewrite /tot; apply: eq_bigr => i _; rewrite expr2.
have t0 : 0 <= tot by rewrite tE; apply: sumr_ge0 => i _; apply: sqr_ge0.
have le : \sum_(u <- G) d u ^+ 2 + \sum_(u <- X) d u ^+ 2 <= tot.
  by rewrite tE -big_cat; apply: sum_sub => // i; apply: sqr_ge0.
split; last first.
  by move=> u hu; rewrite mem_filter (perm_mem po) mem_iota add0n /= hu andbT /s_weight sum_iota.
split=> //.
- by rewrite divr_ge0 //; apply: sumr_ge0 => i _; apply: sqr_ge0.
- by rewrite ler_wpmul2r ?invr_ge0 // ler_addl; apply: sumr_ge0 => i _; apply: sqr_ge0.
- case: (eqVneq tot 0) => [->|tn]; first by rewrite invr0 mulr0 ler01.
  by rewrite ler_pdivr_mulr ?mul1r // lt0r tn.
Qed.
Lemma selection_empty argsort (m : dma F) v : evecs m = Some v -> nsite m = 0%N -> excdipole1 m = None -> dipsortidx m = None ->
  spdfselection argsort m = Err Base.ValueError.
Proof. by move=> hv hn hd hs; rewrite /spdfselection hs /sortdipole /ensure_dipole hd /dipole hv /= hn. Qed.

(** ** a sorting function and two-site chains, for the witnesses *)
Definition asort n (f : vec) : seq nat := sort (fun i j => f i <= f j) (iota 0 n).
Lemma asort_ok n (f : vec) : argsort_ok n f (asort n f).
Proof. by split; [rewrite perm_sort|apply: sort_sorted => i j; apply: le_total]. Qed.
Lemma asort_id (f : vec) n : {homo f : i j / (i < j)%N >-> i <= j} -> asort n f = iota 0 n.
Proof.
move=> h; apply: sorted_sort; first by move=> x y z; apply: le_trans.
apply: (@sub_sorted _ ltn); last by rewrite iota_ltn_sorted.
by move=> i j; apply: h.
Qed.

(** eigenvectors (c, -s) and (s, c) *)
Definition vec2 (c s : F) : mat := fun i u => if u == 0%N then (if i == 0%N then c else - s) else (if i == 0%N then s else c).
Definition val2 (a b : F) : vec := fun u => if u == 0%N then a else b.
Lemma lt2 i : (i < 2)%N -> i = 0%N \/ i = 1%N.
Proof. by case: i => [|[|i]] // _; [left|right]. Qed.
Lemma ortho2 (c s : F) : c ^+ 2 + s ^+ 2 = 1 -> forall u u', (u < 2)%N -> (u' < 2)%N ->
  \sum_(k < 2) vec2 c s k u * vec2 c s k u' = delta F u u'.
Proof.
move=> h u u' /lt2[]-> /lt2[]->; rewrite big_ord_recl big_ord1 /vec2 /delta /= -?expr2 ?sqrrN //.
- by rewrite mulNr [s * c]mulrC subrr.
- by rewrite mulrN [s * c]mulrC subrr.
- by rewrite addrC.
Qed.
Lemma ortho_unit n (v : mat) : (forall u u', (u < n)%N -> (u' < n)%N -> \sum_(k < n) v k u * v k u' = delta F u u') ->
  (\matrix_(i < n, j < n) v i j) \in unitmx.
Proof.
move=> h; pose V : 'M[F]_n := \matrix_(i, j) v i j.
have : V^T *m V = 1%:M.
  apply/matrixP => u u'; rewrite !mxE -val_eqE -[RHS]/(delta F u u') -h //.
  by apply: eq_bigr => k _; rewrite !mxE.
by case/mulmx1_unit.
Qed.
Lemma eig2_ok (A : mat) (c s a b : F) : c ^+ 2 + s ^+ 2 = 1 ->
  (forall p q, (p < 2)%N -> (q < 2)%N -> A p q =
     chain (val2 (a * c ^+ 2 + b * s ^+ 2) (a * s ^+ 2 + b * c ^+ 2)) ((b - a) * (c * s)) p q) ->
  eig_ok 2 A (val2 a b, vec2 c s).
Proof.
move=> h hA; split; last by apply: ortho_unit; apply: ortho2.
  move=> i u hi hu; rewrite big_ord_recl big_ord1 /= !hA //.
  have RT : ring_theory 0 1 +%R *%R (fun x y : F => x - y) -%R eq.
    by split=> *; rewrite ?add0r ?mul1r ?mulrDl ?addrA ?mulrA ?subrr //; [apply: addrC|apply: mulrC].
  have [ia [ib [ic id]]] := abs_two RT a b c s.
  case: (lt2 hi) => ->; case: (lt2 hu) => ->; rewrite /chain /val2 /vec2 /bump /=.
  - by rewrite -[RHS]mulr1 -h !expr2; apply: ia.
  - by rewrite -[RHS]mulr1 -h !expr2; apply: ib.
  - by rewrite -[RHS]mulr1 -h !expr2; apply: ic.
  - by rewrite -[RHS]mulr1 -h !expr2; apply: id.
move=> u hu; rewrite -[RHS](_ : delta F u u = 1); last by rewrite /delta eqxx.
by rewrite -(ortho2 h) //; apply: eq_bigr => k _; rewrite expr2.
Qed.
End P.

Section P2.
Variable F : realFieldType.
Lemma val2_homo (a b : F) : a <= b -> {homo val2 a b : i j / (i < j)%N >-> i <= j}.
Proof. by move=> h [|i] [|j] //. Qed.
(** kernel and linearabs for two sites whose lowest eigenvector is (c, -s) *)
Lemma kernel2 gauss eig (m : dma F) (c s a b : F) : nsite m = 2%N -> a <= b ->
  eig (fill 2 (hopping m) (gauss (epsilon m) (sigma m * `|hopping m|)) (amat m)) = (val2 a b, vec2 c s) ->
  let m' := kernel gauss eig (@asort F 2) m in
  exists w v, [/\ evals m' = Some w, evecs m' = Some v, forall u, (u < 2)%N -> w u = val2 a b u &
    forall i u, (u < 2)%N -> v i u = vec2 c s i u].
Proof.
move=> hn hab he; rewrite /kernel hn he asort_id; last exact: val2_homo.
by do 2!eexists; split; [by []|by []| |] => [u|i u] /lt2[]->.
Qed.
Lemma strength2 (c s : F) : strength 2 (vec2 c s) 0 = (c - s) ^+ 2 /\ strength 2 (vec2 c s) 1 = (c + s) ^+ 2.
Proof. by rewrite /strength !big_ord_recl !big_ord0 /vec2 /= !addr0 [s + c]addrC. Qed.

(** the cached dipoles of the first sample are used for the second *)
Section Wit.
Variables (t c1 s1 b1 c2 s2 b2 : F).
Hypotheses (n1 : c1 ^+ 2 + s1 ^+ 2 = 1) (n2 : c2 ^+ 2 + s2 ^+ 2 = 1).
Hypotheses (t1 : b1 * (c1 * s1) = t) (t2 : b2 * (c2 * s2) = t) (p1 : 0 <= b1) (p2 : 0 <= b2).
Hypotheses (ne : b2 * s2 ^+ 2 != b1 * s1 ^+ 2) (nd : (c1 - s1) ^+ 2 != (c2 - s2) ^+ 2).
Definition wit_eig (A : nat -> nat -> F) : (nat -> F) * (nat -> nat -> F) :=
  if A 0%N 0%N == b1 * s1 ^+ 2 then (val2 0 b1, vec2 c1 s1) else (val2 0 b2, vec2 c2 s2).
Definition wit_g1 : nat -> F := val2 (b1 * s1 ^+ 2) (b1 * c1 ^+ 2).
Definition wit_g2 : nat -> F := val2 (b2 * s2 ^+ 2) (b2 * c2 ^+ 2).
Lemma wit_eig_ok g : g = wit_g1 \/ g = wit_g2 -> forall A : nat -> nat -> F,
  (forall p r, (p < 2)%N -> (r < 2)%N -> A p r = chain g t p r) -> eig_ok 2 A (wit_eig A).
Proof.
move=> hg A hA; have h00 := hA 0%N 0%N isT isT.
case: hg hA h00 => -> hA h00; rewrite /wit_eig h00 /chain /wit_g1 /wit_g2 {1}/val2 eqxx.
  rewrite eqxx; apply: eig2_ok => // p r hp hr.
  by rewrite hA // !mul0r !add0r subr0 t1.
rewrite (negbTE ne); apply: eig2_ok => // p r hp hr.
by rewrite hA // !mul0r !add0r subr0 t2.
Qed.

Hypothesis t0 : t != 0.
Lemma stale_abs : exists (m0 m1 m2 : dma F) (sp1 sp2 : seq F) w2 v2,
  let k1 := kernel (fun _ _ => wit_g1) wit_eig (@asort F 2) m0 in
  let k2 := kernel (fun _ _ => wit_g2) wit_eig (@asort F 2) m1 in
  dma_init BdObject 2 1 0 t 1 = Ok m0 /\
  [/\ linearabs k1 (Some [:: 0]) None 1 = Ok (m1, sp1),
      linearabs k2 (Some [:: 0]) None 1 = Ok (m2, sp2),
      evals k2 = Some w2 /\ evecs k2 = Some v2, solves 2 wit_g2 t w2 v2 &
      sp2 != [:: \sum_(u < 1) strength 2 v2 u * lorentz 1 (0 - w2 u)]].
Proof.
have [m0 [hi [hn0 hx0 he0 hc0 [hd0 _]]]] := init_ok 2 1 0 t (1 : F).
case: he0 => ht0 he0 hs0.
have cw1 : clean 2 (amat (kernel (fun _ _ => wit_g1) wit_eig (@asort F 2) m0)).
  by rewrite /kernel; case: (wit_eig _) => w v /=; rewrite hn0 ht0; apply: fill_clean.
have [w1 [v1 [h1 h2 h3 h4]]] : exists w v, [/\ evals (kernel (fun _ _ => wit_g1) wit_eig (@asort F 2) m0) = Some w,
   evecs (kernel (fun _ _ => wit_g1) wit_eig (@asort F 2) m0) = Some v, forall u, (u < 2)%N -> w u = val2 0 b1 u &
    forall i u, (u < 2)%N -> v i u = vec2 c1 s1 i u].
  by apply: kernel2 => //; rewrite /wit_eig /fill fill_prefix /= eqxx.
have [] : [/\ nsite (kernel (fun _ _ => wit_g1) wit_eig (@asort F 2) m0) = 2%N,
  nexc (kernel (fun _ _ => wit_g1) wit_eig (@asort F 2) m0) = 1%N,
  hopping (kernel (fun _ _ => wit_g1) wit_eig (@asort F 2) m0) = t &
  excdipole1 (kernel (fun _ _ => wit_g1) wit_eig (@asort F 2) m0) = None].
  by rewrite /kernel; case: (wit_eig _) => w v /=; rewrite hn0 ht0 hx0 hd0.
set k1 := kernel _ _ _ _ in cw1 h1 h2 * => kn kx kh kd.
have [d hd hdd] := linearabs_with [:: 0] None 1 h1 h2 kd.
pose m1 := with_dipole k1 d.
have [w2 [v2 [g1 g2 g3 g4]]] : exists w v, [/\ evals (kernel (fun _ _ => wit_g2) wit_eig (@asort F 2) m1) = Some w,
   evecs (kernel (fun _ _ => wit_g2) wit_eig (@asort F 2) m1) = Some v, forall u, (u < 2)%N -> w u = val2 0 b2 u &
    forall i u, (u < 2)%N -> v i u = vec2 c2 s2 i u].
  by apply: kernel2 => //; rewrite /wit_eig /fill fill_prefix /= (negbTE ne).
have [w3 [hw3 hsp]] := linearabs_stale (fun _ _ => wit_g2) wit_eig (@asort F 2) [:: 0] None 1 (erefl (Some d) : excdipole1 m1 = Some d).
have [_ _ [w4 [v4 [q1 q2 q3]]]] : [/\ nsite (kernel (fun _ _ => wit_g2) wit_eig (@asort F 2) m1) = nsite m1,
   clean (nsite m1) (amat (kernel (fun _ _ => wit_g2) wit_eig (@asort F 2) m1)) &
   exists w v, [/\ evals (kernel (fun _ _ => wit_g2) wit_eig (@asort F 2) m1) = Some w,
     evecs (kernel (fun _ _ => wit_g2) wit_eig (@asort F 2) m1) = Some v & solves (nsite m1) wit_g2 (hopping m1) w v]].
  apply: (@kernel_solves F (fun _ _ => wit_g2)); rewrite /= ?kn ?kh //.
  - by move=> A; apply: wit_eig_ok; right.
  - by move=> f; apply: asort_ok.
move: q1 q2 hw3; rewrite g1 g2 => -[E1] [E2] [E3]; rewrite -E1 -E2 /= kn kh in q3; rewrite -E3 in hsp.
exists m0, m1; do 2!eexists; eexists; exists w2, v2; split; first by []; split; first exact: hd.
- exact: hsp.
- by [].
- exact: q3.
rewrite /linear_spec /= kx big_seq1 /= big_ord1 eqseq_cons andbT.
have -> : d 0%N * d 0%N = (c1 - s1) ^+ 2.
  rewrite -expr2 hdd kn -(strength2 c1 s1).1 /strength; congr (_ ^+ 2).
  by apply: eq_bigr => j _; rewrite h4.
have -> : strength 2 v2 0 = (c2 - s2) ^+ 2.
  by rewrite -(strength2 c2 s2).1 /strength; congr (_ ^+ 2); apply: eq_bigr => j _; rewrite g4.
by rewrite /lorentz !g3 //= /val2 /= !subrr expr0n /= !add0r !expr1n !mulr1 invr1 !mulr1.
Qed.
End Wit.
End P2.

Lemma stale_rat : exists (gauss1 gauss2 : nat -> rat_realFieldType) eig argsort (t : rat_realFieldType) m0 m1 m2 (sp1 sp2 : seq rat_realFieldType) w2 v2,
  let k1 := kernel (fun _ _ => gauss1) eig argsort m0 in
  let k2 := kernel (fun _ _ => gauss2) eig argsort m1 in
  [/\ forall g A, g = gauss1 \/ g = gauss2 ->
        (forall p r, (p < 2)%N -> (r < 2)%N -> A p r = chain g t p r) -> eig_ok 2 A (eig A),
      forall f, argsort_ok 2 f (argsort f) & dma_init BdObject 2 1 0 t 1 = Ok m0] /\
  [/\ linearabs k1 (Some [:: 0]) None 1 = Ok (m1, sp1),
      linearabs k2 (Some [:: 0]) None 1 = Ok (m2, sp2),
      evals k2 = Some w2 /\ evecs k2 = Some v2, solves 2 gauss2 t w2 v2 &
      sp2 != [:: \sum_(u < 1) strength 2 v2 u * lorentz 1 (0 - w2 u)]].
Proof.
pose q a b : rat_realFieldType := a%:R / b%:R.
have h1 : q 3%N 5%N ^+ 2 + q 4%N 5%N ^+ 2 = 1 by apply/eqP; vm_compute.
have h2 : q 5%N 13%N ^+ 2 + q 12%N 13%N ^+ 2 = 1 by apply/eqP; vm_compute.
have h3 : q 25%N 1%N * (q 3%N 5%N * q 4%N 5%N) = q 12%N 1%N by apply/eqP; vm_compute.
have h4 : q 169%N 5%N * (q 5%N 13%N * q 12%N 13%N) = q 12%N 1%N by apply/eqP; vm_compute.
have h5 : 0 <= q 25%N 1%N by vm_compute.
have h6 : 0 <= q 169%N 5%N by vm_compute.
have h7 : q 169%N 5%N * q 12%N 13%N ^+ 2 != q 25%N 1%N * q 4%N 5%N ^+ 2 by vm_compute.
have h8 : (q 3%N 5%N - q 4%N 5%N) ^+ 2 != (q 5%N 13%N - q 12%N 13%N) ^+ 2 by vm_compute.
have h9 : q 12%N 1%N != 0 by vm_compute.
clearbody q.
have [m0 [m1 [m2 [sp1 [sp2 [w2 [v2 [hi H]]]]]]]] := stale_abs h1 h2 h3 h4 h5 h6 h7 h8 h9.
do 5!eexists; exists m0, m1, m2, sp1, sp2, w2, v2; split; last exact: H.
split=> //; last by move=> f; apply: asort_ok.
by move=> g A hg; apply: (wit_eig_ok h1 h2 h3 h4 h7 hg).
Qed.

(** the lowest state of two equal sites with positive hopping is dark *)
Lemma dark (R : rcfType) : exists eig argsort (m0 : dma R) w v,
  let k := kernel (fun mu _ _ => mu) eig argsort m0 in
  [/\ dma_init BdObject 2 1 0 1 0 = Ok m0, evals k = Some w /\ evecs k = Some v,
      solves 2 (fun=> 0) 1 w v,
      forall es gamma, exists m', linearabs k (Some es) None gamma = Ok (m', nseq (size es) 0) &
      forall e gamma, 0 < gamma -> 0 < \sum_(u < 2) strength 2 v u * lorentz gamma (e - w u)].
Proof.
pose r : R := Num.sqrt 2%:R^-1.
have r2 : r ^+ 2 = 2%:R^-1 by rewrite sqr_sqrtr // invr_ge0 ler0n.
have h2 : 2%:R^-1 + 2%:R^-1 = 1 :> R by rewrite -mulr2n -(mulr_natr (2%:R^-1)) mulVf ?pnatr_eq0.
have n1 : r ^+ 2 + r ^+ 2 = 1 by rewrite r2.
pose eig (A : nat -> nat -> R) := (val2 (-1) 1, vec2 r r) : (nat -> R) * (nat -> nat -> R).
have [m0 [hi [hn0 hx0 [ht0 he0 hs0] hc0 [hd0 _]]]] := init_ok 2 1 0 1 (0 : R).
have [w [v [h1 hv h3 h4]]] : exists w v, [/\ evals (kernel (fun mu _ _ => mu) eig (@asort R 2) m0) = Some w,
   evecs (kernel (fun mu _ _ => mu) eig (@asort R 2) m0) = Some v, forall u, (u < 2)%N -> w u = val2 (-1) 1 u &
    forall i u, (u < 2)%N -> v i u = vec2 r r i u].
  by apply: kernel2 => //; apply: (@le_trans _ _ 0); rewrite ?oppr_le0 ler01.
have [_ _ [w4 [v4 [q1 q2 q3]]]] : [/\ nsite (kernel (fun mu _ _ => mu) eig (@asort R 2) m0) = nsite m0,
   clean (nsite m0) (amat (kernel (fun mu _ _ => mu) eig (@asort R 2) m0)) &
   exists w v, [/\ evals (kernel (fun mu _ _ => mu) eig (@asort R 2) m0) = Some w,
     evecs (kernel (fun mu _ _ => mu) eig (@asort R 2) m0) = Some v & solves (nsite m0) (fun=> epsilon m0) (hopping m0) w v]].
  apply: (@kernel_solves R (fun mu _ _ => mu)); rewrite ?hn0 ?ht0 ?he0 ?oner_neq0 //.
    move=> A hA; apply: eig2_ok => // p s hp hs; rewrite hA // /val2 r2 !mul1r !mulN1r addNr.
    by rewrite opprK mulrDl mul1r -expr2 r2 h2 /chain; case: (lt2 hp) => ->; case: (lt2 hs) => ->.
  by move=> f; apply: asort_ok.
move: q1 q2; rewrite h1 hv => -[E1] [E2]; rewrite -E1 -E2 hn0 ht0 he0 in q3.
exists eig, (@asort R 2), m0, w, v; split=> //.
- move=> es gamma.
  have kd : excdipole1 (kernel (fun mu _ _ => mu) eig (@asort R 2) m0) = None by [].
  have [d hd hdd] := linearabs_with es None gamma h1 hv kd.
  eexists; rewrite hd; congr (Ok (_, _)); rewrite /= hx0 /linear_spec /=.
  have d0 : d 0%N * d 0%N = 0.
    rewrite -expr2 hdd /= hn0; transitivity (strength 2 (vec2 r r) 0).
      by rewrite /strength; congr (_ ^+ 2); apply: eq_bigr => j _; rewrite h4.
    by rewrite (strength2 r r).1 subrr expr0n.
  by elim: es {hd} => //= e es ->; rewrite big_seq1 d0 !mul0r.
move=> e gamma hg; rewrite big_ord_recl big_ord1 /=.
have -> : strength 2 v (bump 0 0) = 2%:R.
  transitivity (strength 2 (vec2 r r) 1); last by rewrite (strength2 r r).2 sqrrD -expr2 r2 (mulr2n (2%:R^-1)) h2 addrAC h2 -mulr2n.
  by rewrite /strength; congr (_ ^+ 2); apply: eq_bigr => j _; rewrite h4.
apply: ltr_paddl; first by rewrite mulr_ge0 ?lorentz_ge0 ?sqr_ge0 // ltW.
by rewrite mulr_gt0 ?ltr0n // divr_gt0 // ltr_paddl ?sqr_ge0 // exprn_gt0.
Qed.

Section P3.
Variable F : realFieldType.
Lemma energies_ok (m : dma F) n e t w v : nsite m = n -> evals m = Some w -> solves n e t w v ->
  exists l, [/\ energies m = Ok l, size l = minn (nexc m) n, sorted <=%R l &
    forall u, (u < size l)%N -> nth 0 l u = w u].
Proof.
move=> hn hw [_ hs _]; rewrite /energies hw hn; eexists; split; first by [].
- by rewrite size_map size_iota.
- apply: (homo_sorted_in (P := fun u => (u < n)%N) (e := leq)).
  + by move=> u u' _ hu' h; apply: hs.
  + by apply/allP => u; rewrite mem_iota /= add0n leq_min => /andP[].
  + exact: iota_sorted.
- by move=> u; rewrite size_map size_iota => hu; rewrite (nth_map 0%N) ?size_iota // nth_iota.
Qed.
Lemma totdip_ok argsort (m : dma F) e t w v : (0 < nsite m)%N -> evecs m = Some v -> excdipole1 m = None ->
  solves (nsite m) e t w v -> exists m', sortdipole argsort m = Ok m' /\ totdip m' = Some (nsite m)%:R.
Proof.
move=> h0 hv hd h; rewrite /sortdipole /ensure_dipole hd /dipole hv /= pos_match //.
eexists; split; first by []. 
rewrite /= -(solves_sum h) -(sum_iota (strength (nsite m) v)); congr Some; apply: eq_bigr => u _.
by rewrite -expr2 sum_iota.
Qed.
Lemma tdes_refuted_all (es : seq F) state w d1 nuv e2 d2 gamma : es != [::] ->
  tdes es state w d1 nuv e2 d2 gamma = Err Base.NameError.
Proof. by case: es. Qed.
End P3.

Lemma selection_runs (F : realFieldType) argsort (m : dma F) v :
  (0 < nsite m)%N -> evecs m = Some v -> excdipole1 m = None -> dipsortidx m = None ->
  exists r, spdfselection argsort m = Ok r.
Proof.
move=> h0 hv hd hs; rewrite /spdfselection hs /sortdipole /ensure_dipole hd /dipole hv /= pos_match //= hv.
by eexists.
Qed.
