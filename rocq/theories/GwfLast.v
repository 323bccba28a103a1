(** Proofs about the single-band Gutzwiller approximation: quasiparticle
    Hamiltonian, densities, multipliers, the ring, and counterexamples. *)
From mathcomp Require Import all_ssreflect all_fingroup all_algebra.
From Verif Require Base.
From Verif Require Import LinProofs GwfModel GwfSpec GwfProofs GwfMore.
Set Implicit Arguments.
Unset Strict Implicit.
Unset Printing Implicit Defensive.
Import Order.TTheory GRing.Theory Num.Theory.
Local Open Scope ring_scope.

Section Qp.
Variables (F : rcfType) (n : nat).
Implicit Types (h dm : 'M[F]_n) (R lam : 'I_n -> F).

Lemma qp_sym h R lam : h^T = h -> (qp_ham h R lam)^T = qp_ham h R lam.
Proof.
move=> hs; apply/matrixP=> i j; rewrite !mxE.
have -> : h j i = h i j by rewrite -{1}hs mxE.
by rewrite [R j * _]mulrC eq_sym; case: (i =P j) => [->|].
Qed.
Lemma qp_bare h : qp_ham h (fun=> 1) (fun=> 0) = h.
Proof. by apply/matrixP=> i j; rewrite !mxE !mul1r if_same add0r. Qed.

Lemma qp_energy h R lam (rho : 'M[F]_n) : rho^T = rho ->
  \tr (qp_ham h R lam *m rho) = \sum_i \sum_j R i * R j * h i j * rho i j + \sum_i lam i * rho i i.
Proof.
move=> rs; rewrite /mxtrace -big_split; apply: eq_bigr=> i _ /=; rewrite mxE.
rewrite addrC (eq_bigr (fun j => (if j == i then lam i * rho i i else 0) + R i * R j * h i j * rho i j)).
  by rewrite big_split /= -big_mkcond big_pred1_eq.
move=> j _; rewrite mxE mulrDl eq_sym; have -> : rho j i = rho i j by rewrite -{1}rs mxE.
by case: (j =P i) => [->|_]; rewrite ?mul0r.
Qed.

Lemma deltas_uniform h dm R r : (forall i, R i = r) ->
  forall i, deltas h dm R i = \sum_j h i j * R j * dm j i.
Proof.
by move=> hr i; rewrite /deltas mulr_suml; apply: eq_bigr=> j _; rewrite !hr mulrAC.
Qed.

(** The sum of the documented quantity against R is the renormalised hopping
    energy; the one of the code is not. *)
Lemma deltas_doc h dm R : \sum_i R i * (\sum_j h i j * R j * dm j i)
  = \sum_i \sum_j R i * R j * h i j * dm j i.
Proof.
apply: eq_bigr=> i _; rewrite mulr_sumr; apply: eq_bigr=> j _.
by rewrite !mulrA [R i * h i j * _]mulrAC.
Qed.

(** Occupations *)
Lemma get_occE N (idx : 'I_n -> 'I_n) : injective idx ->
  forall k, get_occ F N idx (idx k) = if (k < N %/ 2)%N then 2%:R else 0.
Proof.
move=> hi k; rewrite /get_occ; case: (ltnP k (N %/ 2)) => hk.
  by case: existsP => // -[]; exists k; rewrite hk eqxx.
by case: existsP => // -[l /andP [hl /eqP /hi e]]; move: hl; rewrite e ltnNge hk.
Qed.

Lemma occ_sum N (idx : 'I_n -> 'I_n) : injective idx ->
  \sum_i get_occ F N idx i = (2 * minn (N %/ 2) n)%:R.
Proof.
move=> hi; rewrite (reindex_inj hi) (eq_bigr (fun k : 'I_n => if (k < N %/ 2)%N then 2%:R else 0)) => [|k _]; last exact: get_occE.
rewrite -big_mkcond sumr_const natrM mulr_natr; congr (_ *+ _).
rewrite -sum1_card (eq_bigl (fun i : 'I_n => (i < N %/ 2)%N)) // -(big_mkord (fun i => i < N %/ 2)%N (fun=> 1%N)).
case: (leqP (N %/ 2) n) => h.
  by rewrite -(big_nat_widen _ _ _ xpredT) ?sum_nat_const_nat ?muln1 ?subn0.
rewrite big_nat_cond (eq_bigl (fun i => (0 <= i < n)%N)) => [|i].
  by rewrite -big_nat sum_nat_const_nat muln1 subn0.
by rewrite leq0n /=; case hh: (i < n)%N => //=; rewrite (ltn_trans hh h).
Qed.

Lemma aufbau N (idx : 'I_n -> 'I_n) (e : 'I_n -> F) : bijective idx ->
  (forall k l : 'I_n, (k <= l)%N -> e (idx k) <= e (idx l)) ->
  forall i j, get_occ F N idx i = 2%:R -> get_occ F N idx j = 0 -> e i <= e j.
Proof.
move=> [g h1 h2] hs i j; rewrite -(h2 i) -(h2 j) !get_occE; try exact: (can_inj h1).
case: ltnP => [a _|_ /eqP]; last by rewrite eq_sym pnatr_eq0.
case: ltnP => [_ /eqP|b _]; first by rewrite pnatr_eq0.
by apply: hs; apply: ltnW; apply: leq_trans a b.
Qed.

Lemma rdmE (C : 'M[F]_n) (occ : 'I_n -> F) : (forall k, 0 <= occ k) ->
  make_rdm1 C occ = C *m diag_mx (\row_k occ k) *m C^T.
Proof.
move=> ho; apply/matrixP=> i j; rewrite mul_mx_diag !mxE big_mkcond /=; apply: eq_bigr=> k _.
rewrite !mxE; case: ltP => // h; suff -> : occ k = 0 by rewrite mulr0 mul0r.
by apply/eqP; rewrite eq_le h ho.
Qed.

Lemma occ_ge0 N idx (k : 'I_n) : 0 <= get_occ F N idx k.
Proof. by rewrite /get_occ; case: ifP; rewrite ?ler0n. Qed.

Lemma rdm_idem N idx (C S : 'M[F]_n) : C^T *m S *m C = 1%:M ->
  let D := make_rdm1 C (get_occ F N idx) in D *m S *m D = 2%:R *: D.
Proof.
move=> hc /=; rewrite rdmE; last exact: occ_ge0.
set d := diag_mx _; have dd : d *m d = 2%:R *: d.
  rewrite /d mulmx_diag; apply/matrixP=> i j; rewrite !mxE mulrnAr; congr (_ *+ _).
  by rewrite /get_occ; case: ifP=> _; rewrite ?mulr0.
rewrite -!mulmxA [C^T *m (S *m _)]mulmxA [C^T *m S *m (C *m _)]mulmxA hc mul1mx.
by rewrite [d *m (d *m _)]mulmxA dd -scalemxAl -scalemxAr.
Qed.

Lemma rdm_trace N (idx : 'I_n -> 'I_n) (C S : 'M[F]_n) : injective idx -> C^T *m S *m C = 1%:M ->
  \tr (make_rdm1 C (get_occ F N idx) *m S) = (2 * minn (N %/ 2) n)%:R.
Proof.
move=> hi hc; rewrite rdmE; last exact: occ_ge0.
rewrite -mulmxA mxtrace_mulC mulmxA hc mul1mx mxtrace_diag -(occ_sum N hi).
by apply: eq_bigr=> i _; rewrite mxE.
Qed.

Lemma fix_signsE (C : 'M[F]_n) idx : fix_signs C idx
  = C *m diag_mx (\row_j (if C (idx j) j < 0 then -1 else 1)).
Proof.
by apply/matrixP=> i j; rewrite mul_mx_diag !mxE; case: ifP=> _; rewrite ?mulrN mulr1.
Qed.

Lemma fix_signs_ok (H S C : 'M[F]_n) (e : 'rV[F]_n) idx :
  H *m C = S *m C *m diag_mx e -> C^T *m S *m C = 1%:M ->
  let C' := fix_signs C idx in
  [/\ H *m C' = S *m C' *m diag_mx e, C'^T *m S *m C' = 1%:M & forall j, 0 <= C' (idx j) j].
Proof.
move=> h1 h2 /=; split; first 2 last.
- by move=> j; rewrite mxE; case: (ltP (C (idx j) j) 0) => // h; rewrite oppr_ge0 ltW.
- rewrite fix_signsE; set d := diag_mx _.
  have dc : d *m diag_mx e = diag_mx e *m d by rewrite /d !mulmx_diag; congr diag_mx; apply/rowP=> j; rewrite !mxE mulrC.
  by rewrite mulmxA h1 -!mulmxA dc.
- rewrite fix_signsE; set d := diag_mx _.
  rewrite trmx_mul tr_diag_mx -/d -!mulmxA [S *m (C *m d)]mulmxA [C^T *m (_ *m _)]mulmxA.
  rewrite [C^T *m (S *m C)]mulmxA h2 mul1mx /d mulmx_diag; apply/matrixP=> i j; rewrite !mxE.
  by case: ifP=> _; rewrite ?mulrNN mulr1.
Qed.

(** Multipliers *)
Lemma lambda_err0 dm f : (0 < n)%N -> (lambda_err dm f = 0 <-> forall i : 'I_n, dm i i = occupation (f i)).
Proof.
move=> hn; rewrite /lambda_err; have nn : (n%:R : F)^-1 != 0 by rewrite invr_eq0 pnatr_eq0 -lt0n.
split=> [/eqP|h]; last by rewrite big1 ?mul0r // => i _; rewrite h subrr normr0.
rewrite mulf_eq0 (negbTE nn) orbF psumr_eq0 => [/allP h i|i _]; last exact: normr_ge0.
by have := h i (mem_index_enum i); rewrite /= normr_eq0 subr_eq0 => /eqP.
Qed.
Lemma lambda_fixed dm f R lam (i : 'I_n) : dm i i = occupation (f i) -> new_lambda dm f R lam i = lam i.
Proof. by move=> h; rewrite /new_lambda h subrr mul0r addr0. Qed.
Lemma lambda_fixed_iff dm f R lam (i : 'I_n) : 0 < R i ->
  (new_lambda dm f R lam i = lam i <-> dm i i = occupation (f i)).
Proof.
move=> hR; split; last exact: lambda_fixed.
rewrite /new_lambda -{2}[lam i]addr0 => /addrI /eqP; rewrite mulf_eq0 (gt_eqF hR) orbF subr_eq0.
by move/eqP.
Qed.
Lemma lambda_dir dm f R lam (i : 'I_n) : 0 <= R i <= 1 ->
  `|new_lambda dm f R lam i - lam i| <= `|dm i i - occupation (f i)|
  /\ (occupation (f i) <= dm i i -> lam i <= new_lambda dm f R lam i)
  /\ (dm i i <= occupation (f i) -> new_lambda dm f R lam i <= lam i).
Proof.
case/andP=> a b; rewrite /new_lambda [_ + _ - _]addrC addKr normrM; split.
  by rewrite -[leRHS]mulr1 ler_wpmul2l ?normr_ge0 // ger0_norm.
split=> h; first by rewrite ler_addl mulr_ge0 // subr_ge0.
by rewrite ger_addl mulr_le0_ge0 // subr_le0.
Qed.
End Qp.

Section Ring.
Variables (F : realFieldType) (L : nat).

Lemma ringE i j : (i < L)%N -> (j < L)%N ->
  hubbard_ring F L i j = if (j == i.+1 %% L)%N || (i == j.+1 %% L)%N then -1 else 0.
Proof.
move=> hi hj; rewrite /hubbard_ring; congr (if _ then _ else _).
apply/hasP/orP => [[k]|[] e].
- by rewrite mem_iota /= => hk /orP [/andP [/eqP -> e]|/andP [e /eqP ->]]; [left|right].
- by exists i; rewrite ?mem_iota ?eqxx ?e.
- by exists j; rewrite ?mem_iota ?eqxx ?e ?orbT.
Qed.
Lemma ring_sym i j : (i < L)%N -> (j < L)%N -> hubbard_ring F L i j = hubbard_ring F L j i.
Proof. by move=> hi hj; rewrite !ringE // orbC. Qed.

Lemma succ_inj (i j : nat) : (i < L)%N -> (j < L)%N -> (i.+1 %% L == j.+1 %% L)%N = (i == j).
Proof.
move=> hi hj; rewrite -[i.+1]addn1 -[j.+1]addn1 eqn_modDr !modn_small //.
Qed.

Lemma ring_shift i j : (i < L)%N -> (j < L)%N ->
  hubbard_ring F L (i.+1 %% L) (j.+1 %% L) = hubbard_ring F L i j.
Proof.
move=> hi hj; have hL : (0 < L)%N by apply: leq_ltn_trans hi.
by rewrite !ringE ?ltn_pmod // !succ_inj ?ltn_pmod.
Qed.

Lemma ring_rows i : (2 < L)%N -> (i < L)%N -> \sum_(j < L) hubbard_ring F L i j = - 2%:R.
Proof.
move=> h3 hi; have hL : (0 < L)%N by apply: leq_ltn_trans hi.
have p1 : ((i + L.-1) %% L < L)%N by rewrite ltn_pmod.
have pE (j : 'I_L) : (i == j.+1 %% L)%N = (j == Ordinal p1 :> nat).
  have e1 : (i = (i + L.-1).+1 %% L)%N by rewrite -addnS prednK // modnDr modn_small.
  rewrite [in LHS]e1 -[(i + L.-1).+1]addn1 -[j.+1]addn1 eqn_modDr eq_sym /=.
  by rewrite [in LHS](modn_small (ltn_ord j)).
have p2 : (i.+1 %% L < L)%N by rewrite ltn_pmod.
have ne : Ordinal p2 != Ordinal p1.
  apply/negP=> /eqP /(congr1 val) /= /eqP; rewrite -addn1 eqn_modDl.
  by rewrite !modn_small ?prednK //; [case: (L) h3 => [|[|[|]]] | apply: ltn_trans h3].
rewrite (eq_bigr (fun j : 'I_L => (if j == Ordinal p2 then -1 else 0) + (if j == Ordinal p1 then -1 else 0))).
  by rewrite big_split /= -!big_mkcond !big_pred1_eq -opprD (natrD _ 1 1).
move=> j _; rewrite ringE // pE -!val_eqE /=.
case: (_ =P _) => [e|_] /=; last by case: ifP=> _; rewrite add0r.
case: (_ =P _) => [e'|_]; last by rewrite addr0.
by case/eqP: ne; apply: val_inj; rewrite /= -e -e'.
Qed.
End Ring.
Lemma ring_two (F : realFieldType) (i : 'I_2) : \sum_(j < 2) hubbard_ring F 2 i j = -1.
Proof.
by rewrite !big_ord_recl big_ord0; case: i => [[|[|]]] //= p; rewrite ?addr0 ?add0r.
Qed.
