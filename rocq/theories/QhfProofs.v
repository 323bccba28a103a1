(** Proofs about the QED-HF mean field. *)
From mathcomp Require Import all_ssreflect all_algebra.
From Coq Require Import Ring Field.
From Verif Require Import LinProofs QhfModel QhfSpec.
From Verif Require Base.
Set Implicit Arguments. Unset Strict Implicit.
Unset Printing Implicit Defensive.
Import GRing.Theory Num.Theory. Local Open Scope ring_scope.

Section AbsRing.
Variables (K : Type) (z o : K) (add mul sub : K -> K -> K) (opp : K -> K).
Variable RT : ring_theory z o add mul sub opp (@eq K).
Add Ring KRq : RT.
Local Notation "x +! y" := (add x y) (at level 50, left associativity).
Local Notation "x *! y" := (mul x y) (at level 40, left associativity).
Local Notation "x -! y" := (sub x y) (at level 50, left associativity).
Lemma id_energy t z2 k b e h : h +! h = o ->
  opp z2 +! h *! t +! (h *! z2 +! e) +! b +! (z2 -! h *! k) *! h = h *! (t -! h *! k) +! e +! b.
Proof.
move=> E; have -> : opp z2 +! h *! t +! (h *! z2 +! e) +! b +! (z2 -! h *! k) *! h
  = (h +! h) *! z2 -! z2 +! (h *! (t -! h *! k) +! e +! b) by ring.
by rewrite E; ring.
Qed.
Lemma id_moved h t c g nn k : h +! h = o ->
  h *! (t +! (o +! o) *! c *! g +! c *! c *! nn -! h *! (k +! c *! ((o +! o) *! g) +! c *! ((o +! o) *! g) +! c *! (c *! ((o +! o) *! nn))))
  = h *! (t -! h *! k).
Proof.
move=> E.
have -> : h *! (t +! (o +! o) *! c *! g +! c *! c *! nn -! h *! (k +! c *! ((o +! o) *! g) +! c *! ((o +! o) *! g) +! c *! (c *! ((o +! o) *! nn))))
  = h *! (t -! h *! k) +! h *! ((o +! o) *! c *! g +! c *! c *! nn) -! h *! ((h +! h) *! ((o +! o) *! c *! g +! c *! c *! nn)) by ring.
by rewrite E; ring.
Qed.
Lemma id_quad h t x k1 k2 k3 : h +! h = o ->
  h *! (t +! x -! h *! (k1 +! k2 +! (k2 +! k3))) = h *! (t -! h *! k1) +! (h *! x -! h *! k2) -! h *! h *! k3.
Proof.
move=> E.
have -> : h *! (t +! x -! h *! (k1 +! k2 +! (k2 +! k3))) = h *! (t -! h *! k1) +! (h *! x -! (h +! h) *! h *! k2) -! h *! h *! k3 by ring.
by rewrite E; ring.
Qed.
Lemma id_g1 f h : (o -! (f +! h)) *! (o -! (f +! h)) = (o -! f) *! (o -! f) +! h *! (opp (o +! o) *! (o -! f)) +! h *! h.
Proof. ring. Qed.
Lemma id_g2 f h : (f +! h) *! (f +! h -! (o +! o)) = f *! (f -! (o +! o)) +! h *! (opp (o +! o) *! (o -! f)) +! h *! h.
Proof. ring. Qed.
Lemma id_s1 g v d h y : g *! ((v +! h *! d +! h *! h) *! y) = g *! (v *! y) +! h *! (g *! (d *! y)) +! h *! h *! (g *! y).
Proof. ring. Qed.
Lemma id_s2 v d h y : (v +! h *! d +! h *! h) *! y = v *! y +! h *! (d *! y) +! h *! h *! y.
Proof. ring. Qed.
Lemma id_s3 v d h y : y *! (v +! h *! d +! h *! h) = y *! v +! h *! (y *! d) +! h *! h *! y.
Proof. ring. Qed.
Lemma id_s4 x f h : x *! (o -! (f +! h)) = x *! (o -! f) -! h *! x.
Proof. ring. Qed.
Lemma id_o1 a0 a1 a2 b0 b1 b2 c0 c1 c2 p0 p1 h k e s v :
  opp (a0 +! h *! a1 +! h *! h *! a2) +! k *! (b0 +! h *! b1 +! h *! h *! b2)
  +! (k *! (c0 +! h *! c1 +! h *! h *! c2) +! e) *! s *! v +! (p0 -! h *! p1)
  = opp a0 +! k *! b0 +! (k *! c0 +! e) *! s *! v +! p0
    +! h *! (opp a1 +! k *! b1 +! k *! c1 *! s *! v -! p1)
    +! h *! h *! (opp a2 +! k *! b2 +! k *! c2 *! s *! v).
Proof. ring. Qed.
Lemma id_o2 a0 a1 a2 c0 c1 c2 p0 p1 h k e s v :
  opp (a0 +! h *! a1 +! h *! h *! a2) +! z
  +! (k *! (c0 +! h *! c1 +! h *! h *! c2) +! e) *! s *! v +! (p0 -! h *! p1)
  = opp a0 +! z +! (k *! c0 +! e) *! s *! v +! p0
    +! h *! (opp a1 +! z +! k *! c1 *! s *! v -! p1)
    +! h *! h *! (opp a2 +! z +! k *! c2 *! s *! v).
Proof. ring. Qed.
Lemma id_jk j0 j1 j2 k0 k1 k2 h k : j0 +! h *! j1 +! h *! h *! j2 -! k *! (k0 +! h *! k1 +! h *! h *! k2)
  = j0 -! k *! k0 +! h *! (j1 -! k *! k1) +! h *! h *! (j2 -! k *! k2).
Proof. ring. Qed.
End AbsRing.

Section Qhf.
Variables (F : realFieldType) (n m : nat).
Local Notation M := 'M[F]_n.
Local Notation half := (2%:R^-1 : F).
Implicit Types (q : qed F n m) (D g S X : M).

Lemma scaled_muE D g : scaled_mu D g = \tr (D *m g^T).
Proof.
rewrite /scaled_mu /mxtrace; apply: eq_bigr=> i _; rewrite mxE; apply: eq_bigr=> j _; by rewrite !mxE.
Qed.
Lemma contractE (a b : M) : contract a b = \tr (a *m b).
Proof. by rewrite /contract /mxtrace; apply: eq_bigr=> i _; rewrite mxE. Qed.
Lemma vj_dseE q r D : vj_dse q r D = \sum_a (scaled_mu D (gmat q a) * gvar2 q r a) *: gmat q a.
Proof.
apply/matrixP=> i j; rewrite mxE summxE; apply: eq_bigr=> a _.
by rewrite mxE -mulrA mulrC.
Qed.
Lemma vk_dseE q r D : vk_dse q r D = \sum_a gvar2 q r a *: (gmat q a *m D *m (gmat q a)^T).
Proof.
apply/matrixP=> i j; rewrite mxE summxE; apply: eq_bigr=> a _.
rewrite mxE -mulmxA mxE mulr_sumr; apply: eq_bigr=> s _.
rewrite mulrC; congr (_ * (_ * _)).
by rewrite mxE; apply: eq_bigr=> t _; rewrite mxE mulrC.
Qed.

Lemma tmp_termE q V a : tmp_term q V a = square_matrix q V a.
Proof.
rewrite /tmp_term /square_matrix; case: (complete_basis q)=> //.
apply/matrixP=> i j; rewrite mxE -mulmxA mxE; apply: eq_bigr=> r _.
by rewrite mxE mulr_sumr; apply: eq_bigr=> s _; rewrite mulrA.
Qed.
Lemma oeiE q S V (N : F) r : oei q S V N r =
  - (\sum_a (gvar2 q r a * z_alpha q a) *: gmat q a)
  + (if add_dse q then half *: \sum_a gvar2 q r a *: square_matrix q V a else 0)
  + ((half * (\sum_a z_alpha q a ^+ 2 * gvar2 q r a) + e_boson q) / N) *: S
  + \sum_a (ph q a * sw q a * couplings_res q a) *: (gmat q a - z_alpha q a *: S).
Proof.
apply/matrixP=> i j; rewrite !mxE !summxE; congr (_ + _ + _ + _).
- by congr (- _); apply: eq_bigr=> a _; rewrite !mxE mulrC.
- case: (add_dse q); rewrite !mxE // summxE; congr (_ * _).
  by apply: eq_bigr=> a _; rewrite !mxE tmp_termE.
- by rewrite -!mulrA [N^-1 * _]mulrC.
- apply: eq_bigr=> a _; rewrite !mxE [z_alpha q a * _]mulrC -!mulrA; congr (_ * _).
  by rewrite [LHS]mulrC mulrA.
Qed.
Lemma half1 : half + half = 1.
Proof. by rewrite -mulr2n -[_ *+ 2]mulr_natl mulfV // pnatr_eq0. Qed.
Lemma update_csE q D : use_cs q -> update_cs q D = set_z q (fun a => scaled_mu D (gmat q a)).
Proof. by rewrite /update_cs => ->. Qed.
Lemma muE q D a : (forall a, sym (gmat q a)) -> scaled_mu D (gmat q a) = mean D (gmat q a).
Proof. by move=> sg; rewrite scaled_muE (sg a). Qed.
Lemma tr_sum k (A : 'I_k -> M) D : \tr ((\sum_a A a) *m D) = \sum_a \tr (A a *m D).
Proof. by rewrite mulmx_suml raddf_sum. Qed.
Lemma trZl (c : F) (A D : M) : \tr (c *: A *m D) = c * \tr (A *m D).
Proof. by rewrite -scalemxAl mxtraceZ. Qed.
Lemma tr_vj q r D : (forall a, sym (gmat q a)) ->
  \tr (vj_dse q r D *m D) = \sum_a gvar2 q r a * mean D (gmat q a) ^+ 2.
Proof.
move=> sg; rewrite vj_dseE tr_sum; apply: eq_bigr=> a _.
by rewrite trZl muE // mxtrace_mulC -/(mean D (gmat q a)) mulrAC -expr2 mulrC.
Qed.
Lemma tr_vk q r D : (forall a, sym (gmat q a)) ->
  \tr (vk_dse q r D *m D) = \sum_a gvar2 q r a * \tr (D *m gmat q a *m D *m gmat q a).
Proof.
move=> sg; rewrite vk_dseE tr_sum; apply: eq_bigr=> a _.
by rewrite trZl sg mxtrace_mulC !mulmxA.
Qed.
Lemma energyE q S V (N : F) D : (forall a, sym (gmat q a)) -> add_dse q -> use_cs q ->
  N != 0 -> \tr (S *m D) = N ->
  dse_energy q S V N D = \sum_a fluctuation D (gmat q a) (square_matrix q V a) + e_boson q
    + \sum_a ph q a * sw q a * couplings_res q a * (mean D (gmat q a) - mean D (gmat q a) * N).
Proof.
move=> sg dse cs N0 tN; rewrite /dse_energy /add_oei_ao /energy_elec update_csE // dse.
set q' := set_z _ _; have sg' : forall a, sym (gmat q' a) by [].
rewrite !contractE oeiE /= dse.
rewrite !mulmxDl !mxtraceD mulNmx raddfN /= tr_sum trZl tr_sum -scalemxAl mxtraceZ tN divfK // tr_sum.
rewrite mulNmx raddfN /= -scalemxAl mxtraceZ tr_vj // tr_vk //.
have -> : \sum_i \tr ((gvar2 q' false i * scaled_mu D (gmat q i)) *: gmat q i *m D) = \sum_i mean D (gmat q i) ^+ 2.
  by apply: eq_bigr=> a _; rewrite trZl /gvar2 mul1r muE // mxtrace_mulC -expr2.
have -> : \sum_i \tr (gvar2 q' false i *: square_matrix q' V i *m D) = \sum_i \tr (D *m square_matrix q V i).
  by apply: eq_bigr=> a _; rewrite trZl mul1r mxtrace_mulC.
have -> : \sum_a scaled_mu D (gmat q a) ^+ 2 * gvar2 q' false a = \sum_a mean D (gmat q a) ^+ 2.
  by apply: eq_bigr=> a _; rewrite mulr1 muE.
have -> : \sum_a gvar2 q' false a * mean D (gmat q' a) ^+ 2 = \sum_a mean D (gmat q a) ^+ 2.
  by apply: eq_bigr=> a _; rewrite mul1r.
have -> : \sum_a gvar2 q' false a * \tr (D *m gmat q' a *m D *m gmat q' a) = \sum_a \tr (D *m gmat q a *m D *m gmat q a).
  by apply: eq_bigr=> a _; rewrite mul1r.
have -> : \sum_i \tr ((ph q i * sw q i * couplings_res q i) *: (gmat q i - scaled_mu D (gmat q i) *: S) *m D)
   = \sum_a ph q a * sw q a * couplings_res q a * (mean D (gmat q a) - mean D (gmat q a) * N).
  apply: eq_bigr=> a _; rewrite trZl mulmxBl raddfB /= trZl tN muE //.
  by congr (_ * (_ - _)); rewrite mxtrace_mulC.
rewrite /fluctuation -mulr_sumr /second_moment.
have -> : \sum_a (\tr (D *m square_matrix q V a) + mean D (gmat q a) ^+ 2 - half * \tr (D *m gmat q a *m D *m gmat q a) - mean D (gmat q a) ^+ 2)
  = \sum_a \tr (D *m square_matrix q V a) - half * \sum_a \tr (D *m gmat q a *m D *m gmat q a).
  rewrite mulr_sumr -sumrB; apply: eq_bigr=> a _.
  by rewrite addrAC addrK.
set t := \sum_a \tr _; set z2 := \sum_a mean _ _ ^+ 2; set k := \sum_a \tr _; set b := \sum_a _ * _; set e := e_boson q.
have H := half1; move: (half : F) H=> h H.
by rewrite (id_energy (frt F) t z2 k b e H).
Qed.

Lemma fluctE D g Q : fluctuation D g Q = half * (\tr (D *m Q) - half * \tr (D *m g *m D *m g)).
Proof. by rewrite /fluctuation /second_moment addrAC addrK. Qed.
Lemma two2 : (2%:R : F) = 1 + 1.
Proof. exact: mulr2n. Qed.
(** moving the origin *)
Lemma moved_square q S V c a : (~~ complete_basis q -> V *m S = 1%:M) ->
  square_matrix (moved S c q) V a = square_matrix q V a + (2%:R * c a) *: gmat q a + c a ^+ 2 *: S.
Proof.
rewrite /square_matrix /=; case: (complete_basis q)=> [_|/(_ isT) VS]; first by rewrite opprB addrC addrA.
have SV : S *m V = 1%:M by rewrite mulmx1C.
rewrite !mulmxDl !mulmxDr -!scalemxAl -!scalemxAr SV mul1mx.
rewrite -[gmat q a *m V *m S]mulmxA VS mulmx1 mul1mx !scalerA -expr2 two2.
by rewrite !addrA mulrDl mul1r scalerDl !addrA.
Qed.
Lemma swap4 (A B C E : M) : \tr (A *m B *m C *m E) = \tr (C *m E *m A *m B).
Proof. by rewrite -[A *m B *m C *m E]mulmxA mxtrace_mulC mulmxA. Qed.
Lemma energy_vac q S V (N : F) D : (forall a, sym (gmat q a)) -> add_dse q -> use_cs q ->
  N != 0 -> \tr (S *m D) = N -> (forall a, ph q a = 0) ->
  dse_energy q S V N D = \sum_a fluctuation D (gmat q a) (square_matrix q V a) + e_boson q.
Proof.
move=> sg dse cs N0 tN p0; rewrite energyE // [X in _ + X]big1 ?addr0 // => a _.
by rewrite p0 !mul0r.
Qed.
Lemma fluct_moved q S V (N : F) D c a : closed_shell S N D -> sym S -> (~~ complete_basis q -> V *m S = 1%:M) ->
  fluctuation D (gmat (moved S c q) a) (square_matrix (moved S c q) V a) = fluctuation D (gmat q a) (square_matrix q V a).
Proof.
case=> sD idem tN sS inv; rewrite !fluctE moved_square //=.
have tN' : \tr (D *m S) = N by rewrite mxtrace_mulC.
have E1 : \tr (D *m S *m D *m gmat q a) = 2%:R * mean D (gmat q a) by rewrite idem -scalemxAl mxtraceZ.
have E2 : \tr (D *m S *m D *m S) = 2%:R * N by rewrite idem -scalemxAl mxtraceZ tN'.
have E3 : \tr (D *m gmat q a *m D *m S) = 2%:R * mean D (gmat q a).
  by rewrite swap4.
rewrite !mulmxDr !mulmxDl -!scalemxAr -!scalemxAl !mxtraceD !mxtraceZ E1 E2 E3 tN' two2 expr2 !addrA.
rewrite -/(mean D (gmat q a)).
by rewrite (id_moved (frt F) (\tr (D *m square_matrix q V a)) (c a) (mean D (gmat q a)) N (\tr (D *m gmat q a *m D *m gmat q a)) half1).
Qed.
Lemma origin q S V (N : F) D c : (forall a, sym (gmat q a)) -> sym S -> add_dse q -> use_cs q ->
  N != 0 -> closed_shell S N D -> (forall a, ph q a = 0) -> (~~ complete_basis q -> V *m S = 1%:M) ->
  dse_energy (moved S c q) S V N D = dse_energy q S V N D.
Proof.
move=> sg sS dse cs N0 cl p0 inv; case: (cl)=> sD idem tN.
rewrite !energy_vac //; last by move=> a; rewrite /sym /= linearD linearZ /= sg sS.
by congr (_ + _); apply: eq_bigr=> a _; exact: fluct_moved cl sS inv.
Qed.
(** the Fock matrix is the gradient *)
Lemma focktr q S V (N : F) D X : (forall a, sym (gmat q a)) -> add_dse q -> use_cs q -> (forall a, ph q a = 0) -> \tr (S *m X) = 0 ->
  \tr (dse_fock q S V N D *m X) =
  \sum_a (half * \tr (X *m square_matrix q V a) - half * \tr (D *m gmat q a *m X *m gmat q a)).
Proof.
move=> sg dse cs p0 tX; rewrite /dse_fock /add_oei_ao update_csE // dse.
set q' := set_z _ _; rewrite oeiE /= dse [\sum_a (ph q a * _ * _) *: _]big1 ?addr0; last by move=> a _; rewrite p0 !mul0r scale0r.
rewrite vj_dseE vk_dseE !mulmxDl !mxtraceD mulNmx raddfN /= -[(_ / N) *: S *m X]scalemxAl mxtraceZ tX mulr0 addr0.
rewrite mulNmx raddfN /= -![half *: _ *m X]scalemxAl !mxtraceZ !tr_sum addrA addrAC -!addrA.
have -> : \sum_a \tr ((gvar2 q' false a * scaled_mu D (gmat q a)) *: gmat q a *m X)
  = \sum_a \tr ((scaled_mu D (gmat q' a) * gvar2 q' false a) *: gmat q' a *m X) by apply: eq_bigr=> a _; rewrite mulrC.
rewrite addrC -!addrA [X in _ + (_ + X)](_ : _ = 0) ?addr0; last exact: subrr.
rewrite !mulr_sumr -sumrB; apply: eq_bigr=> a _.
rewrite !trZl !mul1r sg; congr (_ * _ - _ * _); first by rewrite mxtrace_mulC.
by rewrite mxtrace_mulC !mulmxA swap4.
Qed.
Lemma gradient q S V (N : F) D X : (forall a, sym (gmat q a)) -> add_dse q -> use_cs q ->
  N != 0 -> \tr (S *m D) = N -> \tr (S *m X) = 0 -> (forall a, ph q a = 0) ->
  dse_energy q S V N (D + X) = dse_energy q S V N D + \tr (dse_fock q S V N D *m X)
    - half * half * \sum_a \tr (X *m gmat q a *m X *m gmat q a).
Proof.
move=> sg dse cs N0 tD tX p0; rewrite !energy_vac ?mulmxDr ?mxtraceD ?tX ?addr0 // focktr //.
rewrite mulr_sumr [X in X - _]addrAC [RHS]addrAC; congr (_ + _).
rewrite -big_split -sumrB /=; apply: eq_bigr=> a _; rewrite !fluctE.
have E : \tr (X *m gmat q a *m D *m gmat q a) = \tr (D *m gmat q a *m X *m gmat q a).
  by rewrite swap4.
rewrite !mulmxDl !mulmxDr !mulmxDl !mxtraceD E.
by rewrite (id_quad (frt F)) // half1.
Qed.
(** duplicate routines *)
Lemma jk_agree q (r : bool) D : (forall a, sym (gmat q a)) -> sym D -> (r -> add_dse q) ->
  vj_dse q r D = j_dse q r D /\ vk_dse q r D = k_dse q r D.
Proof.
move=> sg sD dse.
have gv a : gvar2 q r a = g_dse q r a by rewrite /gvar2 /g_dse; case: r dse => // -> //; rewrite expr2.
split.
  rewrite vj_dseE; apply/matrixP=> i j; rewrite summxE mxE; apply: eq_bigr=> a _.
  rewrite mxE gv [g_dse _ _ _ * _]mulrC; congr (_ * _ * _).
  rewrite scaled_muE sg mxtrace_mulC /mxtrace; apply: eq_bigr=> k _; by rewrite mxE.
rewrite vk_dseE; apply/matrixP=> i j; rewrite summxE mxE; apply: eq_bigr=> a _.
rewrite mxE gv sg -mulmxA mxE; congr (_ * _); apply: eq_bigr=> k _.
rewrite mxE mulr_sumr; apply: eq_bigr=> l _.
have -> : D k l = D l k by rewrite -{1}sD mxE.
by rewrite [D l k * _]mulrC mulrA.
Qed.
(** Coulomb and exchange *)
Section JKP.
Variable bare : M -> M * M.
Definition full_j q D : M := (bare D).1 + (if add_dse q then vj_dse q false D else 0).
Definition full_k q D : M := (bare D).2 + (if add_dse q then vk_dse q false D else 0).
Definition full_v q D : M := full_j q D - half *: full_k q D.
Lemma get_jk_ok fuel q he fits D : he || fits ->
  get_jk bare fuel.+1 q he fits false true true D = Base.Ok (Some (full_j q D), Some (full_k q D), true).
Proof. by move=> H; rewrite /= H /= /full_j /full_k; case: (add_dse q); rewrite //= !addr0. Qed.
Lemma get_jk_loop fuel q he fits lr wj wk D : ~~ (~~ lr && (he || fits)) ->
  get_jk bare fuel q he fits lr wj wk D = Base.Err Base.RecursionError.
Proof. by move=> /negPf H; elim: fuel => //= f IH; rewrite H IH. Qed.
Lemma get_jk_flags fuel q he fits wj wk D : he || fits -> add_dse q -> ~~ (wj && wk) ->
  get_jk bare fuel.+1 q he fits false wj wk D = Base.Err Base.TypeError.
Proof. by move=> H dse; rewrite /= H /= dse; case: wj=> //; case: wk. Qed.
Lemma vjD q r A B : vj_dse q r (A - B) = vj_dse q r A - vj_dse q r B.
Proof.
rewrite !vj_dseE -sumrB; apply: eq_bigr=> a _; rewrite -scalerBl -mulrBl; congr (_ * _ *: _).
by rewrite !scaled_muE mulmxBl raddfB.
Qed.
Lemma vkD q r A B : vk_dse q r (A - B) = vk_dse q r A - vk_dse q r B.
Proof. by rewrite !vk_dseE -sumrB; apply: eq_bigr=> a _; rewrite mulmxBr mulmxBl scalerBr. Qed.
Hypothesis ad : additive bare.
Lemma full_vD q A B : full_v q (A - B) = full_v q A - full_v q B.
Proof.
rewrite /full_v /full_j /full_k (ad A B).1 (ad A B).2.
have sw4 (V : zmodType) (x y u v : V) : x - y + (u - v) = x + u - (y + v) by rewrite opprD addrACA.
case: (add_dse q); rewrite ?addr0.
  by rewrite vjD vkD !sw4 scalerBr !opprB [LHS]addrACA [RHS]addrACA; congr (_ + _); rewrite addrC.
by rewrite scalerBr !opprB [LHS]addrACA [RHS]addrACA; congr (_ + _); rewrite addrC.
Qed.
Lemma full_v0 q : full_v q 0 = 0.
Proof. by rewrite -{1}(subrr (0 : M)) full_vD subrr. Qed.
Lemma get_veff_ok fuel q he fits direct D L v : he || fits -> v = full_v q L ->
  get_veff bare fuel.+1 q he fits direct D L v = Base.Ok (full_v q D, true).
Proof.
move=> H ->; rewrite /get_veff get_jk_ok //= -/(full_v _ _).
by case: (~~ (he || ~~ direct)); rewrite ?full_vD ?subrK.
Qed.
Lemma scf_veff_ok fuel q he fits direct dms : he || fits ->
  scf_veff bare fuel.+1 q he fits direct 0 0 dms = Base.Ok (map (full_v q) dms).
Proof.
move=> H.
suff G : forall ds b L v, b || fits -> v = full_v q L ->
    scf_veff bare fuel.+1 q b fits direct L v ds = Base.Ok (map (full_v q) ds).
  by apply: G=> //; rewrite full_v0.
elim=> //= d r IH b L v Hb E.
have G := @get_veff_ok fuel q b fits direct d L v Hb E; rewrite /= in G; by rewrite G /= IH.
Qed.
End JKP.
(** bilinear term *)
Lemma bilinearE q S V (N : F) D : dse_energy q S V N D = dse_energy (without_photons q) S V N D
  + \sum_a ph q a * sw q a * couplings_res q a * (mean D (gmat q a) - z_alpha (update_cs q D) a * \tr (S *m D)).
Proof.
rewrite /dse_energy /add_oei_ao /energy_elec !contractE /=.
have U : update_cs (without_photons q) D = without_photons (update_cs q D) by rewrite /update_cs; case: ifP; case: (q).
rewrite U; set q' := update_cs q D; rewrite addrAC; congr (_ + _).
rewrite 2!oeiE.
set R0 := - _ + _ + _.
set P0 := \sum_a _ *: _; set P1 := \sum_a _ *: _.
have -> : P1 = 0 by apply: big1=> a _; rewrite /= !mul0r scale0r.
rewrite addr0 mulmxDl mxtraceD; congr (_ + _).
rewrite /P0 tr_sum; apply: eq_bigr=> a _; rewrite trZl mulmxBl raddfB /= trZl.
have -> : ph q' a = ph q a by rewrite /q' /update_cs; case: ifP.
have -> : sw q' a = sw q a by rewrite /q' /update_cs; case: ifP.
have -> : couplings_res q' a = couplings_res q a by rewrite /q' /update_cs; case: ifP.
have -> : gmat q' a = gmat q a by rewrite /q' /update_cs; case: ifP.
by rewrite mxtrace_mulC.
Qed.
(** derivative with respect to a common change of the variational parameters *)
Lemma gvar2_shift q f h a : gvar2 (with_f q (fun a => f a + h)) true a =
  gvar2 (with_f q f) true a + h * dg (with_f q f) a + h * h.
Proof.
rewrite /gvar2 /dg /=; case: (add_dse q); rewrite two2.
  by rewrite !expr2 (id_g1 (frt F)).
by rewrite (id_g2 (frt F)).
Qed.
Lemma sum3 k (h : F) (u v w : 'I_k -> F) : \sum_a (u a + h * v a + h * h * w a) = \sum_a u a + h * (\sum_a v a) + h * h * (\sum_a w a).
Proof. by rewrite big_split /= big_split /= -mulr_sumr -mulr_sumr. Qed.
Lemma oei_shift q S V (N : F) f : exists W, forall h,
  oei (with_f q (fun a => f a + h)) S V N true =
  oei (with_f q f) S V N true + h *: oei_grad (with_f q f) S V N + (h * h) *: W.
Proof.
exists (\matrix_(i, j) (- (\sum_a gmat q a i j * z_alpha q a)
  + (if add_dse q then half * (\sum_a tmp_term q V a i j) else 0) + half * (\sum_a z_alpha q a ^+ 2) * S i j / N)).
move=> h; apply/matrixP=> i j; rewrite !mxE /=.
have -> : \sum_a gmat q a i j * (gvar2 (with_f q (fun a => f a + h)) true a * z_alpha q a)
  = \sum_a gmat q a i j * (gvar2 (with_f q f) true a * z_alpha q a)
    + h * (\sum_a gmat q a i j * (dg (with_f q f) a * z_alpha q a)) + h * h * (\sum_a gmat q a i j * z_alpha q a).
  by rewrite -sum3; apply: eq_bigr=> a _; rewrite gvar2_shift (id_s1 (frt F)).
have -> : \sum_a gvar2 (with_f q (fun a => f a + h)) true a * tmp_term (with_f q (fun a => f a + h)) V a i j
  = \sum_a gvar2 (with_f q f) true a * tmp_term (with_f q f) V a i j
    + h * (\sum_a dg (with_f q f) a * tmp_term (with_f q f) V a i j) + h * h * (\sum_a tmp_term q V a i j).
  by rewrite -sum3; apply: eq_bigr=> a _; rewrite gvar2_shift (id_s2 (frt F)).
have -> : \sum_a z_alpha q a ^+ 2 * gvar2 (with_f q (fun a => f a + h)) true a
  = \sum_a z_alpha q a ^+ 2 * gvar2 (with_f q f) true a
    + h * (\sum_a z_alpha q a ^+ 2 * dg (with_f q f) a) + h * h * (\sum_a z_alpha q a ^+ 2).
  by rewrite -sum3; apply: eq_bigr=> a _; rewrite gvar2_shift (id_s3 (frt F)).
have -> : \sum_a ph q a * ((gmat q a i j - S i j * z_alpha q a) * sw q a) * (1 - (f a + h))
  = \sum_a ph q a * ((gmat q a i j - S i j * z_alpha q a) * sw q a) * (1 - f a)
    - h * (\sum_a ph q a * ((gmat q a i j - S i j * z_alpha q a) * sw q a)).
  by rewrite mulr_sumr -sumrB; apply: eq_bigr=> a _; rewrite (id_s4 (frt F)).
case E: (add_dse q); rewrite /gvar2 /= E; first by rewrite (id_o1 (frt F)).
by rewrite (id_o2 (frt F)).
Qed.
Lemma jk_shift q D f : exists W, forall h,
  vj_dse (with_f q (fun a => f a + h)) true D - half *: vk_dse (with_f q (fun a => f a + h)) true D =
  vj_dse (with_f q f) true D - half *: vk_dse (with_f q f) true D + h *: grad_vjk (with_f q f) D + (h * h) *: W.
Proof.
exists (vj_dse q false D - half *: vk_dse q false D).
move=> h; apply/matrixP=> i j; rewrite !mxE /=.
have -> : \sum_a gmat q a i j * scaled_mu D (gmat q a) * gvar2 (with_f q (fun a => f a + h)) true a
  = \sum_a gmat q a i j * scaled_mu D (gmat q a) * gvar2 (with_f q f) true a
    + h * (\sum_a gmat q a i j * scaled_mu D (gmat q a) * dg (with_f q f) a)
    + h * h * (\sum_a gmat q a i j * scaled_mu D (gmat q a) * gvar2 q false a).
  by rewrite -sum3; apply: eq_bigr=> a _; rewrite gvar2_shift (id_s3 (frt F)) mulr1.
have -> : \sum_a \sum_r gmat q a i r * (\sum_s gmat q a j s * D r s) * gvar2 (with_f q (fun a => f a + h)) true a
  = \sum_a \sum_r gmat q a i r * (\sum_s gmat q a j s * D r s) * gvar2 (with_f q f) true a
    + h * (\sum_a \sum_r gmat q a i r * (\sum_s gmat q a j s * D r s) * dg (with_f q f) a)
    + h * h * (\sum_a \sum_r gmat q a i r * (\sum_s gmat q a j s * D r s) * gvar2 q false a).
  rewrite -sum3; apply: eq_bigr=> a _; rewrite -sum3; apply: eq_bigr=> r _.
  by rewrite gvar2_shift (id_s3 (frt F)) mulr1.
by rewrite (id_jk (frt F)).
Qed.
End Qhf.

(** ** Interaction matrices *)
Section GmatP.
Variables (F : realFieldType) (n m : nat).
Local Notation M := 'M[F]_n.
Variables (vec : 'I_m -> 'I_3 -> F) (couplings bilinear : 'I_m -> F) (dip0 : 'I_3 -> M) (quad0 : nat -> M).
Lemma gmat_agree dip : exists g, get_gmat_ao vec couplings (Some dip) = Base.Ok g /\
  forall a, g a = get_gmatao vec couplings dip0 (Some dip) None a.
Proof. by eexists; split=> // a; apply/matrixP=> i j; rewrite !mxE mulrC. Qed.
Lemma q_agree quad : exists g, get_q_lambda_ao vec couplings (Some quad) = Base.Ok g /\
  forall a, g a = get_q_dot_lambda vec couplings quad0 (Some quad) None a.
Proof.
eexists; split=> // a; apply/matrixP=> i j; rewrite !mxE add0r mulr_sumr.
by apply: eq_bigr=> k _; rewrite /= mulrA [_ * outer9 _ _ _]mulrC.
Qed.
Lemma geb_agree dip sw : (forall a, bilinear a = couplings a * sw a) ->
  forall a, get_geb_ao vec bilinear dip0 dip a = sw a *: get_gmatao vec couplings dip0 dip None a.
Proof. by move=> H a; apply/matrixP=> i j; rewrite !mxE H; case: dip => [dip|] /=; rewrite mulrA mulrC. Qed.
End GmatP.

(** ** Witnesses *)
Definition q1 (f z p : rat) (dse cs : bool) : qed [realFieldType of rat] 1 1 :=
  Qed_ (fun _ => 1%:M) (fun _ => - 1%:M) (fun _ => z) (fun _ => f) (fun _ => 1 - f) dse true cs 0 (fun _ => 1) (fun _ => p).
Lemma jk_disagree : exists (q : qed [realFieldType of rat] 1 1) (D : 'M[rat]_1), [/\ forall a, sym (gmat q a), sym D,
  couplings_res q = (fun a => 1 - couplings_var q a) & vj_dse q true D <> j_dse q true D].
Proof.
exists (q1 1 0 0 false true), 1%:M; split=> //.
- by move=> a; rewrite /sym trmx1.
- by rewrite /sym trmx1.
move=> /matrixP /(_ ord0 ord0); rewrite !mxE !big_ord1 /scaled_mu /gvar2 /g_dse /= !big_ord1 !mxE /=.
by rewrite !big_ord1 !subrr !mul0r !mul1r => /eqP.
Qed.
Lemma closed1 : closed_shell (1%:M : 'M[rat]_1) 2%:R (2%:R *: 1%:M).
Proof.
split; first by rewrite /sym linearZ /= trmx1.
  by rewrite mulmx1 -scalemxAr mulmx1.
by rewrite mul1mx mxtraceZ mxtrace1 mulr1.
Qed.
Lemma bilinear_wrong : exists (q : qed [realFieldType of rat] 1 1) (D : 'M[rat]_1), [/\ closed_shell 1%:M 2%:R D, use_cs q &
  dse_energy q 1%:M 1%:M 2%:R D <> dse_energy (without_photons q) 1%:M 1%:M 2%:R D
   + \sum_a ph q a * sw q a * couplings_res q a * (mean D (gmat q a) - z_alpha (update_cs q D) a)].
Proof.
exists (q1 0 0 1 true true), (2%:R *: 1%:M); split=> //; first exact: closed1.
rewrite bilinearE => /addrI; rewrite !big_ord1.
case: closed1 => _ _ ->; rewrite /= /mean mulmx1 mxtraceZ mxtrace1.
have -> : scaled_mu (2%:R *: 1%:M : 'M[rat]_1) 1%:M = 2%:R.
  by rewrite /scaled_mu !big_ord1 !mxE mulr1.
by move=> /eqP; rewrite -subr_eq0; apply/negP.
Qed.
Section W2.
Variable F : realFieldType.
Definition q2 : qed F 1 2 :=
  Qed_ (fun _ => 1%:M) (fun _ => 0) (fun a => if a == ord0 then 0 else 1) (fun _ => 0) (fun _ => 1) true true true 0
       (fun _ => 1) (fun _ => 0).
Lemma grad_one_mode : ~ exists W, forall h : F,
  oei (with_f q2 (fun a => if a == ord0 then h else 0)) 0 1%:M 2%:R true =
  oei (with_f q2 (fun _ => 0)) 0 1%:M 2%:R true + h *: oei_grad (with_f q2 (fun _ => 0)) 0 1%:M 2%:R + (h * h) *: W.
Proof.
move=> [W H]; have H1 := H 1; have H2 := H (-1).
have E f : oei (with_f q2 (fun a => if a == ord0 then f else 0)) 0 1%:M 2%:R true ord0 ord0 = -1.
  rewrite mxE /= !big_ord_recl !big_ord0 /tmp_term /= !mxE /=.
  by rewrite !(mul0r, mulr0, oppr0, addr0, add0r, mulr1, subr0, expr1n, mul1r).
have E0 : oei (with_f q2 (fun _ => 0)) 0 1%:M 2%:R true ord0 ord0 = -1.
  rewrite mxE /= !big_ord_recl !big_ord0 /tmp_term /= !mxE /=.
  by rewrite !(mul0r, mulr0, oppr0, addr0, add0r, mulr1, subr0, expr1n, mul1r).
have G : oei_grad (with_f q2 (fun _ => 0)) 0 1%:M 2%:R ord0 ord0 = 2%:R.
  rewrite mxE /= !big_ord_recl !big_ord0 /tmp_term /dg /= !mxE /=.
  by rewrite !(mul0r, mulr0, oppr0, addr0, add0r, mulr1, subr0, expr1n, mul1r, opprK).
move/matrixP: H1 => /(_ ord0 ord0); rewrite E mxE [X in _ = X + _]mxE E0 mxE G [X in _ = _ + X]mxE => H1.
move/matrixP: H2 => /(_ ord0 ord0); rewrite E mxE [X in _ = X + _]mxE E0 mxE G [X in _ = _ + X]mxE => H2.
have : (-1 + 1 * 2%:R + 1 * 1 * W ord0 ord0) - (-1 + -1 * 2%:R + -1 * -1 * W ord0 ord0) = 0 :> F.
  by rewrite -H1 -H2 subrr.
rewrite mulrNN !mul1r opprD addrACA subrr addr0 opprD addrACA subrr add0r mulN1r opprK -natrD => /eqP.
by rewrite pnatr_eq0.
Qed.
End W2.

Section More.
Variables (F : realFieldType) (n m : nat).
Local Notation M := 'M[F]_n.
Implicit Types (q : qed F n m) (S V D : M).
Lemma basis_agree q S V N r : (forall a, - q_lambda q a = gmat q a *m V *m gmat q a) ->
  oei (with_basis q true) S V N r = oei (with_basis q false) S V N r.
Proof.
move=> H; rewrite !oeiE; congr (_ + _ + _ + _); rewrite /with_basis /=.
case: (add_dse q) => //; congr (_ *: _); apply: eq_bigr=> a _; congr (_ *: _).
exact: H.
Qed.
Lemma fullE bare q D : (forall a, sym (gmat q a)) ->
  [/\ full_j bare q D = want_j bare q D, full_k bare q D = want_k bare q D & full_v bare q D = want_veff bare q D].
Proof.
move=> sg.
have J : full_j bare q D = want_j bare q D.
  rewrite /full_j /want_j; case: (add_dse q)=> //; congr (_ + _); rewrite vj_dseE; apply: eq_bigr=> a _.
  by rewrite scaled_muE sg mulr1.
have K : full_k bare q D = want_k bare q D.
  rewrite /full_k /want_k; case: (add_dse q)=> //; congr (_ + _); rewrite vk_dseE; apply: eq_bigr=> a _.
  by rewrite sg scale1r.
by split=> //; rewrite /full_v J K.
Qed.
Lemma jk_ok bare fuel q he fits D : (forall a, sym (gmat q a)) -> he || fits ->
  get_jk bare fuel.+1 q he fits false true true D
  = Base.Ok (Some (want_j bare q D), Some (want_k bare q D), true).
Proof. by move=> sg H; rewrite get_jk_ok //; case: (fullE bare D sg)=> -> ->. Qed.
Lemma scf_ok bare fuel q he fits direct dms : (forall a, sym (gmat q a)) -> additive bare -> he || fits ->
  scf_veff bare fuel.+1 q he fits direct 0 0 dms = Base.Ok (map (want_veff bare q) dms).
Proof.
move=> sg ad H; rewrite scf_veff_ok //; congr (Base.Ok _); apply: eq_map=> D.
by case: (fullE bare D sg).
Qed.
(** level shift and damping *)
Lemma tail_ok (f : M) cycle start ls d : `|d| <= 10000%:R^-1 -> `|ls| <= 10000%:R^-1 ->
  fock_tail f cycle start ls d = Base.Ok f.
Proof. by move=> H1 H2; rewrite /fock_tail !Order.TotalTheory.ltNge H1 H2 /= andbF. Qed.
Lemma tail_bad (f : M) cycle start ls d : 10000%:R^-1 < `|ls| ->
  fock_tail f cycle start ls d = Base.Err Base.NameError.
Proof. by move=> H; rewrite /fock_tail H; case: ifP. Qed.
(** get_fock *)
Lemma fock_dm bare_h oei_of veff_of (rdm1 : M) h1e vhf (d : M) :
  get_fock bare_h oei_of veff_of rdm1 h1e vhf (Some d) = bare_h + oei_of d + (if vhf is Some v then v else veff_of d).
Proof. by []. Qed.
Lemma fock_nodm bare_h oei_of veff_of (rdm1 : M) h1e vhf : oei_of rdm1 != 0 ->
  get_fock bare_h oei_of veff_of rdm1 h1e vhf None <> get_fock bare_h oei_of veff_of rdm1 h1e vhf (Some rdm1).
Proof.
move=> /eqP H; rewrite /get_fock /= => /addIr /eqP; rewrite eq_sym -subr_eq0 addrAC subrr add0r => /eqP; exact: H.
Qed.
End More.
Lemma fock_witness : exists (q : qed [realFieldType of rat] 1 1) (D : 'M[rat]_1), [/\ closed_shell 1%:M 2%:R D, use_cs q &
  forall bare_h veff_of h1e vhf, let oei_of d := (add_oei_ao q d 1%:M 1%:M 2%:R false).2 in
  get_fock bare_h oei_of veff_of D h1e vhf None <> get_fock bare_h oei_of veff_of D h1e vhf (Some D)].
Proof.
exists (q1 0 0 0 true true), (2%:R *: 1%:M); split=> //; first exact: closed1.
move=> bare_h veff_of h1e vhf oei_of; apply: fock_nodm; rewrite /oei_of /add_oei_ao /=.
apply/eqP=> /matrixP /(_ ord0 ord0).
rewrite mxE /= !big_ord1 /tmp_term /= /scaled_mu /= !big_ord1 !mxE /=.
by move=> /eqP.
Qed.
Lemma origin_ex : let q := q1 0 0 0 true true in [/\ forall a, sym (gmat q a), add_dse q && use_cs q &
  closed_shell (1%:M : 'M[rat]_1) 2%:R (2%:R *: 1%:M)].
Proof. by split=> //; [move=> a; rewrite /sym trmx1|exact: closed1]. Qed.
Lemma gradient_ex : exists (S D X : 'M[rat]_2), [/\ \tr (S *m D) = 2%:R, \tr (S *m X) = 0 & X <> 0].
Proof.
exists 1%:M, (2%:R *: delta_mx ord0 ord0), (delta_mx ord0 ord_max); split.
- by rewrite mul1mx mxtraceZ /mxtrace !big_ord_recl big_ord0 !mxE.
- by rewrite mul1mx /mxtrace !big_ord_recl big_ord0 !mxE.
by move=> /matrixP /(_ ord0 ord_max); rewrite !mxE.
Qed.
