(** Proofs about the linear-algebra kernels. *)
From mathcomp Require Import all_ssreflect all_algebra.
From Coq Require Import Ring Field.
From Verif Require Import LinModel LinSpec.
Set Implicit Arguments. Unset Strict Implicit.
Unset Printing Implicit Defensive.
Import GRing.Theory Num.Theory. Local Open Scope ring_scope.
Lemma det_rank1 (F : fieldType) n (u : 'cV[F]_n) (v : 'rV[F]_n) :
  \det (1%:M + u *m v) = 1 + (v *m u) 0 0.
Proof.
have E1 : block_mx 1%:M (- u) v (1%:M : 'M[F]_1) *m block_mx 1%:M u 0 (1%:M : 'M[F]_1)
   = block_mx (1%:M : 'M[F]_n) 0 v (1%:M + v *m u).
  rewrite mulmx_block !mul1mx !mulmx1 !mulmx0 !addr0 subrr.
  by rewrite addrC.
have E2 : block_mx 1%:M (- u) v (1%:M : 'M[F]_1) *m block_mx (1%:M : 'M[F]_n) 0 (- v) (1%:M : 'M[F]_1)
   = block_mx (1%:M + u *m v) (- u) 0 1%:M.
  by rewrite mulmx_block !mul1mx !mulmx1 !mulmx0 !add0r mulmxN mulNmx opprK subrr.
have D1 := congr1 determinant E1; have D2 := congr1 determinant E2.
rewrite !det_mulmx !det_ublock !det_lblock !det1 !mulr1 ?mul1r in D1 D2.
by rewrite -D2 D1 det_mx11 !mxE eqxx mulr1n.
Qed.

Section GF.
Variables (F : fieldType) (conj : {rmorphism F -> F}) (p n : nat).
Implicit Types (W T : 'M[F]_(p, n)).
Local Notation S W T := (ovlp_mat conj W T).
Local Notation cT T := (map_mx conj T).

Lemma ovlp_matE W T : S W T = W^T *m cT T.
Proof. by apply/matrixP=> i j; rewrite !mxE; apply: eq_bigr=> k _; rewrite !mxE. Qed.

Lemma ghalfE W T : ghalf conj W T = W *m (invmx (S W T))^T.
Proof.
apply/matrixP=> q i; rewrite !mxE; apply: eq_bigr=> j _.
by rewrite mxE mulrC.
Qed.

Lemma ghalf_numbaE W T : ghalf_numba conj W T = ghalf conj W T.
Proof. by rewrite ghalfE ovlp_matE. Qed.

Lemma gfullE W T : gfull conj W T = cT T *m invmx (S W T) *m W^T.
Proof.
have -> : gfull conj W T = cT T *m (ghalf conj W T)^T.
  by apply/matrixP=> a b; rewrite !mxE; apply: eq_bigr=> i _; rewrite !mxE.
by rewrite ghalfE trmx_mul trmxK mulmxA.
Qed.

Lemma gfull_baseE W T : gfull_base (ghalf conj W T) (cT T) = gfull conj W T.
Proof. by rewrite gfullE /gfull_base ghalfE trmx_mul trmxK mulmxA. Qed.

Lemma est_gfE W T : est_gf conj W T = gfull conj W T.
Proof. by rewrite gfullE /est_gf /est_ghalf ovlp_matE mulmxA. Qed.

Lemma est_ghalfE W T : est_ghalf conj W T = (ghalf conj W T)^T.
Proof. by rewrite ghalfE trmx_mul trmxK /est_ghalf ovlp_matE. Qed.

Lemma slaterE W T : slater conj T W = ovlp_spin conj W T.
Proof. by rewrite /slater /ovlp_spin ovlp_matE -[RHS]det_tr trmx_mul trmxK. Qed.

Section Unit.
Variables W T : 'M[F]_(p, n).
Hypothesis U : ovlp_spin conj W T != 0.

Lemma ovlp_unit : S W T \in unitmx.
Proof. by rewrite unitmxE unitfE. Qed.

Lemma gf_idem : gfull conj W T *m gfull conj W T = gfull conj W T.
Proof.
rewrite !gfullE -!mulmxA; congr (_ *m _); rewrite !mulmxA.
by rewrite -(mulmxA (invmx _) W^T) -ovlp_matE (mulVmx ovlp_unit) mul1mx.
Qed.

Lemma gf_trace : \tr (gfull conj W T) = n%:R.
Proof.
rewrite gfullE -mulmxA mxtrace_mulC -mulmxA -ovlp_matE (mulVmx ovlp_unit).
by rewrite mxtrace1.
Qed.

Lemma gf_walker : (gfull conj W T)^T *m W = W.
Proof.
apply: trmx_inj; rewrite trmx_mul trmxK gfullE !mulmxA -ovlp_matE.
by rewrite (mulmxV ovlp_unit) mul1mx.
Qed.

Lemma gf_trial : gfull conj W T *m cT T = cT T.
Proof. by rewrite gfullE -!mulmxA -ovlp_matE (mulVmx ovlp_unit) mulmx1. Qed.

Lemma gf_unique (P : 'M[F]_p) (X : 'M[F]_(n, p)) :
  P = cT T *m X -> P^T *m W = W -> P = gfull conj W T.
Proof.
move=> PX PW; have : W^T *m P = W^T by rewrite -[RHS](congr1 trmx PW) trmx_mul trmxK.
rewrite PX mulmxA -ovlp_matE => E.
by rewrite gfullE -mulmxA -E (mulmxA (invmx _)) (mulVmx ovlp_unit) mul1mx.
Qed.

Lemma gf_green : is_green conj T W (gfull conj W T).
Proof.
move=> a b e; rewrite !slaterE /ovlp_spin.
set u := e *: (W^T *m delta_mx b (0 : 'I_1)); set v := delta_mx (0 : 'I_1) a *m cT T.
have -> : S (excite a b e W) T = S W T *m (1%:M + invmx (S W T) *m u *m v).
  rewrite mulmxDr mulmx1 !mulmxA (mulmxV ovlp_unit) mul1mx !ovlp_matE.
  rewrite /excite mulmxDl mul1mx raddfD /= mulmxDl; congr (_ + _).
  rewrite /u /v -scalemxAl linearZ /= -!scalemxAl trmx_mul trmx_delta; congr (_ *: _).
  by rewrite -!mulmxA (mulmxA (delta_mx b 0)) mul_delta_mx.
rewrite det_mulmx det_rank1; congr (_ * (1 + _)).
have -> : v *m (invmx (S W T) *m u) = e *: (delta_mx 0 a *m gfull conj W T *m delta_mx b 0).
  by rewrite /u /v -!scalemxAr gfullE !mulmxA.
by rewrite mxE -rowE -colE !mxE.
Qed.

End Unit.
End GF.

(** Mixing of orbitals and orthogonalisation. *)
Section Mix.
Variables (F : fieldType) (conj : {rmorphism F -> F}) (p n : nat).
Implicit Types (W T Q : 'M[F]_(p, n)) (R : 'M[F]_n).

Lemma ovlp_mix W T R : ovlp_mat conj (W *m R) T = R^T *m ovlp_mat conj W T.
Proof. by rewrite !ovlp_matE trmx_mul mulmxA. Qed.
Lemma ovlp_mixT W T R : ovlp_mat conj W (T *m R) = ovlp_mat conj W T *m map_mx conj R.
Proof. by rewrite !ovlp_matE map_mxM mulmxA. Qed.
Lemma ovlp_spin_mix W T R : ovlp_spin conj (W *m R) T = ovlp_spin conj W T * \det R.
Proof. by rewrite /ovlp_spin ovlp_mix det_mulmx det_tr mulrC. Qed.

Lemma gf_mix W T R : ovlp_spin conj W T != 0 -> R \in unitmx ->
  gfull conj (W *m R) T = gfull conj W T.
Proof.
move=> U UR; have U' : ovlp_spin conj (W *m R) T != 0.
  by rewrite ovlp_spin_mix mulf_neq0 // -unitfE -unitmxE.
symmetry; apply: (gf_unique U' (X := invmx (ovlp_mat conj W T) *m W^T)).
  by rewrite gfullE mulmxA.
by rewrite mulmxA (gf_walker U).
Qed.

Lemma gf_mixT W T R : ovlp_spin conj W T != 0 -> R \in unitmx ->
  gfull conj W (T *m R) = gfull conj W T.
Proof.
move=> U UR; symmetry.
have UcR : map_mx conj R \in unitmx by rewrite map_unitmx.
have U' : ovlp_spin conj W (T *m R) != 0.
  rewrite /ovlp_spin ovlp_mixT det_mulmx mulf_neq0 //.
  by rewrite -unitfE -unitmxE.
apply: (gf_unique U' (X := invmx (map_mx conj R) *m (invmx (ovlp_mat conj W T) *m W^T))).
  by rewrite map_mxM -!mulmxA (mulmxA (map_mx conj R)) (mulmxV UcR) mul1mx gfullE mulmxA.
exact: gf_walker.
Qed.
End Mix.

Section OrthoP.
Variables (F : numFieldType) (conj : {rmorphism F -> F}).

Lemma det_factorE n (R : 'M[F]_n) : is_trig_mx R^T -> det_factor R = `|\det R|.
Proof.
move=> tR; rewrite -det_tr (det_trig tR) /det_factor normr_prod.
by apply: eq_bigr=> i _; rewrite mxE.
Qed.

Lemma det_factor_pos n (R : 'M[F]_n) : is_trig_mx R^T -> (forall i, 0 < R i i) ->
  det_factor R = \det R.
Proof.
move=> tR pos; rewrite -det_tr (det_trig tR) /det_factor.
by apply: eq_bigr=> i _; rewrite mxE gtr0_norm.
Qed.

Lemma ortho_ovlp_uhf p na nb (Qa Ta : 'M[F]_(p, na)) (Qb Tb : 'M[F]_(p, nb)) Ra Rb :
  is_trig_mx Ra^T -> is_trig_mx Rb^T -> (forall i, 0 < Ra i i) -> (forall i, 0 < Rb i i) ->
  new_ovlp_uhf (ovlp_spin conj (Qa *m Ra) Ta * ovlp_spin conj (Qb *m Rb) Tb) Ra Rb
  = ovlp_spin conj Qa Ta * ovlp_spin conj Qb Tb.
Proof.
move=> ta tb pa pb; rewrite /new_ovlp_uhf !ovlp_spin_mix mulrACA.
have d0 n (R : 'M[F]_n) : (forall i, 0 < R i i) -> det_factor R != 0.
  move=> pos; rewrite /det_factor; apply/prodf_neq0=> i _.
  by rewrite normr_eq0 lt0r_neq0.
by rewrite -!det_factor_pos // mulfK // mulf_neq0 // d0.
Qed.

Lemma ortho_ovlp_abs p na nb (Qa Ta : 'M[F]_(p, na)) (Qb Tb : 'M[F]_(p, nb)) Ra Rb :
  is_trig_mx Ra^T -> is_trig_mx Rb^T -> (forall i, Ra i i != 0) -> (forall i, Rb i i != 0) ->
  `|new_ovlp_uhf (ovlp_spin conj (Qa *m Ra) Ta * ovlp_spin conj (Qb *m Rb) Tb) Ra Rb|
  = `|ovlp_spin conj Qa Ta * ovlp_spin conj Qb Tb|.
Proof.
move=> ta tb pa pb; rewrite /new_ovlp_uhf !ovlp_spin_mix mulrACA !det_factorE //.
have d0 n (R : 'M[F]_n) : is_trig_mx R^T -> (forall i, R i i != 0) -> `|\det R| != 0.
  move=> tR pos; rewrite normr_eq0 -det_tr (det_trig tR); apply/prodf_neq0=> i _.
  by rewrite mxE.
rewrite -normrM normf_div normr_id [X in X / _]normrM mulfK //.
by rewrite normrM mulf_neq0 // d0.
Qed.
End OrthoP.

Section EnergyP.
Variables (F : fieldType) (conj : {rmorphism F -> F}) (p nchol : nat).
Variable L : 'I_nchol -> 'M[F]_p.
Local Notation cT T := (map_mx conj T).

Lemma rot_h1E n (T : 'M[F]_(p, n)) (h : 'M[F]_p) : rot_h1 conj T h = h^T *m cT T.
Proof. by apply/matrixP=> q i; rewrite !mxE; apply: eq_bigr=> a _; rewrite !mxE mulrC. Qed.

Lemma lg_tr n (r G : 'M[F]_(p, n)) : lg r G = \tr (r^T *m G).
Proof.
rewrite /lg /mxtrace exchange_big /=; apply: eq_bigr=> i _.
by rewrite mxE; apply: eq_bigr=> q _; rewrite mxE mulrC.
Qed.

Lemma one_body_tr (h G : 'M[F]_p) : one_body h G = \tr (h *m G^T).
Proof.
by rewrite /one_body /mxtrace; apply: eq_bigr=> a _; rewrite mxE; apply: eq_bigr=> b _; rewrite mxE.
Qed.

Lemma gfullT n (W T : 'M[F]_(p, n)) : (gfull conj W T)^T = ghalf conj W T *m (cT T)^T.
Proof. by rewrite gfullE ghalfE !trmx_mul trmxK mulmxA. Qed.

Lemma lg_full n (W T : 'M[F]_(p, n)) (h : 'M[F]_p) :
  lg (rot_h1 conj T h) (ghalf conj W T) = one_body h (gfull conj W T).
Proof.
rewrite lg_tr one_body_tr rot_h1E trmx_mul trmxK gfullT.
by rewrite -mulmxA mxtrace_mulC -!mulmxA.
Qed.

Lemma e_rh1e_full n (W T : 'M[F]_(p, n)) (h : 'M[F]_p) :
  e_rh1e (rot_h1 conj T h) (ghalf conj W T) = one_body h (gfull conj W T).
Proof. exact: lg_full. Qed.

Lemma one_bodyD (h G1 G2 : 'M[F]_p) : one_body h (G1 + G2) = one_body h G1 + one_body h G2.
Proof. by rewrite !one_body_tr raddfD /= mulmxDr raddfD. Qed.

Lemma direct_eri (G : 'M[F]_p) : direct (eri L) G = \sum_g (one_body (L g) G) ^+ 2.
Proof.
rewrite /direct /eri.
transitivity (\sum_a \sum_r \sum_b \sum_s \sum_g (L g a r * G a r) * (L g b s * G b s)).
  apply: eq_bigr=> a _; apply: eq_bigr=> r _; apply: eq_bigr=> b _; apply: eq_bigr=> s _.
  rewrite -mulrA mulr_suml; apply: eq_bigr=> g _.
  by rewrite mulrACA.
under eq_bigr=> a _ do under eq_bigr=> r _ do under eq_bigr=> b _ do rewrite exchange_big.
under eq_bigr=> a _ do under eq_bigr=> r _ do rewrite exchange_big.
under eq_bigr=> a _ do rewrite exchange_big.
rewrite exchange_big /=; apply: eq_bigr=> g _.
rewrite expr2 {1}/one_body mulr_suml; apply: eq_bigr=> a _.
rewrite mulr_suml; apply: eq_bigr=> r _.
rewrite /one_body mulr_sumr; apply: eq_bigr=> b _.
by rewrite mulr_sumr.
Qed.

Lemma exchange_eri (G : 'M[F]_p) :
  exchange (eri L) G = \sum_g \tr (L g *m G^T *m (L g *m G^T)).
Proof.
rewrite /exchange /eri.
transitivity (\sum_a \sum_r \sum_b \sum_s \sum_g (L g a r * G b r) * (L g b s * G a s)).
  apply: eq_bigr=> a _; apply: eq_bigr=> r _; apply: eq_bigr=> b _; apply: eq_bigr=> s _.
  rewrite -mulrA mulr_suml; apply: eq_bigr=> g _.
  by rewrite (mulrC (G a s)) mulrACA.
under eq_bigr=> a _ do under eq_bigr=> r _ do under eq_bigr=> b _ do rewrite exchange_big.
under eq_bigr=> a _ do under eq_bigr=> r _ do rewrite exchange_big.
under eq_bigr=> a _ do rewrite exchange_big.
rewrite exchange_big /=; apply: eq_bigr=> g _.
rewrite /mxtrace; apply: eq_bigr=> a _; rewrite mxE exchange_big /=.
apply: eq_bigr=> b _; rewrite [X in _ = X * _]mxE mulr_suml; apply: eq_bigr=> r _.
rewrite [X in _ = _ * X]mxE mulr_sumr; apply: eq_bigr=> s _.
by rewrite !mxE.
Qed.

Lemma exx1_tr n (r G : 'M[F]_(p, n)) : exx1 r G = \tr (r^T *m G *m (r^T *m G)).
Proof.
rewrite /exx1 /mxtrace; apply: eq_bigr=> i _; rewrite [RHS]mxE.
by apply: eq_bigr=> j _; rewrite [X in _ * X]mxE.
Qed.

Lemma exx_full n (W T : 'M[F]_(p, n)) :
  exx (rot_chol conj L T) (ghalf conj W T) = 2%:R^-1 * exchange (eri L) (gfull conj W T).
Proof.
rewrite /exx mulrC exchange_eri; congr (_ * _); apply: eq_bigr=> g _.
rewrite exx1_tr /rot_chol rot_h1E trmx_mul trmxK gfullT.
by rewrite -!mulmxA mxtrace_mulC -!mulmxA.
Qed.

Lemma ecoul2_full na nb (Wa Ta : 'M[F]_(p, na)) (Wb Tb : 'M[F]_(p, nb)) :
  ecoul2 (rot_chol conj L Ta) (ghalf conj Wa Ta) (rot_chol conj L Tb) (ghalf conj Wb Tb)
  = 2%:R^-1 * direct (eri L) (gfull conj Wa Ta + gfull conj Wb Tb).
Proof.
rewrite /ecoul2 direct_eri; congr (_ * _); apply: eq_bigr=> g _.
by rewrite /rot_chol !lg_full one_bodyD expr2.
Qed.

Lemma ecoul1_full n (W T : 'M[F]_(p, n)) :
  ecoul1 (rot_chol conj L T) (ghalf conj W T) = 2%:R^-1 * direct (eri L) (gfull conj W T).
Proof.
rewrite /ecoul1 direct_eri; congr (_ * _); apply: eq_bigr=> g _.
by rewrite /rot_chol !lg_full expr2.
Qed.

Lemma energy_uhf_full na nb ha hb enuc (Wa Ta : 'M[F]_(p, na)) (Wb Tb : 'M[F]_(p, nb)) :
  let Ga := gfull conj Wa Ta in let Gb := gfull conj Wb Tb in
  energy_uhf conj L ha hb enuc Wa Ta Wb Tb =
  (one_body ha Ga + one_body hb Gb + enuc,
   2%:R^-1 * (direct (eri L) (Ga + Gb) - (exchange (eri L) Ga + exchange (eri L) Gb))).
Proof.
move=> Ga Gb; rewrite /energy_uhf !e_rh1e_full ecoul2_full !exx_full.
by rewrite -mulrDr -mulrBr.
Qed.

Lemma energy_rhf_uhf n h enuc (W T : 'M[F]_(p, n)) :
  energy_rhf conj L h enuc W T = energy_uhf conj L h h enuc W T W T.
Proof.
rewrite /energy_rhf /energy_uhf; congr (_, _); first by rewrite mulr_natl mulr2n.
congr (_ - _); last by rewrite mulr_natl mulr2n.
rewrite /ecoul1 /ecoul2 mulrCA; congr (_ * _); rewrite mulr_sumr.
by apply: eq_bigr=> g _; rewrite (natrM _ 2 2) mulrACA !mulr_natl !mulr2n.
Qed.

Lemma vbias_rhf_uhf n (T G : 'M[F]_(p, n)) g : vbias_rhf conj L T G g = vbias_uhf conj L T G T G g.
Proof. by rewrite /vbias_rhf /vbias_uhf mulr_natl mulr2n. Qed.

Lemma vbias_uhf_full na nb (Wa Ta : 'M[F]_(p, na)) (Wb Tb : 'M[F]_(p, nb)) g :
  vbias_uhf conj L Ta (ghalf conj Wa Ta) Tb (ghalf conj Wb Tb) g
  = one_body (L g) (gfull conj Wa Ta + gfull conj Wb Tb).
Proof. by rewrite /vbias_uhf /rot_chol !lg_full one_bodyD. Qed.
End EnergyP.

Section TaylorP.
Variables (F : fieldType) (p n : nat).
Implicit Types (A : 'M[F]_p) (phi : 'M[F]_(p, n)).

Lemma iterMZ A k c phi : iter k (mulmx A) (c *: phi) = c *: iter k (mulmx A) phi.
Proof. by elim: k => //= k ->; rewrite scalemxAr. Qed.
Lemma iterMD A k (x y : 'M[F]_(p, n)) :
  iter k (mulmx A) (x + y) = iter k (mulmx A) x + iter k (mulmx A) y.
Proof. by elim: k => //= k ->; rewrite mulmxDr. Qed.

Lemma taylor_loopE A phi fuel : forall i acc,
  taylor_loop A i fuel ((i`!%:R)^-1 *: iter i (mulmx A) phi) acc
  = acc + \sum_(i.+1 <= k < (i + fuel).+1) (k`!%:R)^-1 *: iter k (mulmx A) phi.
Proof.
elim: fuel => [|fuel IH] i acc /=; first by rewrite addn0 big_geq ?addr0.
have -> : i.+1%:R^-1 *: (A *m ((i`!%:R)^-1 *: iter i (mulmx A) phi))
   = ((i.+1)`!%:R)^-1 *: iter i.+1 (mulmx A) phi.
  by rewrite /= -scalemxAr scalerA factS natrM invfM.
rewrite (IH i.+1) addSnnS [in RHS]big_ltn; last by rewrite ltnS addnS ltnS leq_addr.
by rewrite addrA.
Qed.

Lemma taylorE A order phi :
  propagate_exp_op A order phi = exp_poly (mulmx A) order phi.
Proof.
rewrite /propagate_exp_op /exp_poly.
have {1}-> : phi = (0`!%:R)^-1 *: iter 0 (mulmx A) phi by rewrite fact0 invr1 scale1r.
rewrite taylor_loopE add0n -(big_mkord xpredT (fun k => (k`!%:R)^-1 *: iter k (mulmx A) phi)).
by rewrite [RHS]big_ltn // fact0 invr1 scale1r.
Qed.

Lemma taylor_linear A order c (x y : 'M[F]_(p, n)) :
  propagate_exp_op A order (c *: x + y)
  = c *: propagate_exp_op A order x + propagate_exp_op A order y.
Proof.
rewrite !taylorE /exp_poly scaler_sumr -big_split /=; apply: eq_bigr=> k _.
by rewrite iterMD iterMZ scalerDr !scalerA mulrC.
Qed.

Lemma taylor_nilpotent A order more phi :
  iter order.+1 (mulmx A) phi = 0 ->
  propagate_exp_op A (order + more) phi = propagate_exp_op A order phi.
Proof.
move=> nil; rewrite !taylorE; elim: more => [|m IH]; first by rewrite addn0.
rewrite addnS -IH /exp_poly big_ord_recr /=.
suff -> : A *m iter (order + m) (mulmx A) phi = 0 by rewrite scaler0 addr0.
rewrite -iterS -addSn addnC iterD nil.
by elim: m {IH} => //= m ->; rewrite mulmx0.
Qed.
End TaylorP.

(** Scalar identities, proved over an abstract commutative ring so that the
    [ring] tactic applies, then used at a field. *)
Section AbsRing.
Variables (K : Type) (z o : K) (add mul sub : K -> K -> K) (opp : K -> K).
Variable RT : ring_theory z o add mul sub opp (@eq K).
Add Ring KR : RT.
Local Notation "x +! y" := (add x y) (at level 50, left associativity).
Local Notation "x *! y" := (mul x y) (at level 40, left associativity).
Local Notation "x -! y" := (sub x y) (at level 50, left associativity).
Lemma id_gauss h x s : h +! h = o ->
  (x -! h *! s) *! s = h *! (x *! x) -! h *! ((x -! s) *! (x -! s)).
Proof.
move=> E; have -> : h *! (x *! x) -! h *! ((x -! s) *! (x -! s))
  = (h +! h) *! (x *! s) -! h *! s *! s by ring.
rewrite E; ring.
Qed.
Lemma id_cross h x e b : h +! h = o ->
  (x -! h *! e) *! e +! (x *! b -! h *! (b *! b))
  = (x -! h *! (e +! b)) *! (e +! b) +! e *! b.
Proof.
move=> E; have -> : (x -! h *! (e +! b)) *! (e +! b) +! e *! b
  = x *! (e +! b) -! h *! e *! e -! h *! b *! b -! (h +! h) *! (e *! b) +! e *! b by ring.
rewrite E; ring.
Qed.
Lemma id_wexp i s x v m : i *! s *! (x *! v) +! opp s *! (x *! m) = opp (x *! (opp s *! (i *! v -! m))).
Proof. ring. Qed.
Lemma id_linear im sdt x vb m :
  im *! sdt *! x *! vb +! x *! (opp sdt *! (im *! vb -! m)) +! opp sdt *! (x *! m) = z.
Proof. ring. Qed.
End AbsRing.

Section ForceBiasP.
Variables (F : fieldType).
Lemma frt : ring_theory (0 : F) 1 (fun x y => x + y) (fun x y => x * y)
  (fun x y => x - y) (fun x => - x) eq.
Proof.
by split; [exact: add0r|exact: addrC|exact: addrA|exact: mul1r|exact: mulrC|exact: mulrA
  |exact: mulrDl| |exact: subrr].
Qed.
Hypothesis two : (2%:R : F) != 0.

Lemma half2 : (2%:R^-1 : F) + 2%:R^-1 = 1.
Proof. by rewrite -mulr2n -[_ *+ 2]mulr_natl mulfV. Qed.

Lemma cfb_gauss nf (xi s : 'I_nf -> F) : cfb xi s = gauss_ratio s xi.
Proof. by apply: eq_bigr=> g _; rewrite !expr2; exact: (id_gauss frt _ _ half2). Qed.

Lemma cfb_decoupledE nf (xi xe xb : 'I_nf -> F) :
  cfb_decoupled xi xe xb
  = gauss_ratio (fun g => xe g + xb g) xi + \sum_g xe g * xb g.
Proof.
rewrite -cfb_gauss /cfb_decoupled /cfb_boson /cfb.
rewrite mulr_sumr -sumrB -!big_split /=; apply: eq_bigr=> g _.
exact: (id_cross frt _ _ _ half2).
Qed.
End ForceBiasP.

Lemma force_bias_linear (F : fieldType) nf (im sdt : F) (xi vb mfs : 'I_nf -> F) :
  (\sum_g im * sdt * xi g * vb g) + (\sum_g xi g * xbar im sdt vb mfs g)
  + - sdt * (\sum_g xi g * mfs g) = 0.
Proof.
rewrite mulr_sumr -!big_split big1 //= => g _; exact: (id_linear (frt F)).
Qed.

(** the whole exponent with the force bias of the code *)
Lemma force_bias_weight (F : fieldType) nf (im sdt : F) (xi vb mfs : 'I_nf -> F) : (2%:R : F) != 0 ->
  let b := xbar im sdt vb mfs in
  im * sdt * (\sum_g xshift xi b g * vb g) + cfb xi b + cmf sdt xi b mfs = 2%:R^-1 * (\sum_g b g ^+ 2).
Proof.
move=> two b; rewrite /cfb /cmf !mulr_sumr -!big_split /=; apply: eq_bigr=> g _.
have -> : im * sdt * (xshift xi b g * vb g) + (xi g - 2%:R^-1 * b g) * b g + - sdt * (xshift xi b g * mfs g)
        = (xi g - 2%:R^-1 * b g) * b g - xshift xi b g * b g.
  by rewrite addrAC addrC; congr (_ + _); exact: (id_wexp (frt F)).
rewrite /xshift -mulrBl opprB addrC addrA subrK -{1}[b g](mul1r) -mulrBl.
have -> : (1 : F) - 2%:R^-1 = 2%:R^-1.
  by apply/eqP; rewrite subr_eq -mulr2n -[X in _ == X]mulr_natl mulfV.
by rewrite -mulrA expr2.
Qed.

Lemma zmod_id (V : zmodType) (P R q c : V) : P + (q - (P + R) + c) + R - c = q.
Proof. by rewrite (addrC P) -(addrA _ P R) addrAC addrK subrK. Qed.

Lemma zmod_id2 (V : zmodType) (S D : V) : S + D - (S - D) = D + D.
Proof. by rewrite opprB addrC addrA subrK. Qed.

Section AlgP.
Variables (F : fieldType) (A : algType F).
Hypothesis two : (2%:R : F) != 0.
Implicit Types (x y e b : A).

Lemma sqrD x y : (x + y) ^+ 2 = x ^+ 2 + y ^+ 2 + (x * y + y * x).
Proof. by rewrite !expr2 mulrDl !mulrDr (addrC (y * x)) addrACA. Qed.
Lemma sqrZ c x : (c *: x) ^+ 2 = c ^+ 2 *: x ^+ 2.
Proof. by rewrite !expr2 -scalerAl -scalerAr scalerA. Qed.
Lemma halfD x : 2%:R^-1 *: (x + x) = x.
Proof. by rewrite scalerDr -scalerDl (half2 two) scale1r. Qed.

Lemma sqr_shift x l : (x - l *: 1) ^+ 2 = x ^+ 2 - (l + l) *: x + (l ^+ 2) *: 1.
Proof.
rewrite sqrD -scaleNr sqrZ expr1n sqrrN -scalerAr -scalerAl mulr1 mul1r.
by rewrite -scalerDl -opprD scaleNr addrAC.
Qed.

(** One field e + b with shifts le, lb: what the decoupled scheme samples. *)
Lemma decoupled_fieldE e b le lb :
  2%:R^-1 *: (e + b) ^+ 2
  = decoupled_field e b le lb + (le *: b + lb *: e) - (2%:R^-1 * (le + lb) ^+ 2) *: 1.
Proof.
rewrite /decoupled_field.
have -> : (e - le *: 1) + (b - lb *: 1) = (e + b) - (le + lb) *: 1.
  by rewrite addrACA -opprD -scalerDl.
rewrite sqr_shift [in RHS]scalerDr [in RHS]scalerBr !scalerA.
rewrite mulrDr -mulrDl (half2 two) mul1r.
set q := 2%:R^-1 *: (e + b) ^+ 2; set c := (_ * _) *: 1.
rewrite scalerDl !scalerDr.
have -> : le *: e + le *: b + (lb *: e + lb *: b) = le *: e + lb *: b + (le *: b + lb *: e).
  by rewrite (addrC (lb *: e)) addrACA.
by rewrite zmod_id.
Qed.

Section Modes.
Variables (im : F).
Hypothesis imm : im ^+ 2 = -1.

Lemma scheme1_pair x y : x * y = y * x ->
  2%:R^-1 *: (x + y) ^+ 2 + (2%:R^-1 *: (im *: x) ^+ 2 + 2%:R^-1 *: (im *: y) ^+ 2) = x * y.
Proof.
move=> c; rewrite !sqrZ imm !scaleN1r -!scalerDr sqrD -opprD -c.
by rewrite [X in _ *: X]addrC addKr halfD.
Qed.

Lemma scheme2_pair (s : F) x y : s ^+ 2 = 2%:R^-1 -> x * y = y * x ->
  2%:R^-1 *: (s *: x + s *: y) ^+ 2 + 2%:R^-1 *: ((im * s) *: x - (im * s) *: y) ^+ 2 = x * y.
Proof.
move=> ss c; rewrite -[s *: x + _]scalerDr -[_ *: x - _]scalerBr !sqrZ exprMn imm ss mulN1r !scaleNr.
rewrite -scalerDr -scalerBr !sqrD sqrrN mulrN mulNr -c -[- (x * y) - _]opprD.
by rewrite zmod_id2 !halfD.
Qed.
End Modes.
End AlgP.

Section BilinearP.
Variables (F : fieldType) (im is2 : F) (nao nmodes : nat).
Variables (Afac Bfac : 'I_nmodes -> F) (chol : 'I_nmodes -> 'M[F]_nao) (act : 'I_nmodes -> bool).
Variables (A : algType F) (hat : {linear 'M[F]_nao -> A}) (B : 'I_nmodes -> A).
Hypothesis two : (2%:R : F) != 0.
Hypothesis imm : im ^+ 2 = -1.
Hypothesis comm : forall M m, hat M * B m = B m * hat M.
Hypothesis small : forall m, act m = false -> Afac m *: chol m = 0.

Local Notation coupling := (coupling hat Afac chol Bfac B).

Lemma scheme1_ok :
  \sum_m half_squares hat (B m) (scheme1 im Afac Bfac chol act m) = coupling.
Proof.
apply: eq_bigr=> m _; rewrite /half_squares /scheme1; case E: (act m).
  rewrite !big_cons big_nil /= addr0 [hat (im *: _)]linearZ_LR /= linear0 scale0r addr0 add0r.
  rewrite -(scalerA im) -/(Lga Afac chol m); apply: scheme1_pair => //.
  by rewrite -scalerAr -scalerAl comm.
rewrite /= !big_cons big_nil /= !linear0 !scale0r !addr0 expr0n /= !scaler0 !addr0.
by rewrite (small E) linear0 mul0r.
Qed.

Lemma scheme2_ok : is2 ^+ 2 = 2%:R^-1 ->
  \sum_m half_squares hat (B m) (scheme2 im is2 Afac Bfac chol act m) = coupling.
Proof.
move=> ss; apply: eq_bigr=> m _; rewrite /half_squares /scheme2; case E: (act m).
  rewrite !big_cons big_nil /= addr0 [hat (is2 *: _)]linearZ_LR [hat ((im * is2) *: _)]linearZ_LR /= scaleNr.
  rewrite -(scalerA is2 (Bfac m)) -(scalerA (im * is2) (Bfac m)) -/(Lga Afac chol m).
  apply: scheme2_pair => //.
  by rewrite -scalerAr -scalerAl comm.
rewrite /= !big_cons big_nil /= !linear0 !scale0r !addr0 expr0n /= !scaler0 !addr0.
by rewrite (small E) linear0 mul0r.
Qed.
End BilinearP.

Section MeanFieldP.
Variables (F : fieldType) (conj : {rmorphism F -> F}) (im : F) (p nchol : nat).
Variables (L : 'I_nchol -> 'M[F]_p) (A : algType F) (hat : {linear 'M[F]_p -> A}).
Hypothesis two : (2%:R : F) != 0.
Hypothesis imm : im ^+ 2 = -1.

Lemma trace_eriE : trace_eri conj L = \sum_g map_mx conj (L g) *m L g.
Proof.
apply/matrixP=> a b; rewrite mxE summxE; apply: eq_bigr=> g _.
by rewrite mxE; apply: eq_bigr=> r _; rewrite mxE.
Qed.

Lemma hat_sum (I : finType) (M : I -> 'M[F]_p) : hat (\sum_g M g) = \sum_g hat (M g).
Proof. exact: raddf_sum. Qed.

Lemma hat_shifted h rho :
  hat (shifted_h1e conj im L h rho)
  = hat h - 2%:R^-1 *: hat (trace_eri conj L)
    + \sum_g one_body (L g) rho *: hat (L g).
Proof.
rewrite /shifted_h1e !linearB /= hat_sum linearZ_LR; congr (_ + _).
rewrite -sumrN; apply: eq_bigr=> g _.
rewrite scalerA linearZ_LR /= -scaleNr /mf_shift mulrAC -expr2 imm mulN1r opprK.
by [].
Qed.

(** Whatever the vectors, the shift only errs by the difference between
    conj(L) L and L L. *)
Lemma meanfield_defect h rho :
  shifted_hamiltonian hat (shifted_h1e conj im L h rho) L (fun g => one_body (L g) rho)
  = hamiltonian hat h L
    + 2%:R^-1 *: hat (\sum_g L g *m L g - trace_eri conj L).
Proof.
rewrite /shifted_hamiltonian /hamiltonian hat_shifted linearB /= hat_sum.
have -> : \sum_g (hat (L g) - one_body (L g) rho *: 1) ^+ 2
  = \sum_g hat (L g) ^+ 2
    - (\sum_g one_body (L g) rho *: hat (L g) + \sum_g one_body (L g) rho *: hat (L g))
    + (\sum_g one_body (L g) rho ^+ 2) *: 1.
  rewrite -big_split -sumrB scaler_suml -big_split /=; apply: eq_bigr=> g _.
  by rewrite sqr_shift scalerDl.
rewrite sumrB !scalerDr !scalerN !(halfD two) scalerA.
set h0 := hat h; set t := _ *: hat (trace_eri _ _); set m := \sum_g _ *: _.
set q := _ *: \sum_g _ ^+ 2; set c := (_ * _) *: 1; set d := _ *: \sum_g hat (_ *m _).
have -> : h0 - t + m + (q - m + c) - c = h0 - t + q.
  by rewrite addrA addrK addrACA subrr addr0.
by rewrite -[RHS]addrA subrKA [RHS]addrA [RHS]addrAC.
Qed.

Lemma meanfield_real h rho : (forall g, map_mx conj (L g) = L g) ->
  shifted_hamiltonian hat (shifted_h1e conj im L h rho) L (fun g => one_body (L g) rho)
  = hamiltonian hat h L.
Proof.
move=> real; rewrite meanfield_defect trace_eriE.
under [X in _ - X]eq_bigr=> g _ do rewrite real.
by rewrite subrr linear0 scaler0 addr0.
Qed.
End MeanFieldP.

Section DiisP.
Variables (F : fieldType) (conj : {rmorphism F -> F}) (p : nat).
Hypothesis invol : forall x, conj (conj x) = x.

Lemma daggerM m n q (X : 'M[F]_(m, n)) (Y : 'M[F]_(n, q)) :
  dagger conj (X *m Y) = dagger conj Y *m dagger conj X.
Proof. by rewrite /dagger map_mxM trmx_mul. Qed.
Lemma daggerK m n (X : 'M[F]_(m, n)) : dagger conj (dagger conj X) = X.
Proof. by apply/matrixP=> i j; rewrite !mxE invol. Qed.
Lemma daggerB m n (X Y : 'M[F]_(m, n)) : dagger conj (X - Y) = dagger conj X - dagger conj Y.
Proof. by apply/matrixP=> i j; rewrite !mxE rmorphB. Qed.

Lemma err_antiherm (s d f : 'M[F]_p) : dagger conj (err_orig conj s d f) = - err_orig conj s d f.
Proof. by rewrite /err_orig daggerB daggerK opprB. Qed.

Lemma err_commutator (s d f : 'M[F]_p) :
  hermitian conj s -> hermitian conj d -> hermitian conj f ->
  err_orig conj s d f = f *m d *m s - s *m d *m f.
Proof.
move=> hs hd hf; rewrite /err_orig !daggerM.
by rewrite -[dagger conj s]/((map_mx conj s)^T) hs -[dagger conj d]/((map_mx conj d)^T) hd
  -[dagger conj f]/((map_mx conj f)^T) hf mulmxA.
Qed.

Lemma err_zero (s d f : 'M[F]_p) :
  hermitian conj s -> hermitian conj d -> hermitian conj f ->
  err_orig conj s d f = 0 <-> commute_in_metric s d f.
Proof.
move=> hs hd hf; rewrite err_commutator // /commute_in_metric; split=> [/eqP|->].
  by rewrite subr_eq0 => /eqP.
exact: subrr.
Qed.

Lemma err_orthE (s d f : 'M[F]_p) q (C : 'M[F]_(p, q)) :
  err_orth conj s d f C = dagger conj C *m err_orig conj s d f *m C.
Proof.
rewrite /err_orth /err_orig mulmxBr mulmxBl !daggerM daggerK !mulmxA.
by [].
Qed.
End DiisP.

(** Field identities for the Runge-Kutta weights. *)
Section AbsField.
Variables (K : Type) (z o : K) (add mul sub : K -> K -> K) (opp : K -> K)
  (div : K -> K -> K) (inv : K -> K).
Variable FT : field_theory z o add mul sub opp div inv (@eq K).
Add Field KF : FT.
Local Notation "x +! y" := (add x y) (at level 50, left associativity).
Local Notation "x *! y" := (mul x y) (at level 40, left associativity).
Variables n2 n3 n4 n6 n24 : K.
Hypotheses (d2 : n2 = o +! o) (d3 : n3 = n2 +! o) (d4 : n4 = n2 *! n2)
  (d6 : n6 = n2 *! n3) (d24 : n24 = n4 *! n6).
Hypotheses (e2 : n2 <> z) (e3 : n3 <> z).
Lemma prod_nz a b : a <> z -> b <> z -> a *! b <> z.
Proof.
move=> ha hb E; apply: ha; have : a *! b *! inv b = z by rewrite E; field.
by move=> <-; field.
Qed.
Lemma e4 : n4 <> z. Proof. by rewrite d4; apply: prod_nz. Qed.
Lemma e6 : n6 <> z. Proof. by rewrite d6; apply: prod_nz. Qed.
Lemma e24 : n24 <> z. Proof. by rewrite d24; apply: prod_nz; [exact: e4|exact: e6]. Qed.
Let e2' : o +! o <> z. Proof. by rewrite -d2. Qed.
Let e3' : o +! o +! o <> z. Proof. by rewrite -d2 -d3. Qed.
Let e3'' : o +! (o +! o) <> z.
Proof. have -> : o +! (o +! o) = o +! o +! o by ring. exact: e3'. Qed.
Ltac go := rewrite ?d24 ?d6 ?d4 ?d3 ?d2; field; repeat first [split | apply: prod_nz]; auto.
Lemma rk_c1 t : div t n6 *! (o +! n2 *! o +! n2 *! o +! o) = t.
Proof. go. Qed.
Lemma rk_c2 t : div t n6 *! (z +! n2 *! div t n2 +! n2 *! div t n2 +! t) = t *! t *! inv n2.
Proof. go. Qed.
Lemma rk_c3 t : div t n6 *! (z +! n2 *! z +! n2 *! (div t n2 *! div t n2) +! t *! div t n2)
   = t *! (t *! t) *! inv n6.
Proof. go. Qed.
Lemma rk_c4 t : div t n6 *! (z +! n2 *! z +! n2 *! z +! t *! (div t n2 *! div t n2))
   = t *! (t *! (t *! t)) *! inv n24.
Proof. go. Qed.
Lemma simp1 t x : div t n6 *! (x +! n2 *! (x +! div t n2) +! n2 *! (x +! div t n2) +! (x +! t))
   = sub ((x +! t) *! (x +! t)) (x *! x) *! inv n2.
Proof. go. Qed.
Lemma simp2 t x : let m := x +! div t n2 in let e := x +! t in
   div t n6 *! (x *! x +! n2 *! (m *! m) +! n2 *! (m *! m) +! e *! e)
   = sub (e *! (e *! e)) (x *! (x *! x)) *! inv n3.
Proof. move=> m e; rewrite /m /e; go. Qed.
Lemma simp3 t x : let m := x +! div t n2 in let e := x +! t in
   div t n6 *! (x *! (x *! x) +! n2 *! (m *! (m *! m)) +! n2 *! (m *! (m *! m)) +! e *! (e *! e))
   = sub (e *! (e *! (e *! e))) (x *! (x *! (x *! x))) *! inv n4.
Proof. move=> m e; rewrite /m /e; go. Qed.
End AbsField.

Section RK.
Variables (F : fieldType).
Lemma fft : field_theory (0 : F) 1 (fun x y => x + y) (fun x y => x * y) (fun x y => x - y)
  (fun x => - x) (fun x y => x / y) (fun x => x^-1) eq.
Proof.
by split; [exact: frt|exact/eqP/oner_neq0| |move=> q /eqP ?; rewrite mulVf].
Qed.
Hypotheses (two : (2%:R : F) != 0) (three : (3%:R : F) != 0).
Let q2 : (2%:R : F) = 1 + 1. Proof. by rewrite -(natrD _ 1 1). Qed.
Let q3 : (3%:R : F) = 2%:R + 1. Proof. by rewrite -(natrD _ 2 1). Qed.
Let q4 : (4%:R : F) = 2%:R * 2%:R. Proof. by rewrite -natrM. Qed.
Let q6 : (6%:R : F) = 2%:R * 3%:R. Proof. by rewrite -natrM. Qed.
Let q24 : (24%:R : F) = 4%:R * 6%:R. Proof. by rewrite -natrM. Qed.
Let z2 := elimN eqP two. Let z3 := elimN eqP three.

Variable V : lmodType F.
Section Comb.
Variables v1 v2 v3 v4 : V.
Definition cb (x1 x2 x3 x4 : F) : V := x1 *: v1 + x2 *: v2 + x3 *: v3 + x4 *: v4.
Lemma cbD x1 x2 x3 x4 y1 y2 y3 y4 :
  cb x1 x2 x3 x4 + cb y1 y2 y3 y4 = cb (x1 + y1) (x2 + y2) (x3 + y3) (x4 + y4).
Proof. by rewrite /cb !scalerDl [LHS]addrACA; congr (_ + _); rewrite [LHS]addrACA; congr (_ + _); rewrite [LHS]addrACA. Qed.
Lemma cbZ c x1 x2 x3 x4 : c *: cb x1 x2 x3 x4 = cb (c * x1) (c * x2) (c * x3) (c * x4).
Proof. by rewrite /cb !scalerDr !scalerA. Qed.
End Comb.

Lemma rk4_linear (A : {linear V -> V}) t0 y dt :
  rk4 (fun _ v => A v) t0 y dt = exp_poly (fun v => dt *: A v) 4 y.
Proof.
rewrite /rk4.
set a1 := A y; set a2 := A a1; set a3 := A a2; set a4 := A a3.
set h := dt / 2%:R.
have K2 : A (y + h *: a1) = cb a1 a2 a3 a4 1 h 0 0.
  by rewrite linearD linearZ_LR /= /cb scale1r !scale0r !addr0.
have K3 : A (y + h *: cb a1 a2 a3 a4 1 h 0 0) = cb a1 a2 a3 a4 1 h (h * h) 0.
  by rewrite /cb !scale0r !addr0 !scale1r scalerDr scalerA !linearD !linearZ_LR /= addrA.
have K4 : A (y + dt *: cb a1 a2 a3 a4 1 h (h * h) 0)
    = cb a1 a2 a3 a4 1 dt (dt * h) (dt * (h * h)).
  by rewrite /cb !scale0r !addr0 !scale1r !scalerDr !scalerA !linearD !linearZ_LR /= !addrA.
rewrite K2 K3 K4.
have K1 w : a1 + w = cb a1 a2 a3 a4 1 0 0 0 + w by rewrite /cb scale1r !scale0r !addr0.
rewrite K1 !cbZ !cbD cbZ.
have -> : exp_poly (fun v => dt *: A v) 4 y
  = y + cb a1 a2 a3 a4 dt (dt * dt / 2%:R) (dt * (dt * dt) / 6%:R) (dt * (dt * (dt * dt)) / 24%:R).
  have it k : iter k (fun v => dt *: A v) y = dt ^+ k *: iter k A y.
    by elim: k => [|k IH]; rewrite ?expr0 ?scale1r // iterS IH linearZ_LR scalerA -exprS -iterS.
  rewrite /exp_poly; under eq_bigr=> k _ do rewrite it scalerA.
  rewrite -(big_mkord xpredT (fun k => ((k`!%:R)^-1 * dt ^+ k) *: iter k A y)).
  do 5 rewrite big_ltn //; rewrite big_geq // addr0 /cb !addrA.
  rewrite (_ : 0`! = 1)%N // (_ : 1`! = 1)%N // (_ : 2`! = 2)%N // (_ : 3`! = 6)%N //.
  rewrite (_ : 4`! = 24)%N // invr1 !mul1r expr0 scale1r expr1.
  by rewrite ![_^-1 * _]mulrC !exprS !expr0 !mulr1.
congr (_ + _); congr (cb _ _ _ _ _ _ _ _).
- exact: (rk_c1 fft q2 q3 q6 z2 z3).
- exact: (rk_c2 fft q2 q3 q6 z2 z3).
- exact: (rk_c3 fft q2 q3 q6 z2 z3).
- exact: (rk_c4 fft q2 q3 q4 q6 q24 z2 z3).
Qed.

Lemma rk4_poly (c : 'I_4 -> V) t0 y dt :
  rk4 (fun t _ => \sum_(k < 4) t ^+ k *: c k) t0 y dt
  = y + \sum_(k < 4) (((t0 + dt) ^+ k.+1 - t0 ^+ k.+1) / k.+1%:R) *: c k.
Proof.
rewrite /rk4.
set c0 := c ord0; set c1 := c (Ordinal (isT : 1 < 4)%N);
set c2 := c (Ordinal (isT : 2 < 4)%N); set c3 := c (Ordinal (isT : 3 < 4)%N).
have S4 (g : 'I_4 -> F) : \sum_(k < 4) g k *: c k
  = cb c0 c1 c2 c3 (g ord0) (g (Ordinal (isT : 1 < 4)%N)) (g (Ordinal (isT : 2 < 4)%N))
      (g (Ordinal (isT : 3 < 4)%N)).
  rewrite !big_ord_recl big_ord0 addr0 /cb !addrA.
  by congr (_ + _ + _ + _); congr (_ *: _); congr (_ _); apply: val_inj.
rewrite !S4 !cbZ !cbD cbZ; congr (_ + _); congr (cb _ _ _ _ _ _ _ _).
- rewrite !expr0 !expr1 divr1 [t0 + dt]addrC addrK; exact: (rk_c1 fft q2 q3 q6 z2 z3).
- rewrite !expr1 !expr2; exact: (simp1 fft q2 q3 q6 z2 z3).
- rewrite !exprS !expr0 !mulr1; exact: (simp2 fft q2 q3 q6 z2 z3).
- rewrite !exprS !expr0 !mulr1; exact: (simp3 fft q2 q3 q4 q6 z2 z3).
Qed.
End RK.

(** The linear responses determine the Green's function. *)
Lemma green_unique (F : fieldType) (conj : {rmorphism F -> F}) p n (T W : 'M[F]_(p, n)) G G' :
  slater conj T W != 0 -> is_green conj T W G -> is_green conj T W G' -> G = G'.
Proof.
move=> nz g g'; apply/matrixP=> a b.
have := g a b 1; rewrite (g' a b 1) !mul1r => /(mulfI nz) /addrI.
by move=> ->.
Qed.

Lemma energy_uhf_green (F : fieldType) (conj : {rmorphism F -> F}) p nchol
  (L : 'I_nchol -> 'M[F]_p) na nb ha hb enuc
  (Wa Ta : 'M[F]_(p, na)) (Wb Tb : 'M[F]_(p, nb)) Ga Gb :
  slater conj Ta Wa != 0 -> slater conj Tb Wb != 0 ->
  is_green conj Ta Wa Ga -> is_green conj Tb Wb Gb ->
  energy_uhf conj L ha hb enuc Wa Ta Wb Tb =
  (one_body ha Ga + one_body hb Gb + enuc,
   2%:R^-1 * (direct (eri L) (Ga + Gb) - (exchange (eri L) Ga + exchange (eri L) Gb))).
Proof.
move=> na0 nb0 ga gb.
have ua : ovlp_spin conj Wa Ta != 0 by rewrite -slaterE.
have ub : ovlp_spin conj Wb Tb != 0 by rewrite -slaterE.
rewrite energy_uhf_full.
by rewrite (green_unique na0 ga (gf_green ua)) (green_unique nb0 gb (gf_green ub)).
Qed.

Lemma vbias_uhf_green (F : fieldType) (conj : {rmorphism F -> F}) p nchol
  (L : 'I_nchol -> 'M[F]_p) na nb
  (Wa Ta : 'M[F]_(p, na)) (Wb Tb : 'M[F]_(p, nb)) Ga Gb g :
  slater conj Ta Wa != 0 -> slater conj Tb Wb != 0 ->
  is_green conj Ta Wa Ga -> is_green conj Tb Wb Gb ->
  vbias_uhf conj L Ta (ghalf conj Wa Ta) Tb (ghalf conj Wb Tb) g
  = one_body (L g) (Ga + Gb).
Proof.
move=> na0 nb0 ga gb.
have ua : ovlp_spin conj Wa Ta != 0 by rewrite -slaterE.
have ub : ovlp_spin conj Wb Tb != 0 by rewrite -slaterE.
rewrite vbias_uhf_full.
by rewrite (green_unique na0 ga (gf_green ua)) (green_unique nb0 gb (gf_green ub)).
Qed.

Lemma cfb_delta (F : fieldType) nf (s : 'I_nf -> F) g :
  cfb (fun k => (k == g)%:R) s = s g + cfb (fun _ => 0) s.
Proof.
rewrite /cfb (bigD1 g) //= [in RHS](bigD1 g) //= eqxx addrA; congr (_ + _).
  by rewrite !mulrBl mul1r mul0r sub0r.
by apply: eq_bigr=> k /negbTE ->.
Qed.

(** No single bias explains two different biases of one field. *)
Lemma decoupled_no_bias (F : fieldType) nf (xe xb : 'I_nf -> F) :
  (2%:R : F) != 0 -> \sum_g xe g * xb g != 0 ->
  ~ exists s, forall xi, cfb_decoupled xi xe xb = gauss_ratio s xi.
Proof.
move=> two nz [s E].
have E' xi : cfb xi (fun g => xe g + xb g) + \sum_g xe g * xb g = cfb xi s.
  by rewrite !(cfb_gauss two) -E cfb_decoupledE.
have same g : xe g + xb g = s g.
  have := E' (fun k => (k == g)%:R).
  by rewrite !cfb_delta -addrA (E' (fun _ => 0)) => /addIr.
have := E' (fun _ => 0).
have -> : cfb (fun _ => 0) (fun g => xe g + xb g) = cfb (fun _ => 0) s.
  by apply: eq_bigr=> g _; rewrite same.
by rewrite -[RHS]addr0 => /addrI /eqP; rewrite (negbTE nz).
Qed.

(** The forms quoted in the property file. *)
Section Final.
Variables (F : fieldType) (conj : {rmorphism F -> F}).

Lemma ortho_green p n (Q T : 'M[F]_(p, n)) (R : 'M[F]_n) :
  slater conj T Q != 0 -> R \in unitmx -> gfull conj Q T = gfull conj (Q *m R) T.
Proof. by rewrite slaterE => U UR; rewrite gf_mix. Qed.

Lemma gf_projector p n (W T : 'M[F]_(p, n)) :
  slater conj T W != 0 ->
  let G := gfull conj W T in
  [/\ G *m G = G, \tr G = n%:R, G^T *m W = W, G *m map_mx conj T = map_mx conj T &
   forall (P : 'M[F]_p) (X : 'M[F]_(n, p)), P = map_mx conj T *m X -> P^T *m W = W -> P = G].
Proof.
rewrite slaterE => U; split; [exact: gf_idem|exact: gf_trace|exact: gf_walker|exact: gf_trial|].
by move=> P X; apply: gf_unique.
Qed.

Lemma gf_mixing p n (W T : 'M[F]_(p, n)) (R S : 'M[F]_n) :
  slater conj T W != 0 -> R \in unitmx -> S \in unitmx ->
  gfull conj (W *m R) (T *m S) = gfull conj W T.
Proof.
rewrite slaterE => U UR US; rewrite gf_mixT ?gf_mix // ovlp_spin_mix mulf_neq0 //.
by rewrite -unitfE -unitmxE.
Qed.

Lemma gf_response p n (W T : 'M[F]_(p, n)) G :
  slater conj T W != 0 -> is_green conj T W G <-> G = gfull conj W T.
Proof.
move=> U; have U' := U; rewrite slaterE in U'; split=> [g|->]; last exact: gf_green.
exact: (green_unique U g (gf_green U')).
Qed.

Lemma gf_implementations p n (W T : 'M[F]_(p, n)) :
  [/\ ghalf_numba conj W T = ghalf conj W T,
      est_ghalf conj W T = (ghalf conj W T)^T,
      est_gf conj W T = gfull conj W T &
      gfull_base (ghalf conj W T) (map_mx conj T) = gfull conj W T].
Proof. by rewrite ghalf_numbaE est_ghalfE est_gfE gfull_baseE. Qed.

Lemma closed_shell p nchol (L : 'I_nchol -> 'M[F]_p) n h enuc (W T : 'M[F]_(p, n)) :
  [/\ energy_rhf conj L h enuc W T = energy_uhf conj L h h enuc W T W T,
      ovlp_rhf conj W T = slater conj T W * slater conj T W &
      forall G g, vbias_rhf conj L T G g = vbias_uhf conj L T G T G g].
Proof. by split; [exact: energy_rhf_uhf|rewrite !slaterE|move=> *; exact: vbias_rhf_uhf]. Qed.

Lemma boson_first_order p n (A : 'M[F]_p) order (phi : 'M[F]_(p, n)) :
  (order <= 1)%N -> propagate_boson_bilinear A order phi = exp_poly (mulmx A) order phi.
Proof.
rewrite -taylorE; case: order => [|[|//]] _ //.
by rewrite /propagate_boson_bilinear /propagate_exp_op /= invr1 scale1r.
Qed.

Lemma meanfield_real' (im : F) p nchol
  (L : 'I_nchol -> 'M[F]_p) (A : algType F) (hat : {linear 'M[F]_p -> A}) h rho :
  (2%:R : F) != 0 -> im ^+ 2 = -1 -> (forall g, map_mx conj (L g) = L g) ->
  shifted_hamiltonian hat (shifted_h1e conj im L h rho) L (fun g => one_body (L g) rho)
  = hamiltonian hat h L.
Proof. by move=> *; apply: meanfield_real. Qed.

Lemma decoupled_defect (A : algType F) (e b : A) le lb :
  (2%:R : F) != 0 ->
  2%:R^-1 *: (e + b) ^+ 2
  = decoupled_field e b le lb + (le *: b + lb *: e) - (2%:R^-1 * (le + lb) ^+ 2) *: 1.
Proof. by move=> two; apply: decoupled_fieldE. Qed.

Lemma cfb_ratio nf (xi s : 'I_nf -> F) : (2%:R : F) != 0 -> cfb xi s = gauss_ratio s xi.
Proof. by move=> two; apply: cfb_gauss. Qed.

Lemma shared_disjoint nf (xi xe xb : 'I_nf -> F) :
  (2%:R : F) != 0 -> (forall g, xe g * xb g = 0) ->
  cfb_decoupled xi xe xb = gauss_ratio (fun g => xe g + xb g) xi.
Proof. by move=> two z; rewrite cfb_decoupledE // big1 ?addr0 // => g _. Qed.

Lemma rk4_linear' (V : lmodType F) (A : {linear V -> V}) t0 y dt :
  (2%:R : F) != 0 -> (3%:R : F) != 0 ->
  rk4 (fun _ v => A v) t0 y dt = exp_poly (fun v => dt *: A v) 4 y.
Proof. by move=> *; apply: rk4_linear. Qed.
Lemma rk4_poly' (V : lmodType F) (c : 'I_4 -> V) t0 y dt :
  (2%:R : F) != 0 -> (3%:R : F) != 0 ->
  rk4 (fun t _ => \sum_(k < 4) t ^+ k *: c k) t0 y dt
  = y + \sum_(k < 4) (((t0 + dt) ^+ k.+1 - t0 ^+ k.+1) / k.+1%:R) *: c k.
Proof. by move=> *; apply: rk4_poly. Qed.

Lemma diis_antiherm p (s d f : 'M[F]_p) :
  (forall x, conj (conj x) = x) -> dagger conj (err_orig conj s d f) = - err_orig conj s d f.
Proof. by move=> *; apply: err_antiherm. Qed.
Lemma diis_orth p q (s d f : 'M[F]_p) (C : 'M[F]_(p, q)) :
  (forall x, conj (conj x) = x) ->
  err_orth conj s d f C = dagger conj C *m err_orig conj s d f *m C.
Proof. by move=> *; apply: err_orthE. Qed.
Lemma diis_orth_zero p (s d f C : 'M[F]_p) :
  (forall x, conj (conj x) = x) -> C \in unitmx ->
  err_orth conj s d f C = 0 <-> err_orig conj s d f = 0.
Proof.
move=> inv UC; rewrite diis_orth //; split=> [E|->]; last by rewrite mulmx0 mul0mx.
have UD : dagger conj C \in unitmx by rewrite /dagger unitmx_tr map_unitmx.
have := congr1 (fun M => invmx (dagger conj C) *m M *m invmx C) E.
by rewrite !mulmxA (mulVmx UD) mul1mx -mulmxA (mulmxV UC) mulmx1 mulmx0 mul0mx.
Qed.
End Final.

Section FinalNum.
Variables (F : numFieldType) (conj : {rmorphism F -> F}).
Lemma ortho_overlap_size p na nb (Qa Ta : 'M[F]_(p, na)) (Qb Tb : 'M[F]_(p, nb)) Ra Rb :
  is_trig_mx Ra^T -> is_trig_mx Rb^T -> (forall i, Ra i i != 0) -> (forall i, Rb i i != 0) ->
  `|new_ovlp_uhf (ovlp_spin conj (Qa *m Ra) Ta * ovlp_spin conj (Qb *m Rb) Tb) Ra Rb|
  = `|slater conj Ta Qa * slater conj Tb Qb|.
Proof. by rewrite !slaterE; apply: ortho_ovlp_abs. Qed.
Lemma ortho_overlap_pos p na nb (Qa Ta : 'M[F]_(p, na)) (Qb Tb : 'M[F]_(p, nb)) Ra Rb :
  is_trig_mx Ra^T -> is_trig_mx Rb^T -> (forall i, 0 < Ra i i) -> (forall i, 0 < Rb i i) ->
  new_ovlp_uhf (ovlp_spin conj (Qa *m Ra) Ta * ovlp_spin conj (Qb *m Rb) Tb) Ra Rb
  = slater conj Ta Qa * slater conj Tb Qb.
Proof. by rewrite !slaterE; apply: ortho_ovlp_uhf. Qed.
End FinalNum.
