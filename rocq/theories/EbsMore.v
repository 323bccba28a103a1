(** Proofs about whole propagation steps: the electronic step. *)
From mathcomp Require Import all_ssreflect all_fingroup all_algebra all_field.
From Verif Require Import LinModel LinSpec LinProofs EBModel EbsModel EbsSpec EbsProofs.
Set Implicit Arguments.
Unset Strict Implicit.
Unset Printing Implicit Defensive.
Import Order.TTheory GRing.Theory Num.Theory.
Local Open Scope ring_scope.

Section Exps.
Variables (F : numFieldType) (expm : forall n, 'M[F]_n -> 'M[F]_n).
Hypothesis He : is_expm expm.

Lemma expm_jet n (A : 'M[F]_n) (k : F) :
  JM (fun s => expm ((k * s ^+ 2) *: A)) 1%:M 0 (k *: A).
Proof.
have [C [d [C0 d0 h]]] := He A.
have k1 : 0 < `|k| + 1 by apply: ltr_paddl; rewrite ?ltr01.
have [m [mp md m1]] := small_common (divr_gt0 d0 k1) (@ltr01 F).
move=> i j; exists (C * `|k| ^+ 2), m; split=> //.
  by rewrite mulr_ge0 // exprn_ge0.
move=> s sm; have s1 : `|s| <= 1 by apply: le_trans m1.
have sd : `|k * s ^+ 2| <= d.
  rewrite normrM normrX; apply: (@le_trans _ _ ((`|k| + 1) * `|s|)).
    apply: ler_pmul; rewrite ?normr_ge0 ?exprn_ge0 // ?ler_addl ?ler01 //.
    by rewrite expr2 ler_pimulr.
  by rewrite mulrC -ler_pdivl_mulr // (le_trans sm).
have := h _ sd i j; rewrite !mxE mul0r addr0 [k * s ^+ 2 * _]mulrAC => hh.
apply: (le_trans hh); rewrite normrM normrX exprMn -exprM mulrA ler_wpmul2l //.
  by rewrite mulr_ge0 ?exprn_ge0.
by rewrite (exprS _ 3) ler_pimull // exprn_ge0.
Qed.

Variable expf : F -> F.
Hypothesis Hf : is_exp expf.
Lemma expf_jet (f : F -> F) (c1 c2 : F) : expands f 0 c1 c2 ->
  expands (fun s => expf (f s)) 1 c1 (c2 + 2%:R^-1 * c1 ^+ 2).
Proof.
move=> hf; have [C [d [C0 d0 h]]] := Hf.
(* the series itself *)
have poly : expands (fun s => 1 + f s + f s ^+ 2 / 2%:R) 1 c1 (c2 + 2%:R^-1 * c1 ^+ 2).
  have := ex_add (ex_add (ex_const 1) hf) (ex_scale 2%:R^-1 (ex_mul hf hf)).
  rewrite ?(mulr0, mul0r, addr0, add0r) -expr2 => hh.
  by apply: (ex_eq _ hh)=> s; rewrite mulrC expr2.
have [D [e [D0 e0 k]]] := poly; have [G [g [G0 g0 l]]] := hf.
(* |f s| <= B |s| near 0 *)
pose B := `|c1| + `|c2| + G.
have B0 : 0 <= B by rewrite !addr_ge0.
have B1 : 0 < B + 1 by apply: ltr_paddl; rewrite ?ltr01.
have [m1 [m10 m1a m1b]] := small_common g0 (@ltr01 F).
have [m2 [m20 m2a m2b]] := small_common m10 e0.
have [m [mp m3 m4]] := small_common m20 (divr_gt0 d0 B1).
have fb s : `|s| <= m -> `|f s| <= B * `|s|.
  move=> sm; have s1 : `|s| <= 1 by rewrite (le_trans sm) // (le_trans m3) // (le_trans m2a).
  have := l s; rewrite (le_trans sm) ?(le_trans m3) ?(le_trans m2a) // => /(_ isT) hs.
  rewrite -[f s](subrK (0 + c1 * s + c2 * s ^+ 2)).
  apply: (le_trans (ler_norm_add _ _)); rewrite /B [X in _ <= X]mulrDl addrC; apply: ler_add.
    rewrite add0r mulrDl; apply: (le_trans (ler_norm_add _ _)); rewrite !normrM; apply: ler_add=> //.
    by rewrite ler_wpmul2l // ler_pimull.
  apply: (le_trans hs); rewrite ler_wpmul2l // exprS ler_pimulr // exprn_ile1 //.
exists (C * B ^+ 3 + D), m; split=> //.
  by rewrite addr_ge0 // mulr_ge0 // exprn_ge0.
move=> s sm; have fd : `|f s| <= d.
  apply: (le_trans (fb s sm)); apply: (@le_trans _ _ ((B + 1) * `|s|)).
    by rewrite ler_wpmul2r // ler_addl ler01.
  by rewrite mulrC -ler_pdivl_mulr // (le_trans sm).
have h1 := h _ fd; have h2 := k s (le_trans sm (le_trans m3 m2b)).
set P := 1 + f s + _ in h1 h2; set J := 1 + c1 * s + _ in h2 *.
have -> : expf (f s) - J = (expf (f s) - P) + (P - J) by rewrite addrA subrK.
apply: (le_trans (ler_norm_add _ _)); rewrite mulrDl; apply: ler_add=> //.
apply: (le_trans h1); rewrite -mulrA ler_wpmul2l // -exprMn.
by apply: ler_expn2r; rewrite ?nnegrE ?mulr_ge0 // fb.
Qed.
End Exps.

(** Taylor loop *)
Section Op.
Variables (F : numFieldType) (p : nat).
Definition expop (A : 'M[F]_p) (order : nat) : 'M[F]_p :=
  \sum_(k < order.+1) (k`!%:R)^-1 *: iter k (mulmx A) 1%:M.

Lemma iter_mulmx n (A : 'M[F]_p) (W : 'M[F]_(p, n)) k :
  iter k (mulmx A) W = iter k (mulmx A) 1%:M *m W.
Proof. by elim: k => [|k IH] /=; rewrite ?mul1mx // IH mulmxA. Qed.

Lemma propE n (A : 'M[F]_p) order (W : 'M[F]_(p, n)) :
  propagate_exp_op A order W = expop A order *m W.
Proof.
rewrite taylorE /exp_poly /expop mulmx_suml; apply: eq_bigr=> k _.
by rewrite -scalemxAl -(iter_mulmx _ W).
Qed.

Lemma expop_jet (A : F -> 'M[F]_p) (A1 A2 : 'M[F]_p) order : (1 < order)%N -> JM A 0 A1 A2 ->
  JM (fun s => expop (A s) order) 1%:M A1 (A2 + 2%:R^-1 *: (A1 *m A1)).
Proof.
move=> o2 h; rewrite -(subnK o2); elim: (order - 2)%N => [|m IH].
  have h2 := JM_mul h h.
  have := JM_add (JM_add (JM_const 1%:M) h) (JM_scale 2%:R^-1 h2).
  rewrite !mulmx0 !mul0mx !addr0 !add0r scaler0 !addr0 => hh.
  apply: (JM_eq _ hh)=> s; rewrite add0n /expop !big_ord_recl big_ord0 /= addr0 mulmx1.
  by rewrite !factS fact0 !muln1 invr1 !scale1r addrA.
have zero k : JM (fun s => iter k.+3 (mulmx (A s)) 1%:M) 0 0 0.
  elim: k => [|k IHk].
    have := JM_mul h (JM_mul h h); rewrite ?(mulmx0, mul0mx, addr0, add0r) => hh.
    by apply: (JM_eq _ hh)=> s /=; rewrite mulmx1.
  by have := JM_mul h IHk; rewrite ?(mulmx0, mul0mx, addr0, add0r) => hh; apply: (JM_eq _ hh).
have := JM_add IH (JM_scale ((m.+3)`!%:R)^-1 (zero m)).
rewrite !scaler0 !addr0 => hh; apply: (JM_eq _ hh)=> s.
by rewrite addSn !addn2 /expop big_ord_recr.
Qed.
End Op.

(** Overlap ratio of one spin. *)
Section Spin.
Variables (F : numFieldType) (conj : {rmorphism F -> F}) (p n : nat).
Variables (W T : 'M[F]_(p, n)).
Hypothesis nz : ovlp_spin conj W T != 0.
Let Tt := (map_mx conj T)^T.
Let Gh := W *m invmx (Tt *m W).
Let G := gfull conj W T.

Lemma gT : G^T = Gh *m Tt.
Proof.
by rewrite /G gfullE !trmx_mul trmxK trmx_inv ovlp_matE trmx_mul trmxK mulmxA.
Qed.

Lemma ovlpE (V : 'M[F]_(p, n)) : ovlp_spin conj V T = \det (Tt *m V).
Proof. by rewrite /ovlp_spin ovlp_matE -det_tr trmx_mul trmxK. Qed.

Lemma unitTW : Tt *m W \in unitmx.
Proof. by rewrite unitmxE unitfE -ovlpE. Qed.

Lemma ratioE (O : 'M[F]_p) :
  ovlp_spin conj (O *m W) T / ovlp_spin conj W T = \det (Tt *m O *m Gh).
Proof.
by rewrite !ovlpE /Gh -det_inv -det_mulmx !mulmxA.
Qed.

Lemma spin_ratio (O : F -> 'M[F]_p) (A1 A2 : 'M[F]_p) : JM O 1%:M A1 A2 ->
  expands (fun s => ovlp_spin conj (O s *m W) T / ovlp_spin conj W T)
    1 (\tr (A1 *m G^T))
    (\tr (A2 *m G^T) + 2%:R^-1 * (\tr (A1 *m G^T) ^+ 2 - \tr (A1 *m G^T *m A1 *m G^T))).
Proof.
move=> h; have hh := JM_mul (JM_mul (JM_const Tt) h) (JM_const Gh).
move: hh; rewrite ?(mulmx0, mul0mx, addr0, add0r, mulmx1) => hh.
have K1 : Tt *m Gh = 1%:M by rewrite /Gh mulmxA mulmxV // unitTW.
rewrite K1 in hh; have := ex_det hh.
have tr1 (M : 'M[F]_p) : \tr (Tt *m M *m Gh) = \tr (M *m G^T).
  by rewrite gT -mulmxA mxtrace_mulC mulmxA.
have tr2 : \tr (Tt *m A1 *m Gh *m (Tt *m A1 *m Gh)) = \tr (A1 *m G^T *m A1 *m G^T).
  by rewrite gT -!mulmxA mxtrace_mulC !mulmxA.
rewrite !tr1 tr2 => H; apply: (ex_eq _ H)=> s; exact: ratioE.
Qed.

Lemma one_bodyE (M : 'M[F]_p) (H : 'M[F]_p) : one_body M H = \tr (M *m H^T).
Proof.
rewrite /one_body /mxtrace; apply: eq_bigr=> a _; rewrite mxE; apply: eq_bigr=> b _.
by rewrite mxE.
Qed.
End Spin.

Section Wick.
Variables (F : numFieldType) (p nf : nat) (L : 'I_nf -> 'M[F]_p).
Lemma directE (H : 'M[F]_p) : direct (eri L) H = \sum_g \tr (L g *m H^T) ^+ 2.
Proof.
transitivity (\sum_g \sum_a \sum_r \sum_b \sum_s (L g a r * L g b s) * H a r * H b s).
  rewrite /direct /eri [RHS]exchange_big /=; apply: eq_bigr=> a _.
  rewrite [RHS]exchange_big /=; apply: eq_bigr=> r _; rewrite [RHS]exchange_big /=; apply: eq_bigr=> b _.
  rewrite [RHS]exchange_big /=; apply: eq_bigr=> s _; by rewrite !mulr_suml.
apply: eq_bigr=> g _; rewrite -one_bodyE expr2 /one_body mulr_suml; apply: eq_bigr=> a _.
rewrite mulr_suml; apply: eq_bigr=> r _; rewrite mulr_sumr; apply: eq_bigr=> b _.
rewrite mulr_sumr; apply: eq_bigr=> s _.
by rewrite [L g a r * L g b s * _]mulrAC -!mulrA.
Qed.

Lemma exchangeE (H : 'M[F]_p) : exchange (eri L) H = \sum_g \tr (L g *m H^T *m L g *m H^T).
Proof.
transitivity (\sum_g \sum_a \sum_r \sum_b \sum_s (L g a r * L g b s) * H a s * H b r).
  rewrite /exchange /eri [RHS]exchange_big /=; apply: eq_bigr=> a _.
  rewrite [RHS]exchange_big /=; apply: eq_bigr=> r _; rewrite [RHS]exchange_big /=; apply: eq_bigr=> b _.
  rewrite [RHS]exchange_big /=; apply: eq_bigr=> s _; by rewrite !mulr_suml.
apply: eq_bigr=> g _; rewrite /mxtrace; apply: eq_bigr=> a _.
rewrite mxE exchange_big /=.
under [RHS]eq_bigr=> s _ do rewrite !mxE mulr_suml.
rewrite [RHS]exchange_big /=; apply: eq_bigr=> b _.
under [RHS]eq_bigr=> s _ do rewrite !mxE !mulr_suml.
rewrite [RHS]exchange_big /=; apply: eq_bigr=> r _; apply: eq_bigr=> s _.
rewrite !mxE -!mulrA; congr (_ * _).
by rewrite [in RHS]mulrCA; congr (_ * _); rewrite mulrC.
Qed.
End Wick.

Section AbsRing.
Variables (K : Type) (z o : K) (add mul sub : K -> K -> K) (opp : K -> K).
Variable RT : ring_theory z o add mul sub opp (@eq K).
Add Ring KRebs : RT.
Local Notation "x + y" := (add x y). Local Notation "x * y" := (mul x y).
Local Notation "x - y" := (sub x y). Local Notation "- x" := (opp x).
Lemma abs_second h al be c1 a2 b2 c2 xa xb : h + h = o -> al + be + c1 = z ->
  o * o * (c2 + h * (c1 * c1)) + (o * be + al * o) * c1
   + (o * (b2 + h * (be * be - xb)) + al * be + (a2 + h * (al * al - xa)) * o) * o
  = (a2 + b2) - h * (xa + xb) + c2.
Proof.
move=> h1 s0; have e : c1 = - (al + be).
  have -> : c1 = (al + be + c1) - (al + be) by ring.
  by rewrite s0; ring.
rewrite e; have -> : al * be = (h + h) * (al * be) by rewrite h1; ring.
have -> : (o * be + al * o) * - (al + be) = (h + h) * ((o * be + al * o) * - (al + be)) by rewrite h1; ring.
ring.
Qed.
Lemma abs_aop i s x b : (i * s) * (x - s * b) = i * x * s + - (i * b) * (s * s).
Proof. ring. Qed.
Lemma abs_exponent h s x b m :
  (x - h * (s * b)) * (s * b) + - s * ((x - s * b) * m)
  = x * (b - m) * s + ((b * m) * (s * s) - h * ((b * b) * (s * s))).
Proof. ring. Qed.
Lemma abs_collect h i ta tb va vb la lb xa xb c :
  (- ta - i * va - h * la + (- tb - i * vb - h * lb)) - h * (- xa + - xb) + c
  = - (ta + tb) - i * (va + vb) + c + h * ((xa + xb) - (la + lb)).
Proof. ring. Qed.
Lemma abs_pair h i ea eb la lb ma mb :
  (ea - h * la - i * ma) + (eb - h * lb - i * mb) = (ea + eb) - h * (la + lb) - i * (ma + mb).
Proof. ring. Qed.
Lemma abs_b1 i v m : - (i * v - m) * v = - (i * (v * v)) + m * v.
Proof. ring. Qed.
Lemma abs_b2 i v m : - (i * v - m) * - (i * v - m) = i * i * (v * v) - (o + o) * (i * (m * v)) + m * m.
Proof. ring. Qed.
Lemma abs_b3 i v m : - (i * v - m) * m = - (i * (m * v)) + m * m.
Proof. ring. Qed.
Lemma abs_rate i h e1 sll vv mm mv sx bv bb bm :
  h + h = o -> i * i = - o ->
  bv = - (i * vv) + mv -> bb = (i * i) * vv - (o + o) * (i * mv) + mm -> bm = - (i * mv) + mm ->
  - (e1 - h * sll - i * mv) - i * bv + (bm - h * bb) + h * (sx - sll) = - ((e1 + h * (vv - sx)) - h * mm).
Proof.
move=> h1 i2 -> -> ->.
have k1 : h + h - o = z by rewrite h1; ring.
have k2 : i * i + o = z by rewrite i2; ring.
set R := RHS; have -> : R = R + (h + h - o) * (vv + i * mv - mm) + (i * i + o) * ((o - h) * vv).
  by rewrite k1 k2; ring.
rewrite /R; ring.
Qed.
End AbsRing.

Section Core.
Variables (F : numFieldType) (conj : {rmorphism F -> F}) (im : F).
Variables (expm : forall n, 'M[F]_n -> 'M[F]_n) (expf : F -> F) (bound : F) (order : nat).
Hypotheses (Hi : im ^+ 2 = -1) (He : is_expm expm) (Hf : is_exp expf) (Hb : 0 < bound) (Ho : (1 < order)%N).
Variables (p nf na nb : nat) (L : 'I_nf -> 'M[F]_p).
Variables (Wa Ta : 'M[F]_(p, na)) (Wb Tb : 'M[F]_(p, nb)).
Hypotheses (nza : ovlp_spin conj Wa Ta != 0) (nzb : ovlp_spin conj Wb Tb != 0).
Let Ga := gfull conj Wa Ta.
Let Gb := gfull conj Wb Tb.
Let vb := vbias_uhf conj L Ta (ghalf conj Wa Ta) Tb (ghalf conj Wb Tb).
Let v (g : 'I_nf) : F := \tr (L g *m Ga^T) + \tr (L g *m Gb^T).

Lemma vbE g : vb g = v g.
Proof.
rewrite /vb (@vbias_uhf_green _ conj _ _ _ _ _ _ _ _ _ Ga Gb) ?slaterE //; try exact: gf_green.
by rewrite one_bodyE linearD mulmxDr mxtraceD.
Qed.

Variables (ta tb : 'M[F]_p) (mfs xi : 'I_nf -> F).
Let b (g : 'I_nf) : F := - (im * v g - mfs g).

Lemma rescale_small (g : 'I_nf) (s : F) : `|s| <= bound / (1 + \sum_g `|b g|) ->
  fbias im bound s vb mfs g = s * b g.
Proof.
move=> hs; have B1 : 0 < 1 + \sum_g `|b g|.
  by apply: ltr_paddr; rewrite ?ltr01 // sumr_ge0.
have bg : `|b g| <= 1 + \sum_g `|b g|.
  rewrite (bigD1 g) //= addrCA ler_addl addr_ge0 ?ler01 // sumr_ge0 //.
rewrite /fbias /xbar vbE.
have -> : - s * (im * v g - mfs g) = s * b g by rewrite /b mulrN mulNr.
rewrite /rescale; have -> : (bound < `|s * b g|) = false => //.
apply/negbTE; rewrite -real_leNgt ?realE ?normr_ge0 ?(ltW Hb) //.
rewrite normrM; apply: (@le_trans _ _ (`|s| * (1 + \sum_g `|b g|))); first by rewrite ler_wpmul2l.
by rewrite -ler_pdivl_mulr.
Qed.

Let A1 : 'M[F]_p := im *: \sum_g xi g *: L g.
Let A2 : 'M[F]_p := im *: \sum_g b g *: L g.
Let Aop (s : F) := eri_op im L s (fun g => xi g - s * b g).

Lemma Aop_jet : JM Aop 0 A1 (- A2).
Proof.
move=> i j; apply: ex_poly=> s; rewrite /Aop /eri_op /A1 /A2 !mxE !summxE add0r.
have -> : \sum_k ((xi k - s * b k) *: L k) i j
   = \sum_k (xi k *: L k) i j - s * \sum_k (b k *: L k) i j.
  by rewrite mulr_sumr -sumrB; apply: eq_bigr=> k _; rewrite !mxE mulrBl mulrA.
by rewrite expr2; exact: (abs_aop (frt F)).
Qed.

Let O t (s : F) : 'M[F]_p := exp_h1e expm s t *m expop (Aop s) order *m exp_h1e expm s t.
Let D t : 'M[F]_p := - t - A2 + 2%:R^-1 *: (A1 *m A1).

Lemma half_jet (t : 'M[F]_p) : JM (fun s => exp_h1e expm s t) 1%:M 0 (- (2%:R^-1 *: t)).
Proof.
have := expm_jet He t (- 2%:R^-1); rewrite scaleNr => h.
by apply: (JM_eq _ h)=> s; rewrite /exp_h1e mulNr mulrC.
Qed.

Lemma O_jet t : JM (O t) 1%:M A1 (D t).
Proof.
have := JM_mul (JM_mul (half_jet t) (expop_jet Ho Aop_jet)) (half_jet t).
rewrite ?(mulmx0, mul0mx, addr0, add0r, mulmx1, mul1mx).
have -> : - (2%:R^-1 *: t) + (- A2 + 2%:R^-1 *: (A1 *m A1) + - (2%:R^-1 *: t)) = D t => //.
rewrite addrCA -opprD -scalerDr -mulr2n -scaler_nat scalerA mulVf ?pnatr_eq0 // scale1r.
by rewrite /D addrC addrA.
Qed.

Let c1 : F := \sum_g xi g * (b g - mfs g).
Let c2 : F := \sum_g b g * mfs g - 2%:R^-1 * \sum_g b g ^+ 2.

Lemma exponentE (s : F) (xb : 'I_nf -> F) : (forall g, xb g = s * b g) ->
  cfb xi xb + cmf s xi xb mfs = 0 + c1 * s + c2 * s ^+ 2.
Proof.
move=> h; rewrite /cfb /cmf /xshift /c1 /c2 add0r mulrBl -mulrA !mulr_suml !mulr_sumr.
rewrite -sumrB -!big_split /=; apply: eq_bigr=> g _; rewrite h.
by rewrite !expr2; exact: (abs_exponent (frt F)).
Qed.

Lemma prop_spinE n (s : F) t (x y : 'I_nf -> F) (W : 'M[F]_(p, n)) : (forall g, x g = y g) ->
  prop_spin im order L s t x W = t *m expop (eri_op im L s y) order *m t *m W.
Proof.
move=> xy; rewrite /prop_spin propE !mulmxA; congr (_ *m _ *m _ *m _); congr (expop _ _).
by rewrite /eri_op; congr (_ *: _); apply: eq_bigr=> g _; rewrite xy.
Qed.

Let M (g h : 'I_nf) : F := 2%:R^-1 *
  ((\tr (L g *m Ga^T *m L h *m Ga^T) + \tr (L g *m Gb^T *m L h *m Gb^T))
   - (\tr (L g *m L h *m Ga^T) + \tr (L g *m L h *m Gb^T))).
Let k0 : F := - (\tr (ta *m Ga^T) + \tr (tb *m Gb^T)) - im * (\sum_g b g * v g) + c2.

Lemma lin_cancel : \tr (A1 *m Ga^T) + \tr (A1 *m Gb^T) + c1 = 0.
Proof.
rewrite /A1 -!scalemxAl !mxtraceZ -mulrDr !mulmx_suml !raddf_sum /= -big_split /= mulr_sumr.
rewrite /c1 -big_split /=; apply: big1=> g _.
rewrite -!scalemxAl !mxtraceZ -mulrDr -/(v g) /b opprB mulrCA -mulrDr.
by rewrite [mfs g - _]addrC -[_ + mfs g - _]addrA subrr addr0 subrr mulr0.
Qed.

Let fac (s : F) : F :=
  let '(o, cf, cm) := uhf_step conj im expm bound order L s ta tb mfs xi Wa Ta Wb Tb in
  factor expf (ovlp_spin conj Wa Ta * ovlp_spin conj Wb Tb) o cf cm.

Lemma quad_tr (N : 'M[F]_p -> 'M[F]_p -> F) :
  (forall y, {morph (N^~ y) : x z / x + z}) -> (forall x, {morph (N x) : y z / y + z}) ->
  (forall c x y, N (c *: x) y = c * N x y) -> (forall c x y, N x (c *: y) = c * N x y) ->
  N A1 A1 = - \sum_g \sum_h xi g * xi h * N (L g) (L h).
Proof.
move=> al ar sl sr; rewrite /A1 sl sr mulrA -expr2 Hi mulN1r; congr (- _).
have z1 y : N 0 y = 0 by rewrite -(scale0r 0) sl mul0r.
have z2 x : N x 0 = 0 by rewrite -(scale0r 0) sr mul0r.
rewrite (big_morph (fun x => N x (\sum_g xi g *: L g)) (al _) (z1 _)); apply: eq_bigr=> g _.
rewrite (big_morph (N (xi g *: L g)) (ar _) (z2 _)); apply: eq_bigr=> h _.
by rewrite sl sr mulrA.
Qed.

Lemma fac_expands : expands fac 1 0 (k0 + \sum_g \sum_h xi g * xi h * M g h).
Proof.
have B1 : 0 < 1 + \sum_g `|b g| by apply: ltr_paddr; rewrite ?ltr01 // sumr_ge0.
have ra := spin_ratio nza (O_jet ta); have rb := spin_ratio nzb (O_jet tb).
have ex : expands (fun s => expf (0 + c1 * s + c2 * s ^+ 2)) 1 c1 (c2 + 2%:R^-1 * c1 ^+ 2).
  by apply: expf_jet=> //; apply: ex_poly.
have := ex_mul (ex_mul ra rb) ex; rewrite -/Ga -/Gb; set X := (X in expands X _ _ _).
set q0 := 1 * 1 * 1; set q1 := 1 * 1 * c1 + _; set q2 := 1 * 1 * (c2 + _) + _ + _ => hh.
have e0 : q0 = 1 by rewrite /q0 !mulr1.
have e1 : q1 = 0 by rewrite /q1 !mul1r !mulr1 addrC [\tr (_ *m Gb^T) + _]addrC; exact: lin_cancel.
have e2 : q2 = k0 + \sum_g \sum_h xi g * xi h * M g h.
  have -> : q2 = (\tr (D ta *m Ga^T) + \tr (D tb *m Gb^T))
     - 2%:R^-1 * (\tr (A1 *m Ga^T *m A1 *m Ga^T) + \tr (A1 *m Gb^T *m A1 *m Gb^T)) + c2.
    apply: (@abs_second _ _ _ _ _ _ _ (frt F) 2%:R^-1 _ _ c1 _ _ _ _ _ _ lin_cancel).
    by apply: half2; rewrite pnatr_eq0.
  have Q1 (H : 'M[F]_p) : \tr (A1 *m A1 *m H) = - \sum_g \sum_h xi g * xi h * \tr (L g *m L h *m H).
    apply: (quad_tr (N := fun x y => \tr (x *m y *m H))).
    - by move=> y x z /=; rewrite !mulmxDl mxtraceD.
    - by move=> x y z /=; rewrite mulmxDr mulmxDl mxtraceD.
    - by move=> c x y; rewrite -!scalemxAl mxtraceZ.
    - by move=> c x y; rewrite -scalemxAr -scalemxAl mxtraceZ.
  have Q2 (H : 'M[F]_p) : \tr (A1 *m H *m A1 *m H) = - \sum_g \sum_h xi g * xi h * \tr (L g *m H *m L h *m H).
    apply: (quad_tr (N := fun x y => \tr (x *m H *m y *m H))).
    - by move=> y x z /=; rewrite !mulmxDl mxtraceD.
    - by move=> x y z /=; rewrite mulmxDr mulmxDl mxtraceD.
    - by move=> c x y; rewrite -!scalemxAl mxtraceZ.
    - by move=> c x y; rewrite -scalemxAr -scalemxAl mxtraceZ.
  have tD t (H : 'M[F]_p) : \tr (D t *m H) = - \tr (t *m H) - im * (\sum_g b g * \tr (L g *m H))
      - 2%:R^-1 * (\sum_g \sum_h xi g * xi h * \tr (L g *m L h *m H)).
    rewrite /D !mulmxDl !mxtraceD !mulNmx !raddfN /= -[(_ *: (A1 *m A1)) *m H]scalemxAl mxtraceZ Q1 mulrN; congr (_ + _).
    congr (_ + - _); rewrite /A2 -scalemxAl mxtraceZ mulmx_suml raddf_sum /=; congr (_ * _).
    by apply: eq_bigr=> g _; rewrite -scalemxAl mxtraceZ.
  rewrite !tD !Q2 /k0.
  have -> : \sum_g \sum_h xi g * xi h * M g h = 2%:R^-1 *
     ((\sum_g \sum_h xi g * xi h * \tr (L g *m Ga^T *m L h *m Ga^T)
       + \sum_g \sum_h xi g * xi h * \tr (L g *m Gb^T *m L h *m Gb^T))
      - (\sum_g \sum_h xi g * xi h * \tr (L g *m L h *m Ga^T)
       + \sum_g \sum_h xi g * xi h * \tr (L g *m L h *m Gb^T))).
    rewrite -!big_split /= -sumrB mulr_sumr; apply: eq_bigr=> g _.
    rewrite -!big_split /= -sumrB mulr_sumr; apply: eq_bigr=> h _.
    by rewrite /M -!mulrDr -mulrBr mulrCA.
  have -> : \sum_g b g * v g = \sum_g b g * \tr (L g *m Ga^T) + \sum_g b g * \tr (L g *m Gb^T).
    by rewrite -big_split /=; apply: eq_bigr=> g _; rewrite -mulrDr.
  exact: (abs_collect (frt F)).
rewrite e0 e1 e2 in hh; apply: (ex_ext (d := bound / (1 + \sum_g `|b g|)) _ _ hh).
  by rewrite divr_gt0.
move=> s hs; have xbE g := rescale_small g hs.
rewrite /fac /uhf_step -/vb /factor (exponentE xbE) /X.
rewrite !(prop_spinE _ _ (y := fun g => xi g - s * b g)) => [|g|g]; try by rewrite /xshift xbE.
by rewrite invfM mulrACA.
Qed.
End Core.

Section Averages.
Variables (F : numFieldType) (nf : nat) (E : (('I_nf -> F) -> F) -> F).
Hypothesis HE : unit_fields E.
Lemma avg_const c : E (fun=> c) = c.
Proof.
by rewrite -[RHS]mulr1 -(avg_one HE) -(avg_scale HE); apply: (avg_ext HE)=> x; rewrite mulr1.
Qed.
Lemma avg_sum (I : Type) (r : seq I) (f : I -> ('I_nf -> F) -> F) :
  E (fun x => \sum_(i <- r) f i x) = \sum_(i <- r) E (f i).
Proof.
elim: r => [|i r IH]; first by rewrite big_nil -[RHS](avg_const 0); apply: (avg_ext HE)=> x; rewrite big_nil.
by rewrite big_cons -IH -(avg_add HE); apply: (avg_ext HE)=> x; rewrite big_cons.
Qed.
Lemma avg_quad (M : 'I_nf -> 'I_nf -> F) :
  E (fun x => \sum_g \sum_h x g * x h * M g h) = \sum_g M g g.
Proof.
rewrite avg_sum; apply: eq_bigr=> g _; rewrite avg_sum (bigD1 g) //= [X in _ + X]big1.
  rewrite addr0 (@avg_ext _ _ _ HE _ (fun x => M g g * (x g * x g))) => [|x]; last by rewrite mulrC.
  by rewrite (avg_scale HE) (avg_cov HE) eqxx mulr1.
move=> h hg; rewrite (@avg_ext _ _ _ HE _ (fun x => M g h * (x g * x h))) => [|x]; last by rewrite mulrC.
by rewrite (avg_scale HE) (avg_cov HE) eq_sym (negbTE hg) mulr0.
Qed.
End Averages.

Section Rate.
Variables (F : numFieldType) (conj : {rmorphism F -> F}) (im : F).
Variables (p nf : nat) (L : 'I_nf -> 'M[F]_p).
Hypotheses (Hi : im ^+ 2 = -1) (HL : forall g, map_mx conj (L g) = L g).
Variables (ha hb rho Ga Gb : 'M[F]_p).
Let mfs := mf_shift im L rho.
Let v (g : 'I_nf) : F := \tr (L g *m Ga^T) + \tr (L g *m Gb^T).
Let b (g : 'I_nf) : F := - (im * v g - mfs g).
Definition qcoef (ta tb : 'M[F]_p) : F :=
  - (\tr (ta *m Ga^T) + \tr (tb *m Gb^T)) - im * (\sum_g b g * v g)
  + (\sum_g b g * mfs g - 2%:R^-1 * \sum_g b g ^+ 2).
Definition qmat (g h : 'I_nf) : F := 2%:R^-1 *
  ((\tr (L g *m Ga^T *m L h *m Ga^T) + \tr (L g *m Gb^T *m L h *m Gb^T))
   - (\tr (L g *m L h *m Ga^T) + \tr (L g *m L h *m Gb^T))).

Lemma tr_shift (h H : 'M[F]_p) : \tr (shifted_h1e conj im L h rho *m H) =
  \tr (h *m H) - 2%:R^-1 * (\sum_g \tr (L g *m L g *m H)) - im * (\sum_g mfs g * \tr (L g *m H)).
Proof.
rewrite /shifted_h1e !mulmxBl !raddfB /= -scalemxAl mxtraceZ; congr (_ - _ - _).
  have -> : trace_eri conj L = \sum_g L g *m L g.
    apply/matrixP=> i j; rewrite mxE summxE; apply: eq_bigr=> g _; rewrite mxE; apply: eq_bigr=> r _.
    by have /matrixP /(_ i r) := HL g; rewrite mxE => ->.
  by rewrite mulmx_suml raddf_sum.
rewrite mulmx_suml raddf_sum /= mulr_sumr; apply: eq_bigr=> g _.
by rewrite -!scalemxAl !mxtraceZ mulrCA.
Qed.

Lemma qrate : qcoef (shifted_h1e conj im L ha rho) (shifted_h1e conj im L hb rho) + \sum_g qmat g g
  = - (electronic L ha hb Ga Gb + 2%:R^-1 * \sum_g one_body (L g) rho ^+ 2).
Proof.
have mmE : \sum_g mfs g ^+ 2 = - \sum_g one_body (L g) rho ^+ 2.
  by rewrite -sumrN; apply: eq_bigr=> g _; rewrite exprMn Hi mulN1r.
rewrite -[\sum_g one_body _ rho ^+ 2]opprK -mmE mulrN /electronic directE !exchangeE !one_bodyE.
rewrite /qcoef !tr_shift.
have -> : \sum_g qmat g g = 2%:R^-1 * ((\sum_g \tr (L g *m Ga^T *m L g *m Ga^T) + \sum_g \tr (L g *m Gb^T *m L g *m Gb^T))
   - (\sum_g \tr (L g *m L g *m Ga^T) + \sum_g \tr (L g *m L g *m Gb^T))).
  by rewrite -!big_split -sumrB mulr_sumr.
have -> : \sum_g \tr (L g *m (Ga + Gb)^T) ^+ 2 = \sum_g v g ^+ 2.
  by apply: eq_bigr=> g _; rewrite linearD mulmxDr mxtraceD.
rewrite [(_ - _ - _) + (_ - _ - _)](abs_pair (frt F)).
rewrite -(big_split _ _ _ (fun g => mfs g * \tr (L g *m Ga^T))) /=.
have -> : \sum_g (mfs g * \tr (L g *m Ga^T) + mfs g * \tr (L g *m Gb^T)) = \sum_g mfs g * v g.
  by apply: eq_bigr=> g _; rewrite -mulrDr.
apply: (abs_rate (frt F)).
- by apply: half2; rewrite pnatr_eq0.
- by rewrite -expr2.
- rewrite mulr_sumr -sumrN -big_split /=; apply: eq_bigr=> g _; exact: (abs_b1 (frt F)).
- rewrite !mulr_sumr -sumrB -big_split /=; apply: eq_bigr=> g _; exact: (abs_b2 (frt F)).
- rewrite mulr_sumr -sumrN -big_split /=; apply: eq_bigr=> g _; exact: (abs_b3 (frt F)).
Qed.
End Rate.
