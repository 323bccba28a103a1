(** Proofs about whole propagation steps: rates of decay, closed shells, the
    coupled step. *)
From mathcomp Require Import all_ssreflect all_fingroup all_algebra all_field.
From Verif Require Import LinModel LinSpec LinProofs EBModel EbsModel EbsSpec EbsProofs EbsMore.
Set Implicit Arguments.
Unset Strict Implicit.
Unset Printing Implicit Defensive.
Import Order.TTheory GRing.Theory Num.Theory.
Local Open Scope ring_scope.

Section Rates.
Variables (F : numFieldType) (conj : {rmorphism F -> F}) (im : F).
Variables (expm : forall n, 'M[F]_n -> 'M[F]_n) (expf : F -> F) (bound : F) (order : nat).
Hypotheses (Hi : im ^+ 2 = -1) (He : is_expm expm) (Hf : is_exp expf) (Hb : 0 < bound) (Ho : (1 < order)%N).
Variables (p nf na nb : nat) (L : 'I_nf -> 'M[F]_p).
Hypothesis HL : forall g, map_mx conj (L g) = L g.
Variables (Wa Ta : 'M[F]_(p, na)) (Wb Tb : 'M[F]_(p, nb)) (Ga Gb : 'M[F]_p).
Hypotheses (nza : slater conj Ta Wa != 0) (nzb : slater conj Tb Wb != 0).
Hypotheses (Hga : is_green conj Ta Wa Ga) (Hgb : is_green conj Tb Wb Gb).

Let rho := rho_uhf conj Ta Tb.
Let fac ta tb mfs xi (s : F) : F :=
  let '(o, cf, cm) := uhf_step conj im expm bound order L s ta tb mfs xi Wa Ta Wb Tb in
  factor expf (ovlp_spin conj Wa Ta * ovlp_spin conj Wb Tb) o cf cm.

Lemma fac_rate E ha hb : unit_fields E ->
  exists c : ('I_nf -> F) -> F,
    (forall xi, decays_at (fac (shifted_h1e conj im L ha rho) (shifted_h1e conj im L hb rho) (mf_shift im L rho) xi) (c xi))
    /\ E c = electronic L ha hb Ga Gb + 2%:R^-1 * (\sum_g one_body (L g) rho ^+ 2).
Proof.
move=> HE; have ga : Ga = gfull conj Wa Ta by apply/gf_response.
have gb : Gb = gfull conj Wb Tb by apply/gf_response.
have na' := nza; have nb' := nzb; rewrite slaterE in na'; rewrite slaterE in nb'.
pose ta := shifted_h1e conj im L ha rho; pose tb := shifted_h1e conj im L hb rho.
pose q xi := qcoef im L rho Ga Gb ta tb + \sum_g \sum_h xi g * xi h * qmat L Ga Gb g h.
exists (fun xi => - q xi); split.
  move=> xi; rewrite /decays_at opprK /q ga gb.
  exact: (fac_expands Hi He Hf Hb Ho L na' nb' ta tb (mf_shift im L rho) xi).
have -> : E (fun xi => - q xi) = - E q.
  by rewrite -mulN1r -(avg_scale HE); apply: (avg_ext HE)=> x; rewrite mulN1r.
rewrite /q (avg_add HE) (avg_const HE) (avg_quad HE) /ta /tb.
by rewrite (qrate Hi HL) opprK.
Qed.

Lemma uhf_rate E ha hb : unit_fields E ->
  exists c : ('I_nf -> F) -> F,
    (forall xi, decays_at (uhf_factor conj im expm expf bound order L ha hb Wa Ta Wb Tb xi) (c xi))
    /\ E c = electronic L ha hb Ga Gb + 2%:R^-1 * (\sum_g one_body (L g) rho ^+ 2).
Proof. by move=> HE; have := fac_rate ha hb HE. Qed.

Lemma rule_expands (ws : seq (F * ('I_nf -> F))) (f : ('I_nf -> F) -> F -> F) (a b c : ('I_nf -> F) -> F) :
  (forall xi, expands (f xi) (a xi) (b xi) (c xi)) ->
  expands (fun s => rule ws (fun xi => f xi s)) (rule ws a) (rule ws b) (rule ws c).
Proof.
move=> h; apply: (@ex_sum F _ ws xpredT (fun (w : F * ('I_nf -> F)) s => w.1 * f w.2 s)
  (fun w => w.1 * a w.2) (fun w => w.1 * b w.2) (fun w => w.1 * c w.2)) => w _.
exact: ex_scale.
Qed.

Lemma rule_rate (ws : seq (F * ('I_nf -> F))) (f : ('I_nf -> F) -> F -> F) (c : ('I_nf -> F) -> F) r :
  unit_fields (rule ws) -> (forall xi, decays_at (f xi) (c xi)) -> rule ws c = r ->
  decays_at (fun s => rule ws (fun xi => f xi s)) r.
Proof.
move=> HE h <-; have := rule_expands ws h.
have -> : rule ws (fun=> 1) = 1 by exact: (avg_one HE).
have -> : rule ws (fun=> 0) = 0 by exact: (avg_const HE).
rewrite /decays_at; have -> // : rule ws (fun xi => - c xi) = - rule ws c.
by rewrite /rule -sumrN; apply: eq_bigr=> w _; rewrite mulrN.
Qed.

Lemma uhf_rule_rate (ws : seq (F * ('I_nf -> F))) ha hb : unit_fields (rule ws) ->
  decays_at (fun s => rule ws (fun xi => uhf_factor conj im expm expf bound order L ha hb Wa Ta Wb Tb xi s))
    (electronic L ha hb Ga Gb + 2%:R^-1 * (\sum_g one_body (L g) rho ^+ 2)).
Proof. by move=> HE; have [c [h1 h2]] := uhf_rate ha hb HE; apply: (rule_rate HE h1). Qed.

(** The coupled step *)
Variables (d nm : nat) (geb : 'I_nm -> 'M[F]_p) (phi psi : 'cV[F]_d).
Hypothesis nzp : bovlp conj phi psi != 0.

Lemma JM_col (O : F -> 'M[F]_d) A1 A2 : JM O 1%:M A1 A2 ->
  expands (fun s => bovlp conj (O s *m phi) psi / bovlp conj phi psi) 1
    (mixed conj psi phi A1) (mixed conj psi phi A2).
Proof.
move=> h; pose k := (bovlp conj phi psi)^-1.
have h1 := JM_mul h (JM_const phi).
rewrite ?(mulmx0, mul0mx, addr0, add0r, mul1mx) in h1.
have mE (A : 'M[F]_d) : mixed conj psi phi A = k * \sum_i conj (psi i 0) * (A *m phi) i 0.
  rewrite /mixed mulrC; congr (_ * _); last first.
    by apply: eq_bigr=> i _; rewrite mxE mulr_sumr; apply: eq_bigr=> j _; rewrite mulrA.
  by rewrite /k /bovlp /boson_ovlp; congr (_^-1); apply: eq_bigr=> i _; rewrite mulrC.
have one : 1 = k * \sum_i conj (psi i 0) * phi i 0.
  rewrite /k -[LHS](mulVf nzp); congr (_ * _).
  by rewrite /bovlp /boson_ovlp; apply: eq_bigr=> i _; rewrite mulrC.
rewrite !mE one; apply: (ex_eq (g := fun s => k * \sum_i conj (psi i 0) * (O s *m phi) i 0)).
  move=> s; rewrite mulrC; congr (_ * _).
  by rewrite /bovlp /boson_ovlp; apply: eq_bigr=> i _; rewrite mulrC.
apply: ex_scale; apply: (@ex_sum F _ (index_enum _) xpredT (fun i s => conj (psi i 0) * (O s *m phi) i 0)
  (fun i => conj (psi i 0) * phi i 0) (fun i => conj (psi i 0) * (A1 *m phi) i 0)
  (fun i => conj (psi i 0) * (A2 *m phi) i 0)) => i _.
by apply: ex_scale; exact: h1.
Qed.

Lemma boson_rate first (HB HZ : 'M[F]_d) :
  decays_at (fun s => bovlp conj (boson_step expm first s HB HZ phi) psi / bovlp conj phi psi)
    ((if first then 0 else mixed conj psi phi HB) + mixed conj psi phi HZ).
Proof.
have mD A B : mixed conj psi phi (A + B) = mixed conj psi phi A + mixed conj psi phi B.
  rewrite /mixed -mulrDl -big_split /=; congr (_ / _); apply: eq_bigr=> i _.
  by rewrite -big_split /=; apply: eq_bigr=> j _; rewrite mxE mulrDr mulrDl.
have mN A : mixed conj psi phi (- A) = - mixed conj psi phi A.
  rewrite /mixed -mulNr -sumrN; congr (_ / _); apply: eq_bigr=> i _.
  by rewrite -sumrN; apply: eq_bigr=> j _; rewrite mxE mulrN mulNr.
have m0 : mixed conj psi phi 0 = 0.
  by rewrite /mixed big1 ?mul0r // => i _; rewrite big1 // => j _; rewrite mxE mulr0 mul0r.
have jz := expm_jet He HZ (-1); rewrite scaleN1r in jz.
have jb := expm_jet He HB (- 2%:R^-1); rewrite scaleNr in jb.
case: first.
  rewrite add0r /decays_at -mN -[X in expands _ _ X]m0.
  apply: (ex_eq (g := fun s => bovlp conj (expm ((-1) * s ^+ 2 *: HZ) *m phi) psi / bovlp conj phi psi)).
    by move=> s; rewrite /boson_step /free_bosons /bilinear_bosons mulN1r.
  exact: (JM_col jz).
rewrite /decays_at -mD -mN -[X in expands _ _ X]m0.
pose O s := expm (- 2%:R^-1 * s ^+ 2 *: HB) *m expm ((-1) * s ^+ 2 *: HZ) *m expm (- 2%:R^-1 * s ^+ 2 *: HB).
apply: (ex_eq (g := fun s => bovlp conj (O s *m phi) psi / bovlp conj phi psi)).
  by move=> s; rewrite /boson_step /free_bosons /bilinear_bosons /O mulN1r !mulNr !mulmxA.
apply: JM_col; have := JM_mul (JM_mul jb jz) jb.
rewrite ?(mulmx0, mul0mx, addr0, add0r, mulmx1, mul1mx) /O.
have -> // : - (2%:R^-1 *: HB) + (- HZ - 2%:R^-1 *: HB) = - (HB + HZ).
rewrite addrCA -opprD -scalerDl half2 ?pnatr_eq0 // scale1r addrC -opprD.
by rewrite addrC.
Qed.

Lemma shifted_add (h x : 'M[F]_p) : shifted_h1e conj im L (h + x) rho = shifted_h1e conj im L h rho + x.
Proof. by rewrite /shifted_h1e -!addrA; congr (_ + _); rewrite addrC -addrA. Qed.

Lemma coupled_rate E first ha hb Q HB HZ : unit_fields E ->
  exists c : ('I_nf -> F) -> F,
    (forall xi, decays_at (coupled_factor conj im expm expf bound order L geb false first ha hb Q HB HZ
                   Wa Ta Wb Tb phi psi xi) (c xi))
    /\ E c = electronic L (ha + oei Q geb) (hb + oei Q geb) Ga Gb + 2%:R^-1 * (\sum_g one_body (L g) rho ^+ 2)
             + ((if first then 0 else mixed conj psi phi HB) + mixed conj psi phi HZ).
Proof.
move=> HE; have [c [h1 h2]] := fac_rate (ha + oei Q geb) (hb + oei Q geb) HE.
set r := (if first then 0 else mixed conj psi phi HB) + mixed conj psi phi HZ.
exists (fun xi => c xi + r); split; last by rewrite -h2 -[in RHS](avg_const HE r) -(avg_add HE).
move=> xi; have := ex_mul (h1 xi) (boson_rate first HB HZ).
rewrite !(mulr0, mul0r, addr0, add0r, mul1r, mulr1) -/r => h.
rewrite /decays_at opprD addrC; apply: (ex_eq _ h)=> s.
rewrite /coupled_factor /fac /= !shifted_add /uhf_step /factor.
by rewrite invfM [RHS]mulrAC; congr (_ * _); rewrite mulrACA.
Qed.

Lemma coupled_off first ha hb Q HB HZ xi s :
  coupled_factor conj im expm expf bound order L geb true first ha hb Q HB HZ Wa Ta Wb Tb phi psi xi s
  = uhf_factor conj im expm expf bound order L ha hb Wa Ta Wb Tb xi s.
Proof. by rewrite /coupled_factor /uhf_factor !addr0. Qed.

Lemma electronic_oei ha hb Q : electronic L (ha + oei Q geb) (hb + oei Q geb) Ga Gb
  = electronic L ha hb Ga Gb + \sum_a Q a * one_body (geb a) (Ga + Gb).
Proof.
rewrite /electronic !one_bodyE !mulmxDl !mxtraceD.
have -> : \sum_a Q a * one_body (geb a) (Ga + Gb) = \tr (oei Q geb *m Ga^T) + \tr (oei Q geb *m Gb^T).
  rewrite /oei !mulmx_suml !raddf_sum -big_split /=; apply: eq_bigr=> a _.
  by rewrite one_bodyE linearD mulmxDr mxtraceD mulrDr -!scalemxAl !mxtraceZ.
by rewrite addrACA [RHS]addrAC.
Qed.
End Rates.

Section Closed.
Variables (F : numFieldType) (conj : {rmorphism F -> F}) (im : F).
Variables (expm : forall n, 'M[F]_n -> 'M[F]_n) (expf : F -> F) (bound : F) (order : nat).
Lemma rhf_uhf p nf n (L : 'I_nf -> 'M[F]_p) h (W T : 'M[F]_(p, n)) xi s :
  rhf_factor conj im expm expf bound order L h W T xi s
  = uhf_factor conj im expm expf bound order L h h W T W T xi s.
Proof.
have e : rho_rhf conj T = rho_uhf conj T T by rewrite /rho_rhf /rho_uhf -mulr2n scaler_nat.
rewrite /rhf_factor /uhf_factor e /rhf_step /uhf_step.
set b1 := fbias _ _ _ _ _; set b2 := fbias _ _ _ _ _.
have [_ _ h3] := closed_shell conj L h 0 W T.
have bE g : b1 g = b2 g by rewrite /b1 /b2 /fbias /xbar h3.
have xE g : xshift xi b1 g = xshift xi b2 g by rewrite /xshift bE.
have -> : cfb xi b1 = cfb xi b2 by apply: eq_bigr=> g _; rewrite bE.
have -> : cmf s xi b1 (mf_shift im L (rho_uhf conj T T)) = cmf s xi b2 (mf_shift im L (rho_uhf conj T T)).
  by congr (_ * _); apply: eq_bigr=> g _; rewrite xE.
by rewrite (prop_spinE _ _ _ _ _ _ xE) (prop_spinE _ _ _ _ _ _ (y := xshift xi b2)).
Qed.
End Closed.

(** The coupling is counted twice *)
Section Twice.
Variables (F : numFieldType) (conj : {rmorphism F -> F}) (im : F) (sq : nat -> F).
Hypotheses (Hi : im ^+ 2 = -1) (Hs : sq 1 = 1).
Variables (expm : forall n, 'M[F]_n -> 'M[F]_n) (expf : F -> F) (bound : F) (order : nat).
Hypotheses (He : is_expm expm) (Hf : is_exp expf) (Hb : 0 < bound) (Ho : (1 < order)%N).
Definition ex_phi : 'cV[F]_2 := \col_i (if i == 0 then 3%:R / 5%:R else 4%:R / 5%:R).
Definition ex_g : 'I_1 -> 'M[F]_1 := fun=> 1%:M.
Definition ex_L : 'I_0 -> 'M[F]_1 := fun=> 0.
Definition ex_Q : 'I_1 -> F := fun=> qalpha conj sq [:: (1, fun k => ex_phi k 0)].
Definition ex_z : F := zlambda (EBModel.rho [:: (1, gf_total_uhf (1%:M : 'M[F]_1) 1%:M)]) ex_g 0.
Definition ex_HZ : 'M[F]_2 := fock 2 (boson_adag_plus_a sq [:: (2%N, ex_z)]).
Definition ex_HB (w : F) : 'M[F]_2 := fock 2 (free_matrix [:: (2%N, w)] 2).

Lemma no_fields : unit_fields (fun f : ('I_0 -> F) -> F => f (fun=> 0)).
Proof. by split=> // -[]. Qed.

Lemma conj_frac a b : conj (a%:R / b%:R) = a%:R / b%:R.
Proof. by rewrite rmorphM fmorphV !rmorph_nat. Qed.

Lemma ex_norm : \sum_k ex_phi k 0 * conj (ex_phi k 0) = 1.
Proof.
rewrite !big_ord_recl big_ord0 /= !mxE /= !conj_frac addr0 !mulf_div -mulrDl.
by rewrite -!natrM -natrD divff // pnatr_eq0.
Qed.

Lemma ex_Qval : ex_Q 0 = 24%:R / 25%:R.
Proof.
rewrite /ex_Q /qalpha !big_ord_recl !big_ord0 /= !big_seq1 /= /h_od /lower /= !mxE /= !conj_frac.
rewrite !(addr0, add0r, mul0r, mul1r, divr1) Hs !mul1r !mulf_div -mulrDl -!natrM -natrD.
by [].
Qed.

Lemma ex_green : is_green conj (1%:M : 'M[F]_1) 1%:M 1%:M.
Proof.
have nz : slater conj (1%:M : 'M[F]_1) 1%:M != 0.
  by rewrite /slater map_mx1 trmx1 mul1mx det1 oner_eq0.
apply/(gf_response _ nz).
have o1 : ovlp_mat conj (1%:M : 'M[F]_1) 1%:M = 1%:M.
  by apply/matrixP=> k l; rewrite !ord1 mxE big_ord1 !mxE eqxx rmorph1 mulr1.
have g1 : ghalf conj (1%:M : 'M[F]_1) 1%:M = 1%:M.
  by apply/matrixP=> k l; rewrite !ord1 mxE big_ord1 o1 invmx1 !mxE eqxx mulr1.
apply/matrixP=> i j; rewrite !ord1 [RHS]mxE big_ord1 g1 !mxE eqxx rmorph1 mulr1 //.
Qed.

Definition ex_once (w : F) : F :=
  electronic ex_L 0 0 1%:M 1%:M + mixed conj ex_phi ex_phi (ex_HB w) + mixed conj ex_phi ex_phi ex_HZ.

Lemma twice w : ~ decays_at (coupled_factor conj im expm expf bound order ex_L ex_g false false 0 0 ex_Q
    (ex_HB w) ex_HZ (1%:M : 'M[F]_1) 1%:M (1%:M : 'M[F]_1) 1%:M ex_phi ex_phi (fun=> 0)) (ex_once w).
Proof.
have nz : slater conj (1%:M : 'M[F]_1) 1%:M != 0.
  by rewrite /slater map_mx1 trmx1 mul1mx det1 oner_eq0.
have HL : forall g, map_mx conj (ex_L g) = ex_L g by case.
have nzp : bovlp conj ex_phi ex_phi != 0 by rewrite /bovlp /boson_ovlp ex_norm oner_eq0.
have [c [h1 h2]] := coupled_rate Hi He Hf Hb Ho HL nz nz ex_green ex_green ex_g nzp false 0 0 ex_Q (ex_HB w) ex_HZ no_fields.
move=> h; have := decays_unique h (h1 (fun=> 0)); rewrite h2 electronic_oei big_ord0 mulr0 addr0 big_ord1 /ex_once.
rewrite -addrA [X in _ = X -> _]addrAC => /eqP; rewrite -subr_eq0 opprD addrA subrr add0r oppr_eq0.
rewrite /ex_g /one_body !big_ord1 !mxE eqxx mul1r ex_Qval.
by rewrite -mulr2n !mulf_eq0 invr_eq0 !pnatr_eq0.
Qed.

Lemma twice_val : mixed conj ex_phi ex_phi ex_HZ = 48%:R / 25%:R.
Proof.
rewrite /mixed.
have -> : \sum_i conj (ex_phi i 0) * ex_phi i 0 = 1 by rewrite -[RHS]ex_norm; apply: eq_bigr=> i _; rewrite mulrC.
rewrite divr1 !big_ord_recl !big_ord0 /ex_HZ /fock /boson_adag_plus_a /= /h_od /lower !mxE /=.
rewrite !conj_frac /ex_z /zlambda !big_ord1 /EBModel.rho !big_seq1 /gf_total_uhf /ex_g !mxE eqxx.
rewrite !(addr0, add0r, mul0r, mulr0, mul1r, mulr1, divr1, invr1) Hs !mul1r -mulr2n.
rewrite -[2%:R]divr1 !mulf_div -!natrM -?mulrDl -?natrD mulr1.
by rewrite -natrM.
Qed.
End Twice.

(** The contracts can be met: truncated series, and one field of values 1 and -1. *)
Section Instances.
Variable F : numFieldType.
Definition expm1 n (A : 'M[F]_n) : 'M[F]_n := 1%:M + A.
Definition exp2 (c : F) : F := 1 + c + c ^+ 2 / 2%:R.
Lemma expm1_ok : is_expm expm1.
Proof.
move=> n A; exists 0, 1; split; rewrite ?ltr01 // => t _ i j.
by rewrite subrr normr0 mul0r.
Qed.
Lemma exp2_ok : is_exp exp2.
Proof. by exists 0, 1; split; rewrite ?ltr01 // => c _; rewrite subrr normr0 mul0r. Qed.
Definition coin : seq (F * ('I_1 -> F)) := [:: (2%:R^-1, fun=> 1); (2%:R^-1, fun=> -1)].
Lemma coin_ok : unit_fields (rule coin).
Proof.
have h2 : 2%:R^-1 + 2%:R^-1 = 1 :> F by apply: half2; rewrite pnatr_eq0.
have rE f : rule coin f = 2%:R^-1 * f (fun=> 1) + 2%:R^-1 * f (fun=> -1).
  by rewrite /rule !big_cons big_nil addr0.
split.
- by move=> f g; rewrite !rE !mulrDr addrACA.
- by move=> c f; rewrite !rE mulrDr !mulrA ![_ * c]mulrC.
- by move=> f g e; rewrite !rE !e.
- by rewrite rE !mulr1.
- by move=> g; rewrite rE mulr1 mulrN1 subrr.
- by move=> g h; rewrite rE !ord1 eqxx mulrNN !mulr1.
Qed.
End Instances.

Lemma uhf_reported (F : numFieldType) (conj : {rmorphism F -> F}) (im : F)
  (expm : forall n, 'M[F]_n -> 'M[F]_n) (expf : F -> F) (bound : F) (order : nat) :
  im ^+ 2 = -1 -> is_expm expm -> is_exp expf -> 0 < bound -> (1 < order)%N ->
  forall p nf na nb (L : 'I_nf -> 'M[F]_p), (forall g, map_mx conj (L g) = L g) ->
  forall (Wa Ta : 'M[F]_(p, na)) (Wb Tb : 'M[F]_(p, nb)),
  slater conj Ta Wa != 0 -> slater conj Tb Wb != 0 ->
  forall ws ha hb enuc, unit_fields (rule ws) ->
  let e := energy_uhf conj L ha hb enuc Wa Ta Wb Tb in
  decays_at (fun s => rule ws (fun xi => uhf_factor conj im expm expf bound order L ha hb Wa Ta Wb Tb xi s))
    (e.1 + e.2 - enuc + 2%:R^-1 * (\sum_g one_body (L g) (rho_uhf conj Ta Tb) ^+ 2)).
Proof.
move=> Hi He Hf Hb Ho p nf na nb L HL Wa Ta Wb Tb nza nzb ws ha hb enuc HE e.
have na' := nza; have nb' := nzb; rewrite slaterE in na'; rewrite slaterE in nb'.
have ga := gf_green na'; have gb := gf_green nb'.
have := uhf_rule_rate Hi He Hf Hb Ho HL nza nzb ga gb ha hb HE.
rewrite /e (energy_uhf_green L ha hb enuc nza nzb ga gb) /= /electronic.
by rewrite [_ + enuc + _]addrAC addrK.
Qed.

Lemma ex_contracts : [/\ is_expm (@expm1 [numFieldType of algC]), is_exp (@exp2 [numFieldType of algC]),
  unit_fields (rule (coin [numFieldType of algC])), 'i ^+ 2 = -1 :> algC
  & is_green [rmorphism of @conjC [numClosedFieldType of algC]] (1%:M : 'M[algC]_1) 1%:M 1%:M].
Proof.
split; [exact: expm1_ok | exact: exp2_ok | exact: coin_ok | exact: sqrCi | exact: ex_green].
Qed.

Lemma ex_rate : exists r : algC, r != 0 /\
  decays_at (fun s => rule (coin [numFieldType of algC]) (fun xi =>
    uhf_factor [rmorphism of @conjC [numClosedFieldType of algC]] 'i (@expm1 [numFieldType of algC]) (@exp2 [numFieldType of algC]) 1 6
      (fun _ : 'I_1 => 2%:M : 'M[algC]_1) 1%:M 1%:M 1%:M 1%:M 1%:M 1%:M xi s)) r.
Proof.
have [a b c d e] := ex_contracts.
have nz : slater [rmorphism of @conjC [numClosedFieldType of algC]] (1%:M : 'M[algC]_1) 1%:M != 0.
  by rewrite /slater map_mx1 trmx1 mul1mx det1 oner_eq0.
have HL (g : 'I_1) : map_mx [rmorphism of @conjC [numClosedFieldType of algC]] (2%:M : 'M[algC]_1) = 2%:M.
  by rewrite map_scalar_mx rmorph_nat.
have := uhf_rule_rate d a b ltr01 (isT : (1 < 6)%N) HL nz nz e e 1%:M 1%:M c.
set r := (X in decays_at _ X) => h; exists r; split=> //.
rewrite /r /electronic /one_body /direct /exchange /eri /rho_uhf !big_ord1 !mxE !big_ord1 !mxE eqxx.
rewrite !rmorph1 !mulr1 ?mulr1n ?mul1r.
have k m : 2%:R^-1 * (2 * m)%:R = m%:R :> algC by rewrite natrM mulKf // pnatr_eq0.
rewrite -(natrD _ 1 1) -!natrM -natrD -natrB // -natrX (k 4%N) (k 8%N) -!natrD pnatr_eq0.
by [].
Qed.

Lemma coupling_twice : exists (phi : 'cV[algC]_2) (geb : 'I_1 -> 'M[algC]_1),
  let cj := [rmorphism of @conjC [numClosedFieldType of algC]] : {rmorphism algC -> algC} in
  let sq n := sqrtC (n%:R : algC) in
  let G := 1%:M : 'M[algC]_1 in
  let Q := fun _ : 'I_1 => qalpha cj sq [:: (1, fun k => phi k 0)] in
  let z := zlambda (EBModel.rho [:: (1, gf_total_uhf G G)]) geb 0 in
  let HZ := fock 2 (boson_adag_plus_a sq [:: (2%N, z)]) in
  [/\ \sum_k phi k 0 * (phi k 0)^* = 1, is_green cj G G G,
      mixed cj phi phi HZ = 48%:R / 25%:R, Q 0 * one_body (geb 0) (G + G) = 48%:R / 25%:R
    & forall (expm : forall n, 'M[algC]_n -> 'M[algC]_n) expf bound order w,
      is_expm expm -> is_exp expf -> 0 < bound -> (1 < order)%N ->
      let HB := fock 2 (free_matrix [:: (2%N, w)] 2) in
      ~ decays_at (coupled_factor cj 'i expm expf bound order (fun _ : 'I_0 => 0) geb false false 0 0 Q HB HZ
                     G G G G phi phi (fun=> 0))
          (electronic (fun _ : 'I_0 => 0) 0 0 G G + mixed cj phi phi HB + mixed cj phi phi HZ)].
Proof.
exists (ex_phi _), (ex_g _)=> cj sq G Q z HZ.
have s1 : sq 1%N = 1 by rewrite /sq sqrtC1.
split; [exact: (ex_norm cj) | exact: ex_green | exact: (twice_val cj s1) | |].
  rewrite (ex_Qval cj s1 : Q 0 = _) /one_body !big_ord1 !mxE eqxx mul1r.
  by rewrite -(natrD _ 1 1) mulrAC -natrM.
move=> expm expf bound order w He Hf Hb Ho HB; exact: (twice (@sqrCi _) s1 He Hf Hb Ho).
Qed.

(* the bound of the force bias and the matrix of the free bosons *)
Lemma rescale_bounds (F : numFieldType) (bound x : F) : 10%:R ^- 12 <= bound ->
  (`|x| <= bound -> rescale bound x = x)
  /\ (bound < `|x| -> `|rescale bound x| = 1 /\ rescale bound x * `|x| = x).
Proof.
move=> hb; rewrite /rescale; split=> h.
  by rewrite (_ : (bound < `|x|) = false) //; apply/negP => /(le_lt_trans h); rewrite ltxx.
have h0 : 10%:R ^- 12 < `|x| := le_lt_trans hb h.
have hx : `|x| != 0.
  apply: lt0r_neq0; apply: le_lt_trans h0; by rewrite invr_ge0 exprn_ge0 ?ler0n.
by rewrite h h0 normrM normfV normr_id divff // divfK.
Qed.
Lemma free_entries (F : numFieldType) (modes : seq (nat * F)) (dim a k i j : nat) : (k < dim)%N ->
  free_matrix modes dim (a * dim + k)%N (a * dim + k)%N = (nth (0%N, 0) modes a).2 * k%:R
  /\ (i != j -> free_matrix modes dim i j = 0).
Proof.
move=> hk; rewrite /free_matrix eqxx divnMDl ?(leq_ltn_trans _ hk) // divn_small // addn0 modnMDl modn_small //.
by split=> // /negbTE ->.
Qed.
