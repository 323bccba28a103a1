(** Properties C242-C244 of the trial wave functions. *)
From mathcomp Require Import all_ssreflect all_algebra.
From Verif Require Base.
From Verif Require Import LinModel LinSpec LinProofs MdtModel MdtSpec MdtProofs.
Set Implicit Arguments.
Unset Strict Implicit.
Unset Printing Implicit Defensive.
Import GRing.Theory.
Local Open Scope ring_scope.

(** C242: the overlap with a multi-determinant trial is the sum over its
    determinants.  It is for a trial which is one determinant with
    coefficient one. *)
Theorem C242_single_partial (F : fieldType) (conj : {rmorphism F -> F}) p na nb
  (d : det F p na nb) Wa Wb : coef d = 1 ->
  msd_ovlp conj (d, [::]) Wa Wb = overlap conj (terms (d, [::])) Wa Wb.
Proof. by move=> c; rewrite msd_ovlpE overlap_one. Qed.
Print Assumptions C242_single_partial.

(** In general the overlap is the component along the first determinant,
    whatever the coefficients and the other determinants are. *)
Theorem C242_first_partial (F : fieldType) (conj : {rmorphism F -> F}) p na nb
  (t : expansion F p na nb) Wa Wb :
  msd_ovlp conj t Wa Wb = component (occ_a t.1) Wa * component (occ_b t.1) Wb.
Proof. exact: msd_ovlpE. Qed.
Print Assumptions C242_first_partial.

(** A walker which is another determinant of the trial, with an orbital
    exchanged, is lost: the code gives it overlap zero, and its overlap with
    the trial is the conjugate coefficient. *)
Theorem C242_other_partial (F : fieldType) (conj : {rmorphism F -> F}) p na nb
  (d d' : det F p na nb) r i :
  injective (occ_a d') -> injective (occ_b d') -> (forall j, occ_a d i != occ_a d' j) ->
  msd_ovlp conj (d, d' :: r) (columns F (occ_a d')) (columns F (occ_b d')) = 0
  /\ overlap conj (terms (d, [:: d'])) (columns F (occ_a d')) (columns F (occ_b d')) = conj (coef d').
Proof. exact: other_lost. Qed.
Print Assumptions C242_other_partial.

(** The Green's functions left in the walker are those of the first determinant
    alone, for each spin. *)
Theorem C242_green_partial (F : fieldType) (conj : {rmorphism F -> F}) p na nb
  (t : expansion F p na nb) Wa Wb : component (occ_a t.1) Wa != 0 -> component (occ_b t.1) Wb != 0 ->
  is_green conj (\matrix_(a, i) (a == occ_a t.1 i)%:R) Wa (msd_Ga conj t Wa)
  /\ is_green conj (\matrix_(a, i) (a == occ_b t.1 i)%:R) Wb (msd_Gb conj t Wb).
Proof.
move=> ha hb; split.
- by apply: (gf_green (T := psia t)); rewrite columns_ovlp.
- by apply: (gf_green (T := psib t)); rewrite columns_ovlp.
Qed.
Print Assumptions C242_green_partial.

Theorem C242_sum_refuted (F : fieldType) (conj : {rmorphism F -> F}) :
  exists (t : expansion F 2 1 0) Wa Wb, msd_ovlp conj t Wa Wb <> overlap conj (terms t) Wa Wb.
Proof.
exists (two_dets F), (columns F (occ_a (head (two_dets F).1 (two_dets F).2))),
  (columns F (occ_b (head (two_dets F).1 (two_dets F).2))).
have i1 : injective (fun _ : 'I_1 => lift ord0 ord0 : 'I_2) by move=> x y _; rewrite !ord1.
have i0 : injective (fun i : 'I_0 => widen_ord (leq0n 2) i) by move=> [].
have [-> ->] := @other_lost F conj 2 1 0 (two_dets F).1 (head (two_dets F).1 (two_dets F).2) [::]
  ord0 i1 i0 (fun=> isT).
by rewrite rmorph1 => /eqP; rewrite eq_sym oner_eq0.
Qed.
Print Assumptions C242_sum_refuted.

(** Non-trivial instance: the walker (1, 1) and the two determinants. *)
Example C242_ex (F : fieldType) (conj : {rmorphism F -> F}) :
  msd_ovlp conj (two_dets F) (const_mx 1) (const_mx 1) = 1
  /\ overlap conj (terms (two_dets F)) (const_mx 1) (const_mx 1) = 2%:R.
Proof.
have c n (o : 'I_n -> 'I_2) : (n <= 1)%N -> component o (const_mx 1 : 'M[F]_(2, n)) = 1.
  case: n o => [|[|//]] o _; first exact: det_mx00.
  by rewrite /component det_mx11 !mxE.
rewrite msd_ovlpE !c // mulr1; split=> //.
by rewrite /overlap /= big_cons big_seq1 /= !c // !rmorph1 !mulr1.
Qed.

(** C243: the trial orbitals are orthonormal and the trial is normalised,
    in the basis of orthogonalised orbitals. *)
Theorem C243_oao_partial (F : fieldType) (conj : {rmorphism F -> F}) p m n (nm : (n <= m)%N)
  (S X : 'M[F]_p) (C : 'M[F]_(p, m)) :
  orthonormal conj S X -> orthonormal conj S C ->
  orthonormal conj 1%:M (oao_psi X C nm)
  /\ ovlp_spin conj (oao_psi X C nm) (oao_psi X C nm) = 1.
Proof.
move=> oX oC; have o := oao_orthonormal nm oX oC; split=> //.
by rewrite -slaterE; exact: orthonormal_slater o.
Qed.
Print Assumptions C243_oao_partial.

(** The orbitals keep describing the mean-field ones: X psi = C. *)
Theorem C243_same_partial (F : fieldType) (conj : {rmorphism F -> F}) p m n (nm : (n <= m)%N)
  (S X : 'M[F]_p) (C : 'M[F]_(p, m)) : orthonormal conj S X ->
  forall a j, (X *m oao_psi X C nm) a j = C a (widen_ord nm j).
Proof.
move=> /orthonormalE oX a j; have uX : X \in unitmx by case: (mulmx1_unit oX).
by rewrite oao_psiE mulKVmx // mxE.
Qed.
Print Assumptions C243_same_partial.

(** In the basis of molecular orbitals it cannot be built for any number of
    electrons: a restricted reference has [max na nb] occupied orbitals. *)
Theorem C243_mo_partial na nb : build_mo (maxn na nb) na nb = Base.Err Base.IndexError.
Proof.
rewrite /build_mo /mo_column !leq_max !ltnn orbF /=.
by case: ltnP => //= h; rewrite ltnNge (ltnW h).
Qed.
Print Assumptions C243_mo_partial.

Theorem C243_mo_refuted : exists na nb, forall r, build_mo (maxn na nb) na nb <> Base.Ok r.
Proof. by exists 1%N, 1%N => r. Qed.
Print Assumptions C243_mo_refuted.

(** Instance with a non-trivial overlap matrix, diag(4, 1), over the rationals. *)
Example C243_ex :
  let S : 'M[rat]_2 := diag_mx (\row_j (if j == ord0 then 4%:R else 1)) in
  let X : 'M[rat]_2 := diag_mx (\row_j (if j == ord0 then 2%:R^-1 else 1)) in
  orthonormal [rmorphism of idfun] S X /\ X != 1%:M /\ oao_psi X X (isT : (1 <= 2)%N) ord0 ord0 = 1.
Proof.
move=> S X; split; [|split].
- move=> i j; rewrite !big_ord_recl !big_ord0 !mxE /=.
  by case: i j => [[|[|//]] hi] [[|[|//]] hj]; apply/eqP; rewrite -?val_eqE /=.
- apply/negP=> /eqP /matrixP /(_ ord0 ord0); rewrite !mxE eqxx /= => /eqP; by [].
- have u : X \in unitmx.
    by rewrite unitmxE det_diag !big_ord_recl big_ord0 !mxE /=.
  rewrite oao_psiE (_ : \matrix_(k, j) _ = X *m \matrix_(k, j) ((k == ord0) && (j == 0%R))%:R).
    by rewrite mulKmx // mxE.
  apply/matrixP=> a b; rewrite mul_diag_mx !mxE (ord1 b) eqxx andbT.
  rewrite (_ : widen_ord _ _ = ord0); last exact: val_inj.
  by case: a => [[|[|//]] ha]; apply/eqP.
Qed.

(** C244: a run can ask every trial class for its overlap and force bias.
    The single-determinant class answers with the contraction of the
    Cholesky vectors with the Green's functions. *)
Theorem C244_hf_partial (F : fieldType) (conj : {rmorphism F -> F}) p na nb nchol
  (L : 'I_nchol -> 'M[F]_p) (Ta Wa : 'M[F]_(p, na)) (Tb Wb : 'M[F]_(p, nb)) g : (2%:R : F) != 0 ->
  vbias_run conj HF L Ta Wa Tb Wb g
  = Base.Ok (one_body (L g) (gfull conj Wa Ta) + one_body (L g) (gfull conj Wb Tb))
  /\ ovlp_run conj HF Ta Wa Tb Wb = Base.Ok (slater conj Ta Wa * slater conj Tb Wb).
Proof. by move=> c; rewrite vbias_hf // /ovlp_run -!slaterE. Qed.
Print Assumptions C244_hf_partial.

(** The other two classes never answer the request for the force bias. *)
Theorem C244_others_partial (F : fieldType) (conj : {rmorphism F -> F}) p na nb nchol
  (L : 'I_nchol -> 'M[F]_p) (Ta Wa : 'M[F]_(p, na)) (Tb Wb : 'M[F]_(p, nb)) g k : k <> HF ->
  vbias_run conj k L Ta Wa Tb Wb g = Base.Err Base.AttributeError.
Proof. by case: k. Qed.
Print Assumptions C244_others_partial.

Theorem C244_all_refuted : exists k, forall (F : fieldType) (conj : {rmorphism F -> F}) p na nb nchol
  (L : 'I_nchol -> 'M[F]_p) (Ta Wa : 'M[F]_(p, na)) (Tb Wb : 'M[F]_(p, nb)) g x,
  vbias_run conj k L Ta Wa Tb Wb g <> Base.Ok x /\ ovlp_run conj k Ta Wa Tb Wb <> Base.Ok x.
Proof. by exists UHF => *; split. Qed.
Print Assumptions C244_all_refuted.

Example C244_ex : (2%:R : rat) != 0
  /\ vbias_run [rmorphism of idfun] HF (fun=> 3%:R%:M : 'M[rat]_1)
       (1%:M : 'M_(1, 1)) (2%:R%:M : 'M_(1, 1)) (1%:M : 'M_(1, 1)) (1%:M : 'M_(1, 1)) (ord0 : 'I_1)
     = Base.Ok (6%:R).
Proof.
split=> //; rewrite vbias_hf //; congr Base.Ok.
rewrite !one_body_tr !gfullE !ovlp_matE !map_mx1 !mulmx1 !mul1mx !tr_scalar_mx invmx1.
rewrite invmx_scalar -!scalar_mxM mulVf // ?mulmx1 ?tr_scalar_mx -?scalar_mxM !mxtrace_scalar.
by apply/eqP.
Qed.
