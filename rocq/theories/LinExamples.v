(** Concrete instances for the linear-algebra properties: non-vacuity examples
    and the witnesses of the refutations. *)
From mathcomp Require Import all_ssreflect all_algebra all_field.
From Verif Require Import LinModel LinSpec LinProofs.
Set Implicit Arguments.
Unset Strict Implicit.
Unset Printing Implicit Defensive.
Import GRing.Theory Num.Theory.
Local Open Scope ring_scope.

Definition idr : {rmorphism rat -> rat} := [rmorphism of idfun].
Definition conjr : {rmorphism algC -> algC} := [rmorphism of conjC].

(** One electron in two orbitals: trial (1,0), walker (3,4) = 5 (3/5,4/5). *)
Definition exT : 'M[rat]_(2, 1) := \matrix_(i, j) if i == ord0 then 1 else 0.
Definition exW : 'M[rat]_(2, 1) := \matrix_(i, j) if i == ord0 then 3%:R else 4%:R.
Definition exQ : 'M[rat]_(2, 1) := \matrix_(i, j) if i == ord0 then 3%:R / 5%:R else 4%:R / 5%:R.
Definition exR : 'M[rat]_1 := 5%:R%:M.
Definition exN : 'M[rat]_2 := delta_mx ord0 ord_max.

Lemma sum2 (V : zmodType) (f : 'I_2 -> V) : \sum_i f i = f ord0 + f ord_max.
Proof. by rewrite big_ord_recl big_ord1; congr (_ + f _); apply: val_inj. Qed.

Lemma slater_ex M : slater idr exT M = M ord0 ord0.
Proof.
rewrite /slater det_mx11 mxE sum2 !mxE !rmorph1 rmorph0 /= mul1r mul0r addr0.
by congr (M _ _); rewrite ?ord1.
Qed.

Lemma ex_slW : slater idr exT exW != 0. Proof. by rewrite slater_ex mxE. Qed.
Lemma ex_slQ : slater idr exT exQ != 0. Proof. by rewrite slater_ex mxE. Qed.

Lemma ex_ortho : slater idr exT exQ != 0 /\ exR \in unitmx /\ exQ *m exR = exW /\ exR != 1%:M.
Proof.
split; first exact: ex_slQ.
split; first by rewrite unitmxE det_scalar expr1 unitfE.
split; first by apply/matrixP => i j; rewrite mul_mx_scalar !mxE; case: ifP => _;
  rewrite mulrC divfK.
by apply/eqP => /matrixP/(_ ord0 ord0); rewrite !mxE.
Qed.

Lemma gf_W00 : gfull idr exW exT ord0 ord0 = 1.
Proof.
have [_ _ _ E _] := gf_projector ex_slW; move: E; move: (gfull _ _ _) => G.
move=> /matrixP/(_ ord0 ord0); rewrite mxE sum2 !mxE /= mulr1 mulr0 addr0.
by [].
Qed.
Lemma gf_W11 : gfull idr exW exT ord_max ord_max = 0.
Proof.
by rewrite mxE big_ord1 /= [exT _ _]mxE mul0r.
Qed.

Lemma ex_green : slater idr exT exW != 0 /\ gfull idr exW exT != 0 /\ gfull idr exW exT != 1%:M.
Proof.
split; first exact: ex_slW.
split; apply/eqP => E.
- by have := gf_W00; rewrite E mxE.
- by have := gf_W11; rewrite E mxE.
Qed.

Lemma ex_is_green : slater idr exT exW != 0 /\ is_green idr exT exW (gfull idr exW exT).
Proof. by split; [exact: ex_slW|apply/gf_response; rewrite ?ex_slW]. Qed.

Lemma ex_ghalf : ghalf idr exW exT != 0.
Proof.
apply/eqP => E; have := gf_W00; rewrite mxE big1 // => i _.
by rewrite E [X in _ * X]mxE mulr0.
Qed.

Lemma ex_ovlp_rhf : ovlp_rhf idr exW exT != 0.
Proof. by have := ex_slW; rewrite slaterE => U; rewrite mulf_neq0. Qed.

(** Scalars as 1x1 matrices. *)
Lemma slater11 (a b : rat) : slater idr (a%:M : 'M_1) b%:M = a * b.
Proof. by rewrite /slater det_mx11 map_scalar_mx tr_scalar_mx -scalar_mxM mxE. Qed.
Lemma ovlp11 (a b : rat) : ovlp_spin idr (a%:M : 'M_1) b%:M = b * a.
Proof. by rewrite -slaterE slater11. Qed.
Lemma factor11 (a : rat) : det_factor (a%:M : 'M_1) = `|a|.
Proof. by rewrite /det_factor big_ord1 mxE. Qed.

Lemma ex_ortho_sign : exists (Q T : 'M[rat]_(1, 1)) (R : 'M[rat]_1),
  [/\ Q^T *m Q = 1%:M, is_trig_mx R^T, R \in unitmx &
   new_ovlp_uhf (ovlp_spin idr (Q *m R) T * ovlp_spin idr (1%:M : 'M_1) (1%:M : 'M_1)) R (1%:M : 'M_1)
   <> slater idr T Q * slater idr (1%:M : 'M_1) (1%:M : 'M_1)].
Proof.
exists (-1)%:M, 1%:M, (-2%:R)%:M; split.
- by rewrite tr_scalar_mx -scalar_mxM mulrNN mulr1.
- by rewrite tr_scalar_mx scalar_mx_is_trig.
- by rewrite unitmxE det_scalar unitfE.
- rewrite -scalar_mxM /new_ovlp_uhf !ovlp11 !slater11 !factor11.
  by apply/eqP.
Qed.

Lemma ex_ortho_rhf : exists (Q T : 'M[rat]_(1, 1)) (R : 'M[rat]_1),
  [/\ Q^T *m Q = 1%:M, is_trig_mx R^T, forall i, 0 < R i i &
   new_ovlp_rhf (ovlp_rhf idr (Q *m R) T) R <> slater idr T Q ^+ 2].
Proof.
exists 1%:M, 1%:M, 2%:R%:M; split.
- by rewrite tr_scalar_mx -scalar_mxM mulr1.
- by rewrite tr_scalar_mx scalar_mx_is_trig.
- by move=> i; rewrite mxE eqxx.
- rewrite -scalar_mxM /new_ovlp_rhf /ovlp_rhf !ovlp11 !slater11 !factor11.
  by apply/eqP.
Qed.

(** Bilinear decoupling over the 1x1 complex matrices. *)
Definition exA : 'I_1 -> algC := fun=> 1.
Definition exchol : 'I_1 -> 'M[algC]_1 := fun=> 1%:M.
Definition exB : 'I_1 -> 'M[algC]_1 := fun=> 1%:M.

Lemma ex_bilinear :
  [/\ ('i : algC) ^+ 2 = -1, (sqrtC (2%:R^-1) : algC) ^+ 2 = 2%:R^-1,
      (forall M m, (fun M : 'M[algC]_1 => M) M * exB m = exB m * M) &
      coupling [linear of idfun : 'M[algC]_1 -> 'M[algC]_1] exA exchol exA exB != 0].
Proof.
split; [exact: sqrCi|exact: sqrtCK|by move=> M m; rewrite mulr1 mul1r|].
by rewrite /coupling big_ord1 /= !scale1r mulr1 oner_eq0.
Qed.

Lemma ex_scheme3 : exists (chol : 'I_1 -> 'M[rat]_1) (B : 'I_1 -> 'M[rat]_1),
  (forall M m, M * B m = B m * M) /\
  \sum_m half_squares [linear of idfun : 'M[rat]_1 -> 'M[rat]_1] (B m)
     (scheme3 (fun=> 1) (fun=> 1) chol xpredT m)
  <> coupling [linear of idfun : 'M[rat]_1 -> 'M[rat]_1] (fun=> 1) chol (fun=> 1) B.
Proof.
exists (fun=> 1), (fun=> 1); split; first by move=> M m; rewrite mulr1 mul1r.
rewrite /coupling /half_squares /scheme3 /Lga !big_ord1 /= big_seq1 /= !scale1r mulr1.
move=> /matrixP/(_ ord0 ord0).
rewrite expr2 -mulmxE !mxE big_ord1 !mxE /=.
by apply/eqP.
Qed.

Lemma ex_numba : exists (rl G : 'M[rat]_1),
  ecoul2_numba (fun _ : 'I_1 => rl) G (fun=> 0) (0 : 'M_1)
  <> ecoul2 (fun _ : 'I_1 => rl) G (fun=> 0) (0 : 'M_1).
Proof.
exists 2%:R%:M, 1%:M; rewrite /ecoul2_numba /ecoul2 /lg !big_ord1 !mxE /=.
by apply/eqP.
Qed.

Lemma ex_taylor : iter 2 (mulmx exN) exW = 0 /\ propagate_exp_op exN 1 exW != exW.
Proof.
split; first by rewrite /= mulmxA mul_delta_mx_0 ?mul0mx.
rewrite /propagate_exp_op /= invr1 scale1r; apply/eqP => /matrixP/(_ ord0 ord0).
rewrite mxE [X in _ + X]mxE sum2 !mxE /= mul0r add0r mul1r => /eqP.
by [].
Qed.

Lemma ex_boson : exists (A phi : 'M[rat]_1),
  propagate_boson_bilinear A 2 phi <> exp_poly (mulmx A) 2 phi.
Proof.
exists 1%:M, 1%:M; rewrite -taylorE /propagate_boson_bilinear /propagate_exp_op /=.
rewrite !mul1mx => /matrixP/(_ ord0 ord0); rewrite !mxE /=.
by apply/eqP.
Qed.

(** The Pauli matrix y. *)
Definition exY : 'I_1 -> 'M[algC]_2 := fun=>
  \matrix_(i, j) if (i == ord0) && (j == ord_max) then - 'i
                 else if (i == ord_max) && (j == ord0) then 'i else 0.

Lemma ex_hermitian : exists (L : 'I_1 -> 'M[algC]_2),
  hermitian conjr (L ord0) /\
  shifted_hamiltonian [linear of idfun : 'M[algC]_2 -> 'M[algC]_2]
     (shifted_h1e conjr 'i L 0 0) L (fun g => one_body (L g) 0)
  <> hamiltonian [linear of idfun : 'M[algC]_2 -> 'M[algC]_2] 0 L.
Proof.
exists exY; split.
  apply/matrixP => i j; rewrite !mxE.
  by case: i => [[|[|//]] ?]; case: j => [[|[|//]] ?]; rewrite /= ?rmorph0 ?rmorphN /= ?conjCi ?opprK.
have ob g : one_body (exY g) 0 = 0.
  by rewrite /one_body big1 // => a _; rewrite big1 // => b _; rewrite [X in _ * X]mxE mulr0.
have mf g : mf_shift 'i exY 0 g = 0.
  by rewrite /mf_shift big1 ?mulr0 // => a _; rewrite big1 // => b _; rewrite [X in _ * X]mxE mulr0.
rewrite /shifted_hamiltonian /hamiltonian /shifted_h1e !big_ord1 !ob mf /=.
rewrite !scale0r !subr0 expr0n /= mulr0 scale0r subr0 sub0r add0r => E.
have {}E : trace_eri conjr exY = exY ord0 *m exY ord0.
  have := congr1 (fun M => M - 2%:R^-1 *: (exY ord0) ^+ 2) E.
  rewrite addrK scalerBr addrC addrA addNr add0r => /oppr_inj.
  by apply: scalerI; rewrite invr_neq0 // pnatr_eq0.
move: E => /matrixP/(_ ord0 ord0); rewrite !mxE big_ord1 !sum2 !mxE /=.
rewrite rmorph0 rmorphN /= conjCi opprK mulr0 add0r mulNr -expr2 sqrCi => /eqP.
by rewrite sub0r opprK eq_sym -subr_eq0 opprK -[1 + 1]/(2%:R) pnatr_eq0.
Qed.

(** Two commuting 4x4 matrices: e = n (x) 1, b = 1 (x) X. *)
Definition exE : 'M[rat]_4 := \matrix_(i, j) if (i == j) && (2 <= i)%N then 1 else 0.
Definition exX : 'M[rat]_4 := \matrix_(i, j)
  if (i./2 == j./2) && (i != j) then 1 else 0.

Lemma zmod_solve (V : zmodType) (D X K C : V) : D = D + X - K + C -> X = K - C.
Proof.
move=> E; apply: (addrI D); rewrite {2}E.
have -> : D + X - K + C = D + X - (K - C) by rewrite opprB [C - K]addrC addrA.
by rewrite subrK.
Qed.

Lemma ex_decoupled : exists (e b : 'M[rat]_4) (le lb : rat),
  e * b = b * e /\
  ~ exists c : rat, decoupled_field e b le lb = 2%:R^-1 *: (e + b) ^+ 2 + c *: 1.
Proof.
exists exE, exX, 1, 1; split.
  apply/matrixP => i j; rewrite !mxE !big_ord_recl !big_ord0 !mxE.
  by case: i => [[|[|[|[|//]]]] ?]; case: j => [[|[|[|[|//]]]] ?]; apply/eqP.
case=> c; rewrite (@decoupled_defect _ _ exE exX 1 1) // => /zmod_solve.
rewrite -scalerBl !scale1r.
by move/matrixP => /(_ ord0 (Ordinal (isT : (1 < 4)%N))); rewrite !mxE /= mulr0.
Qed.

Lemma ex_cfb : cfb (fun _ : 'I_1 => 1 : rat) (fun=> 1) = 2%:R^-1.
Proof. by rewrite /cfb big_ord1; apply/eqP. Qed.

Lemma ex_shared : exists (xe xb : 'I_1 -> rat),
  ~ exists s, forall xi, cfb_decoupled xi xe xb = gauss_ratio s xi.
Proof.
exists (fun=> 1), (fun=> 1) => -[s E].
have E0 := E (fun=> 0); have E1 := E (fun=> 1); move: E0 E1.
rewrite -!cfb_ratio // /cfb_decoupled /cfb_boson /cfb !big_ord1.
set x := s ord0 => E0 E1.
have X2 : x = 2%:R.
  have -> : x = (1 - 2%:R^-1 * x) * x - (0 - 2%:R^-1 * x) * x.
    by rewrite -mulrBl opprB addrA subrK subr0 mul1r.
  by rewrite -E0 -E1; apply/eqP.
by move: E0; rewrite X2 => /eqP.
Qed.

Lemma ex_xbar : xbar (1 : rat) 1 (fun _ : 'I_1 => 2%:R) (fun=> 1) ord0 = -1.
Proof. by apply/eqP. Qed.

Lemma ex_diis : exists s d f : 'M[rat]_2,
  [/\ hermitian idr s, hermitian idr d, hermitian idr f & ~ commute_in_metric s d f].
Proof.
exists 1%:M, (delta_mx ord0 ord0), (delta_mx ord0 ord_max + delta_mx ord_max ord0).
have idm (M : 'M[rat]_2) : map_mx idr M = M by apply/matrixP => i j; rewrite mxE.
split; rewrite /hermitian ?idm; first exact: trmx1.
- exact: trmx_delta.
- by rewrite raddfD /= !trmx_delta addrC.
rewrite /commute_in_metric mul1mx mulmx1 mulmxDr mulmxDl !mul_delta_mx_cond /=.
rewrite !mulr0n !mulr1n addr0 add0r => /matrixP/(_ ord0 ord_max).
by rewrite !mxE.
Qed.
