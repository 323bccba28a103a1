(** Proofs about the trial wave functions. *)
From mathcomp Require Import all_ssreflect all_algebra.
From Verif Require Base.
From Verif Require Import LinModel LinSpec LinProofs MdtModel MdtSpec.
Set Implicit Arguments.
Unset Strict Implicit.
Unset Printing Implicit Defensive.
Import GRing.Theory.
Local Open Scope ring_scope.

Section Multi.
Variables (F : fieldType) (conj : {rmorphism F -> F}).
Variables (p na nb : nat).

(** The expansion as a list of terms. *)
Definition terms (t : expansion F p na nb) : seq (F * (('I_na -> 'I_p) * ('I_nb -> 'I_p))) :=
  [seq (coef d, (occ_a d, occ_b d)) | d <- t.1 :: t.2].

Lemma columns_ovlp n (occ : 'I_n -> 'I_p) (W : 'M[F]_(p, n)) :
  ovlp_spin conj W (columns F occ) = component occ W.
Proof.
rewrite /ovlp_spin /component -det_tr; congr (\det _).
apply/matrixP=> i j; rewrite !mxE (bigD1 (occ i)) //= !mxE eqxx rmorph1 mulr1.
rewrite big1 ?addr0 // => k ki; rewrite !mxE (negbTE ki) rmorph0 mulr0 //.
Qed.

Lemma msd_ovlpE (t : expansion F p na nb) Wa Wb : msd_ovlp conj t Wa Wb = component (occ_a t.1) Wa * component (occ_b t.1) Wb.
Proof. by rewrite /msd_ovlp /psia /psib !columns_ovlp. Qed.

Lemma overlap_one (d : det F p na nb) Wa Wb : coef d = 1 ->
  overlap conj (terms (d, [::])) Wa Wb = component (occ_a d) Wa * component (occ_b d) Wb.
Proof. by move=> c; rewrite /overlap /= big_seq1 /= c rmorph1 mul1r. Qed.

(** A determinant of basis functions used as a walker. *)
Lemma component_self n (occ : 'I_n -> 'I_p) : injective occ -> component occ (columns F occ) = 1.
Proof.
move=> inj; rewrite /component (_ : \matrix_(i, j) _ = 1%:M) ?det1 //.
by apply/matrixP=> i j; rewrite !mxE (inj_eq inj).
Qed.

Lemma component_other n (occ occ' : 'I_n -> 'I_p) (i : 'I_n) :
  (forall j, occ i != occ' j) -> component occ (columns F occ') = 0.
Proof.
move=> ne; rewrite /component; set A := \matrix_(_, _) _.
rewrite (expand_det_row A i) big1 // => j _; rewrite !mxE (negbTE (ne j)) mul0r //.
Qed.

(** A determinant of the trial which is not the first one, taken as walker. *)
Lemma other_lost (d d' : det F p na nb) r i :
  injective (occ_a d') -> injective (occ_b d') ->
  (forall j, occ_a d i != occ_a d' j) ->
  msd_ovlp conj (d, d' :: r) (columns F (occ_a d')) (columns F (occ_b d')) = 0
  /\ overlap conj (terms (d, [:: d'])) (columns F (occ_a d')) (columns F (occ_b d')) = conj (coef d').
Proof.
move=> ia ib ne; rewrite msd_ovlpE /= (component_other ne) mul0r; split=> //.
rewrite /overlap /= big_cons big_seq1 /= (component_other ne) mul0r mulr0 add0r.
by rewrite !component_self // !mulr1.
Qed.
End Multi.

Section Orbitals.
Variables (F : fieldType) (conj : {rmorphism F -> F}).
Variables (p m n : nat) (nm : (n <= m)%N).
Notation H A := (map_mx conj A)^T.

Lemma orthonormalE k (S : 'M[F]_p) (C : 'M[F]_(p, k)) :
  orthonormal conj S C <-> H C *m S *m C = 1%:M.
Proof.
have e i j : (H C *m S *m C) i j = \sum_a \sum_b conj (C a i) * S a b * C b j.
  rewrite mxE exchange_big; apply: eq_bigr => b _; rewrite mxE mulr_suml; apply: eq_bigr => a _.
  by rewrite !mxE.
split=> [o|o i j]; first by apply/matrixP=> i j; rewrite e o mxE.
by rewrite -e o mxE.
Qed.

Lemma oao_psiE (X : 'M[F]_p) (C : 'M[F]_(p, m)) :
  oao_psi X C nm = invmx X *m \matrix_(k, j) C k (widen_ord nm j).
Proof. by apply/matrixP=> i j; rewrite !mxE; apply: eq_bigr => k _; rewrite mxE. Qed.

Lemma oao_orthonormal (S X : 'M[F]_p) (C : 'M[F]_(p, m)) :
  orthonormal conj S X -> orthonormal conj S C -> orthonormal conj 1%:M (oao_psi X C nm).
Proof.
move=> /orthonormalE oX oC; apply/orthonormalE.
set B : 'M[F]_(p, n) := \matrix_(k, j) C k (widen_ord nm j).
have oB : H B *m S *m B = 1%:M.
  apply/orthonormalE=> i j.
  transitivity ((widen_ord nm i == widen_ord nm j)%:R : F); last first.
    by congr (_%:R); rewrite -!val_eqE.
  by rewrite -oC; apply: eq_bigr => a _; apply: eq_bigr => b _; rewrite !mxE.
have uX : X \in unitmx by case: (mulmx1_unit oX).
have uH : H X \in unitmx by rewrite unitmx_tr map_unitmx.
have SE : S = invmx (H X) *m invmx X.
  have : invmx (H X) *m (H X *m S *m X) *m invmx X = invmx (H X) *m invmx X by rewrite oX mulmx1.
  by rewrite -!mulmxA mulmxV // mulmx1 mulmxA mulVmx // mul1mx.
rewrite mulmx1 oao_psiE -/B map_mxM trmx_mul map_invmx trmx_inv -mulmxA (mulmxA _ (invmx X)).
by rewrite -SE mulmxA oB.
Qed.

Lemma orthonormal_slater (T : 'M[F]_(p, n)) : orthonormal conj 1%:M T -> slater conj T T = 1.
Proof. by move/orthonormalE; rewrite mulmx1 /slater => ->; rewrite det1. Qed.
End Orbitals.

Lemma build_mo_closed na nb : (nb <= na)%N -> build_mo na na nb = Base.Err Base.IndexError.
Proof. by move=> _; rewrite /build_mo /mo_column ltnn. Qed.

Section Services.
Variables (F : fieldType) (conj : {rmorphism F -> F}).
Variables (p na nb nchol : nat) (L : 'I_nchol -> 'M[F]_p).

Lemma vbias_hf (Ta Wa : 'M[F]_(p, na)) (Tb Wb : 'M[F]_(p, nb)) g : (2%:R : F) != 0 ->
  vbias_run conj HF L Ta Wa Tb Wb g
  = Base.Ok (one_body (L g) (gfull conj Wa Ta) + one_body (L g) (gfull conj Wb Tb)).
Proof. by move=> c; rewrite /vbias_run /= divff // mul1r /rot_chol !lg_full. Qed.
End Services.

(** Two determinants of one electron in two orbitals. *)
Definition two_dets (F : fieldType) : expansion F 2 1 0 :=
  (Det 1 (fun=> ord0) (fun i => widen_ord (leq0n 2) i),
   [:: Det 1 (fun=> lift ord0 ord0) (fun i => widen_ord (leq0n 2) i)]).
