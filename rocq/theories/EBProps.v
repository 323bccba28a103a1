(** Properties of the bosonic estimators. *)
From mathcomp Require Import all_ssreflect all_algebra all_field.
From Verif Require Import LinModel LinSpec LinExamples EBModel EBSpec EBProofs.
From Verif Require Base.
Set Implicit Arguments.
Unset Strict Implicit.
Unset Printing Implicit Defensive.
Import GRing.Theory Num.Theory.
Local Open Scope ring_scope.

(** C32: the coupling energy couples each mode to its own block.  It does not:
    with two modes the second is contracted with the block of the first. *)
Theorem C32_coupling_refuted : exists (s : nat -> rat) modes G,
  local_eng_eboson s modes G <> coupling_energy s modes G.
Proof. exact: (ex_intro _ sq01 (ex_intro _ one2 (ex_intro _ gex eb_bad))). Qed.
Print Assumptions C32_coupling_refuted.

(** It does with a single mode. *)
Theorem C32_single_mode_partial (F : fieldType) (s : nat -> F) d z G :
  local_eng_eboson s [:: (d, z)] G = coupling_energy s [:: (d, z)] G.
Proof. exact: eb_single. Qed.
Print Assumptions C32_single_mode_partial.

(** What it returns in general: every mode contracted with the leading block. *)
Theorem C32_leading_block_partial (F : fieldType) (s : nat -> F) (modes : seq (nat * F)) G :
  local_eng_eboson s modes G
  = \sum_(m <- modes) m.2 * \sum_(i < m.1) \sum_(j < m.1) quad s i j * G i j.
Proof. exact: eb_actual. Qed.
Print Assumptions C32_leading_block_partial.
Example C32_example : local_eng_eboson sq01 [:: (2%N, 3%:R)] (fun _ _ => 1) = 6%:R.
Proof.
rewrite eb_actual big_seq1 /= !big_ord_recl !big_ord0 /quad /sq01 /=; exact/eqP.
Qed.

(** C95: the propagator's matrix of sum_a z_a (b_a^+ + b_a) is block diagonal with
    the blocks of the modes, symmetric, and its contraction with a Green's
    function is the coupling energy. *)
Theorem C95_blocks (F : fieldType) (s : nat -> F) (modes : seq (nat * F)) i j :
  boson_adag_plus_a s modes i j = blocks s modes i j
  /\ boson_adag_plus_a s modes i j = boson_adag_plus_a s modes j i.
Proof. by split; [exact: adagE|rewrite !adagE; exact: blocks_sym]. Qed.
Print Assumptions C95_blocks.
Theorem C95_energy (F : fieldType) (s : nat -> F) (modes : seq (nat * F)) (G : nat -> nat -> F) :
  \sum_(i < msize modes) \sum_(j < msize modes) boson_adag_plus_a s modes i j * G i j
  = coupling_energy s modes G.
Proof. exact: adag_energy. Qed.
Print Assumptions C95_energy.
Example C95_example : boson_adag_plus_a sq01 [:: (2%N, 5%:R); (2%N, 7%:R)] 2%N 3%N = 7%:R
  /\ boson_adag_plus_a sq01 [:: (2%N, 5%:R); (2%N, 7%:R)] 1%N 2%N = 0.
Proof. by split; apply/eqP. Qed.

(** C96: bosonic energy.  Modes of different dimensions are rejected. *)
Theorem C96_dimensions_refuted : exists (modes : seq (nat * rat)) G,
  modes <> [::] /\ local_eng_boson modes G <> Base.Ok (number_energy modes G).
Proof. exact: boson_dims_bad. Qed.
Print Assumptions C96_dimensions_refuted.
Theorem C96_equal_dimensions_partial (F : fieldType) d (ws : seq F) G : ws <> [::] ->
  local_eng_boson [seq (d, w) | w <- ws] G = Base.Ok (number_energy [seq (d, w) | w <- ws] G).
Proof. exact: boson_energy_equal. Qed.
Print Assumptions C96_equal_dimensions_partial.
Example C96_example : local_eng_boson [:: (2%N, 3%:R : rat); (2%N, 5%:R)]
   (fun i j => if i == j then i%:R else 0) = Base.Ok 18%:R.
Proof. by rewrite /local_eng_boson /= !big_ord_recl big_ord0; congr (Base.Ok _); apply/eqP. Qed.

(** C97: the bosonic Green's function is a projector of trace one that leaves the
    walker unchanged. *)
Theorem C97_projector (F : fieldType) (conj : {rmorphism F -> F}) n (phi psi : 'I_n -> F) :
  boson_ovlp conj phi psi != 0 ->
  let G := boson_gf conj phi psi in
  [/\ \sum_i G i i = 1, forall i, \sum_j G i j * phi j = phi i
    & forall i j, \sum_k G i k * G k j = G i j].
Proof. by move=> nz; split; [exact: bgf_trace|exact: bgf_walker|exact: bgf_idem]. Qed.
Print Assumptions C97_projector.
Example C97_example : boson_ovlp idr (vec2 (1 : rat) 2%:R) (vec2 1 1) != 0.
Proof. by rewrite /boson_ovlp !big_ord_recl big_ord0. Qed.

(** C71 (complex amplitudes): renormalisation should keep the bosonic state; it takes absolute values. *)
Theorem C71_complex_refuted : exists n (phi : 'I_n -> algC),
  (exists k, phi k != 0) /\ ~ same_ray phi (boson_renorm phi).
Proof. exact: renorm_state_bad. Qed.
Print Assumptions C71_complex_refuted.
Theorem C71_complex_nonnegative_partial (F : numClosedFieldType) n (phi : 'I_n -> F) :
  (exists k, phi k != 0) -> (forall k, 0 <= phi k) -> same_ray phi (boson_renorm phi).
Proof. exact: renorm_nonneg. Qed.
Print Assumptions C71_complex_nonnegative_partial.
(** Norm one, and the occupation probabilities are kept. *)
Theorem C71_probabilities_partial (F : numClosedFieldType) n (phi : 'I_n -> F) :
  (exists k, phi k != 0) ->
  \sum_k boson_renorm phi k * (boson_renorm phi k)^* = 1 /\
  forall k, boson_renorm phi k * (boson_renorm phi k)^*
            = phi k * (phi k)^* / \sum_j phi j * (phi j)^*.
Proof. by move=> nz; split; [exact: renorm_unit|exact: renorm_prob]. Qed.
Print Assumptions C71_probabilities_partial.
Example C71_complex_example : (exists k, vec2 (3%:R : algC) 4%:R k != 0) /\ forall k, 0 <= vec2 (3%:R : algC) 4%:R k.
Proof.
split; first by exists ord0; rewrite /vec2 /= pnatr_eq0.
by move=> k; rewrite /vec2; case: ifP => _; rewrite ler0n.
Qed.

(** C99: the bosonic energy of several modes should be the sum over the modes. *)
Theorem C99_additive_refuted : exists phi : 'I_2 -> rat,
  local_eng_boson [:: (2%N, 1); (2%N, 1)] (ext (boson_gf idr (cat2 phi) (cat2 phi)))
  <> Base.Ok (mixed_number idr 1 phi phi + mixed_number idr 1 phi phi).
Proof. exact: (ex_intro _ (vec2 0 1) boson_not_additive). Qed.
Print Assumptions C99_additive_refuted.
Theorem C99_single_mode_partial (F : fieldType) (conj : {rmorphism F -> F}) d w (phi psi : 'I_d -> F) :
  local_eng_boson [:: (d, w)] (ext (boson_gf conj phi psi)) = Base.Ok (mixed_number conj w phi psi).
Proof. exact: boson_single. Qed.
Print Assumptions C99_single_mode_partial.
Example C99_example : mixed_number idr (6%:R : rat) (vec2 1 1) (vec2 1 1) = 3%:R.
Proof. by rewrite /mixed_number !big_ord_recl !big_ord0; apply/eqP. Qed.

(** C100: the averaged density matrix carries the number of electrons. *)
Theorem C100_open_shell (F : fieldType) (conj : {rmorphism F -> F}) p na nb
  (Ta : 'M[F]_(p, na)) (Tb : 'M[F]_(p, nb)) (ws : seq (F * ('M[F]_(p, na) * 'M[F]_(p, nb)))) :
  (forall w, w \in ws -> slater conj Ta w.2.1 != 0 /\ slater conj Tb w.2.2 != 0) ->
  \sum_(w <- ws) w.1 != 0 ->
  \tr (rho [seq (w.1, gf_total_uhf (gfull conj w.2.1 Ta) (gfull conj w.2.2 Tb)) | w <- ws])
  = (na + nb)%:R.
Proof. exact: rho_trace_uhf. Qed.
Print Assumptions C100_open_shell.
Theorem C100_closed_shell (F : fieldType) (conj : {rmorphism F -> F}) p n
  (T : 'M[F]_(p, n)) (ws : seq (F * 'M[F]_(p, n))) :
  (forall w, w \in ws -> slater conj T w.2 != 0) -> \sum_(w <- ws) w.1 != 0 ->
  \tr (rho [seq (w.1, gf_total_rhf (gfull conj w.2 T)) | w <- ws]) = (2 * n)%:R.
Proof. exact: rho_trace_rhf. Qed.
Print Assumptions C100_closed_shell.
Example C100_example : (forall w, w \in [:: (1 : rat, exW); (2%:R, exQ)] -> slater idr exT w.2 != 0)
  /\ \sum_(w <- [:: (1 : rat, exW); (2%:R, exQ)]) w.1 != 0.
Proof.
split; last by rewrite !big_cons big_nil.
by move=> w; rewrite !inE => /orP[] /eqP-> /=; [exact: ex_slW|exact: ex_slQ].
Qed.

(** C101: <b^+ + b> should not depend on the scale of the bosonic walkers. *)
Theorem C101_scale_refuted : exists (c : rat) (ws : seq (rat * ('I_2 -> rat))), c != 0 /\
  qalpha idr sq01 [seq (w.1, fun i => c * w.2 i) | w <- ws] <> qalpha idr sq01 ws.
Proof. exact: (ex_intro _ 2%:R (ex_intro _ [:: (1, vec2 1 1)] (conj isT qalpha_bad))). Qed.
Print Assumptions C101_scale_refuted.
Theorem C101_phase_partial (F : fieldType) (conj : {rmorphism F -> F}) (s : nat -> F) d
  (ws : seq (F * ('I_d -> F))) c : c * conj c = 1 ->
  qalpha conj s [seq (w.1, fun i => c * w.2 i) | w <- ws] = qalpha conj s ws.
Proof. exact: qalpha_phase. Qed.
Print Assumptions C101_phase_partial.
Example C101_example : ('i : algC) * conjr 'i = 1.
Proof. by rewrite /= conjCi mulrN -expr2 sqrCi opprK. Qed.
