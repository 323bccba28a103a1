(** Properties of the QED-HF mean field. *)
From mathcomp Require Import all_ssreflect all_algebra.
From Verif Require Import QhfModel QhfSpec QhfProofs.
From Verif Require Base.
Set Implicit Arguments. Unset Strict Implicit.
Unset Printing Implicit Defensive.
Import GRing.Theory Num.Theory. Local Open Scope ring_scope.

(** C46: the pairs of routines for the interaction matrices, when the dipole
    and quadrupole integrals are stored on the object. *)
Theorem C46_dipole_partial (F : realFieldType) n m vec couplings dip0 (dip : 'I_3 -> 'M[F]_n) :
  exists g, get_gmat_ao vec couplings (Some dip) = Base.Ok g /\
  forall a : 'I_m, g a = get_gmatao vec couplings dip0 (Some dip) None a.
Proof. exact (gmat_agree vec couplings dip0 dip). Qed.
Print Assumptions C46_dipole_partial.
Theorem C46_quadrupole_partial (F : realFieldType) n m vec couplings quad0 (quad : nat -> 'M[F]_n) :
  exists g, get_q_lambda_ao vec couplings (Some quad) = Base.Ok g /\
  forall a : 'I_m, g a = get_q_dot_lambda vec couplings quad0 (Some quad) None a.
Proof. exact (q_agree vec couplings quad0 quad). Qed.
Print Assumptions C46_quadrupole_partial.
Theorem C46_electron_boson (F : realFieldType) n m vec couplings bilinear (dip0 : 'I_3 -> 'M[F]_n) dip sw :
  (forall a : 'I_m, bilinear a = couplings a * sw a) ->
  forall a, get_geb_ao vec bilinear dip0 dip a = sw a *: get_gmatao vec couplings dip0 dip None a.
Proof. exact (@geb_agree F n m vec couplings bilinear dip0 dip sw). Qed.
Print Assumptions C46_electron_boson.
(** On a fresh object one of each pair fails. *)
Theorem C46_fresh_refuted (F : realFieldType) n m (vec : 'I_m -> 'I_3 -> F) couplings :
  (exists e, @get_gmat_ao F n m vec couplings None = Base.Err e) /\
  (exists e, @get_q_lambda_ao F n m vec couplings None = Base.Err e).
Proof. by split; eexists. Qed.
Print Assumptions C46_fresh_refuted.

(** C47: over any history of densities, every potential produced is the one
    belonging to its density, whether or not increments are used. *)
Theorem C47_history (F : realFieldType) n m bare fuel (q : qed F n m) he fits direct dms :
  (forall a, sym (gmat q a)) -> additive bare -> he || fits ->
  scf_veff bare fuel.+1 q he fits direct 0 0 dms = Base.Ok (map (want_veff bare q) dms).
Proof. exact (@scf_ok F n m bare fuel q he fits direct dms). Qed.
Print Assumptions C47_history.
Example C47_ex : additive (fun D : 'M[rat]_2 => (D, D^T)).
Proof. by move=> a b; split; rewrite //= linearB. Qed.

(** C48: moving the origin. *)
Theorem C48_origin (F : realFieldType) n m (q : qed F n m) S V (N : F) D c :
  (forall a, sym (gmat q a)) -> sym S -> add_dse q -> use_cs q ->
  N != 0 -> closed_shell S N D -> (forall a, ph q a = 0) -> (~~ complete_basis q -> V *m S = 1%:M) ->
  dse_energy (moved S c q) S V N D = dse_energy q S V N D.
Proof. exact (@origin F n m q S V N D c). Qed.
Print Assumptions C48_origin.
Example C48_ex : let q := q1 0 0 0 true true in [/\ forall a, sym (gmat q a), add_dse q && use_cs q &
  closed_shell (1%:M : 'M[rat]_1) 2%:R (2%:R *: 1%:M)].
Proof. exact origin_ex. Qed.

(** C50: when the integrals neither are nor fit in memory the call never
    returns, whatever the recursion limit. *)
Theorem C50_out_of_core_refuted (F : realFieldType) n m bare fuel (q : qed F n m) wj wk D :
  get_jk bare fuel q false false false wj wk D = Base.Err Base.RecursionError.
Proof. exact (@get_jk_loop F n m bare fuel q false false false wj wk D isT). Qed.
Print Assumptions C50_out_of_core_refuted.
Theorem C50_range_separated_refuted (F : realFieldType) n m bare fuel (q : qed F n m) he fits wj wk D :
  get_jk bare fuel q he fits true wj wk D = Base.Err Base.RecursionError.
Proof. exact (@get_jk_loop F n m bare fuel q he fits true wj wk D isT). Qed.
Print Assumptions C50_range_separated_refuted.
(** Partial: one call suffices when they fit. *)
Theorem C50_in_memory_partial (F : realFieldType) n m bare fuel (q : qed F n m) he fits D :
  (forall a, sym (gmat q a)) -> he || fits ->
  get_jk bare fuel.+1 q he fits false true true D
  = Base.Ok (Some (want_j bare q D), Some (want_k bare q D), true).
Proof. exact (@jk_ok F n m bare fuel q he fits D). Qed.
Print Assumptions C50_in_memory_partial.

(** C122: the two routines for the self-energy Coulomb and exchange matrices. *)
Theorem C122_agree_partial (F : realFieldType) n m (q : qed F n m) (r : bool) D :
  (forall a, sym (gmat q a)) -> sym D -> (r -> add_dse q) ->
  vj_dse q r D = j_dse q r D /\ vk_dse q r D = k_dse q r D.
Proof. exact (@jk_agree F n m q r D). Qed.
Print Assumptions C122_agree_partial.
Theorem C122_residue_refuted : exists (q : qed [realFieldType of rat] 1 1) (D : 'M[rat]_1),
  [/\ forall a, sym (gmat q a), sym D,
  couplings_res q = (fun a => 1 - couplings_var q a) & vj_dse q true D <> j_dse q true D].
Proof. exact jk_disagree. Qed.
Print Assumptions C122_residue_refuted.

(** C123: the photon part of the energy is the sum of the dipole fluctuations
    (and the photon energy). *)
Theorem C123_fluctuation (F : realFieldType) n m (q : qed F n m) S V (N : F) D :
  (forall a, sym (gmat q a)) -> add_dse q -> use_cs q ->
  N != 0 -> \tr (S *m D) = N -> (forall a, ph q a = 0) ->
  dse_energy q S V N D = \sum_a fluctuation D (gmat q a) (square_matrix q V a) + e_boson q.
Proof. exact (@energy_vac F n m q S V N D). Qed.
Print Assumptions C123_fluctuation.

(** C124: the Fock matrix is the gradient of the energy on densities with a
    fixed number of electrons: the change of the energy is linear in the
    change X of the density up to the quadratic exchange term. *)
Theorem C124_gradient (F : realFieldType) n m (q : qed F n m) S V (N : F) D X :
  (forall a, sym (gmat q a)) -> add_dse q -> use_cs q ->
  N != 0 -> \tr (S *m D) = N -> \tr (S *m X) = 0 -> (forall a, ph q a = 0) ->
  dse_energy q S V N (D + X) = dse_energy q S V N D + \tr (dse_fock q S V N D *m X)
    - 2%:R^-1 * 2%:R^-1 * (\sum_a \tr (X *m gmat q a *m X *m gmat q a)).
Proof. exact (@gradient F n m q S V N D X). Qed.
Print Assumptions C124_gradient.
Example C124_ex : exists (S D X : 'M[rat]_2), [/\ \tr (S *m D) = 2%:R, \tr (S *m X) = 0 & X <> 0].
Proof. exact gradient_ex. Qed.

(** C125: the bilinear term of a mode with <b + b^+> = ph. *)
Theorem C125_bilinear_refuted : exists (q : qed [realFieldType of rat] 1 1) (D : 'M[rat]_1),
  [/\ closed_shell 1%:M 2%:R D, use_cs q &
  dse_energy q 1%:M 1%:M 2%:R D <> dse_energy (without_photons q) 1%:M 1%:M 2%:R D
   + \sum_a ph q a * sw q a * couplings_res q a * (mean D (gmat q a) - z_alpha (update_cs q D) a)].
Proof. exact bilinear_wrong. Qed.
Print Assumptions C125_bilinear_refuted.
(** Partial: the displacement enters once per electron. *)
Theorem C125_bilinear_partial (F : realFieldType) n m (q : qed F n m) S V (N : F) D :
  dse_energy q S V N D = dse_energy (without_photons q) S V N D
  + \sum_a ph q a * sw q a * couplings_res q a * (mean D (gmat q a) - z_alpha (update_cs q D) a * \tr (S *m D)).
Proof. exact (@bilinearE F n m q S V N D). Qed.
Print Assumptions C125_bilinear_partial.

(** C126: asking for one of the two matrices. *)
Theorem C126_flags_refuted (F : realFieldType) n m bare fuel (q : qed F n m) he fits wj wk D :
  he || fits -> add_dse q -> ~~ (wj && wk) ->
  get_jk bare fuel.+1 q he fits false wj wk D = Base.Err Base.TypeError.
Proof. exact (@get_jk_flags F n m bare fuel q he fits wj wk D). Qed.
Print Assumptions C126_flags_refuted.
Theorem C126_both_partial (F : realFieldType) n m bare fuel (q : qed F n m) he fits D :
  (forall a, sym (gmat q a)) -> he || fits ->
  get_jk bare fuel.+1 q he fits false true true D
  = Base.Ok (Some (want_j bare q D), Some (want_k bare q D), true).
Proof. exact (@jk_ok F n m bare fuel q he fits D). Qed.
Print Assumptions C126_both_partial.

(** C127: both treatments of the squared dipole. *)
Theorem C127_basis (F : realFieldType) n m (q : qed F n m) S V N r :
  (forall a, - q_lambda q a = gmat q a *m V *m gmat q a) ->
  oei (with_basis q true) S V N r = oei (with_basis q false) S V N r.
Proof. exact (@basis_agree F n m q S V N r). Qed.
Print Assumptions C127_basis.

(** C128: derivatives with respect to the variational parameters. *)
Theorem C128_oei_partial (F : realFieldType) n m (q : qed F n m) S V (N : F) f : exists W, forall h,
  oei (with_f q (fun a => f a + h)) S V N true =
  oei (with_f q f) S V N true + h *: oei_grad (with_f q f) S V N + (h * h) *: W.
Proof. exact (oei_shift q S V N f). Qed.
Print Assumptions C128_oei_partial.
Theorem C128_vjk_partial (F : realFieldType) n m (q : qed F n m) D f : exists W, forall h,
  vj_dse (with_f q (fun a => f a + h)) true D - 2%:R^-1 *: vk_dse (with_f q (fun a => f a + h)) true D =
  vj_dse (with_f q f) true D - 2%:R^-1 *: vk_dse (with_f q f) true D + h *: grad_vjk (with_f q f) D + (h * h) *: W.
Proof. exact (jk_shift q D f). Qed.
Print Assumptions C128_vjk_partial.
(** Refuted for one mode of two: the gradient is summed over the modes. *)
Theorem C128_one_mode_refuted (F : realFieldType) : exists q : qed F 1 2, ~ exists W, forall h : F,
  oei (with_f q (fun a => if a == ord0 then h else 0)) 0 1%:M 2%:R true =
  oei (with_f q (fun _ => 0)) 0 1%:M 2%:R true + h *: oei_grad (with_f q (fun _ => 0)) 0 1%:M 2%:R + (h * h) *: W.
Proof. by exists (q2 F); exact: grad_one_mode. Qed.
Print Assumptions C128_one_mode_refuted.
Theorem C128_without_residue_refuted (F : realFieldType) n m (q : qed F n m) dm S V N :
  add_oei_ao_grad q dm S V N false = Base.Err Base.UnboundLocalError.
Proof. by []. Qed.
Print Assumptions C128_without_residue_refuted.

(** C129: the Fock matrix of the stored density. *)
Theorem C129_no_density_refuted : exists (q : qed [realFieldType of rat] 1 1) (D : 'M[rat]_1),
  [/\ closed_shell 1%:M 2%:R D, use_cs q &
  forall bare_h veff_of h1e vhf, let oei_of d := (add_oei_ao q d 1%:M 1%:M 2%:R false).2 in
  get_fock bare_h oei_of veff_of D h1e vhf None <> get_fock bare_h oei_of veff_of D h1e vhf (Some D)].
Proof. exact fock_witness. Qed.
Print Assumptions C129_no_density_refuted.
Theorem C129_density_partial (F : realFieldType) n bare_h oei_of veff_of (rdm1 : 'M[F]_n) h1e vhf (d : 'M[F]_n) :
  get_fock bare_h oei_of veff_of rdm1 h1e vhf (Some d) = bare_h + oei_of d + (if vhf is Some v then v else veff_of d).
Proof. exact (@fock_dm F n bare_h oei_of veff_of rdm1 h1e vhf d). Qed.
Print Assumptions C129_density_partial.

(** C130: level shift and damping. *)
Theorem C130_level_shift_refuted (F : realFieldType) n (f : 'M[F]_n) cycle start ls d :
  10000%:R^-1 < `|ls| -> fock_tail f cycle start ls d = Base.Err Base.NameError.
Proof. exact (@tail_bad F n f cycle start ls d). Qed.
Print Assumptions C130_level_shift_refuted.
Theorem C130_none_partial (F : realFieldType) n (f : 'M[F]_n) cycle start ls d :
  `|d| <= 10000%:R^-1 -> `|ls| <= 10000%:R^-1 -> fock_tail f cycle start ls d = Base.Ok f.
Proof. exact (@tail_ok F n f cycle start ls d). Qed.
Print Assumptions C130_none_partial.
