(** Properties of the strong-coupling QED-HF energy and gradients: C132, C133,
    C154-C157. *)
From Coq Require Import Reals Lra Lia.
From Verif Require Import Base BosonModel BosonSpec BosonProofs ScqModel ScqSpec ScqProofs.
Open Scope R_scope.

(** C156.  The energy computed from get_hcore and get_veff is the expectation
    value of the transformed Hamiltonian. *)
Theorem C156_energy : forall mdim ci F n D h eri om G g eta,
  good_state mdim ci -> om <> 0 -> eri_sym eri -> sym D ->
  (forall x, FC_factor mdim ci F om x = Ok (G x)) ->
  sc_energy n D om h eri G g eta = expected_energy n D h eri om G g eta.
Proof. exact good_energy. Qed.
Print Assumptions C156_energy.
Example C156_ex : good_state 1 (fun _ => 1) /\ good_state 2 ground /\
  expected_energy 1 (fun _ _ => 2) (fun _ _ => 1) (fun _ _ _ _ => 1) 2 (fun _ => 1) (fun _ => 3) (fun _ => 1) = 11.
Proof.
  split; [left; lia|]. split.
  - right. split; [intros m k Hm _; unfold ground; destruct m; [lia|]; cbn; ring|cbn [sum_below]; unfold ground; cbn; ring].
  - unfold expected_energy, sum4, sum2. cbn [sum_below]. field.
Qed.

(** C132.  get_eta_gradient is the derivative of that energy in each displacement:
    for the vacuum factor, and with several photon states when exp F = omega. *)
Theorem C132_eta_gradient_partial : forall mdim ci F n D om h eri G g eta p,
  good_state mdim ci -> ((1 < mdim)%nat -> exp F = om) -> om <> 0 -> sym D -> sym h -> eri_sym eri ->
  (forall x, FC_factor mdim ci F om x = Ok (G x)) -> (p < n)%nat ->
  derivable_pt_lim (fun x => sc_energy n D om h eri G g (set_at eta p x)) (eta p)
    (eta_grad n D om h eri g eta (gaussian_derivative_vectorized mdim ci F om) p).
Proof. exact good_eta. Qed.
Print Assumptions C132_eta_gradient_partial.
(** With more than one photon state and exp F <> omega it is not. *)
Theorem C132_eta_gradient_refuted : exists n D om h eri G g eta p,
  good_state 2 ground /\ sym D /\ sym h /\ eri_sym eri /\ 0 < om /\ (p < n)%nat /\
  (forall x, FC_factor 2 ground 0 om x = Ok (G x)) /\
  ~ derivable_pt_lim (fun x => sc_energy n D om h eri G g (set_at eta p x)) (eta p)
    (eta_grad n D om h eri g eta (gaussian_derivative_vectorized 2 ground 0 om) p).
Proof. exact eta_wrong. Qed.
Print Assumptions C132_eta_gradient_refuted.

(** C133.  The potential is symmetric, self-adjoint as a map of densities, the
    Cholesky path gives the same two-electron part as the four-index path, and
    hcore + veff is the derivative of the energy with respect to the density. *)
Theorem C133_symmetric : forall n eri om G, om <> 0 -> forall D g eta p q, sym D ->
  veff_do n D om (veff_eri n D eri eta G) (g_dipole g eta) p q = veff_do n D om (veff_eri n D eri eta G) (g_dipole g eta) q p.
Proof. exact veff_symmetric. Qed.
Print Assumptions C133_symmetric.
Theorem C133_self_adjoint : forall mdim ci F n eri om G D D' g eta,
  good_state mdim ci -> om <> 0 -> eri_sym eri -> sym D -> sym D' ->
  (forall x, FC_factor mdim ci F om x = Ok (G x)) ->
  sum2 n (fun p q => veff_do n D om (veff_eri n D eri eta G) (g_dipole g eta) p q * D' p q) =
  sum2 n (fun p q => veff_do n D' om (veff_eri n D' eri eta G) (g_dipole g eta) p q * D p q).
Proof. exact good_potential. Qed.
Print Assumptions C133_self_adjoint.
Theorem C133_cholesky : forall mdim ci F n D eri om G nx L eta p q,
  good_state mdim ci -> eri_sym eri -> sym D -> (forall X, sym (L X)) ->
  (forall x, FC_factor mdim ci F om x = Ok (G x)) ->
  (forall p q r s, eri p q r s = sum_below nx (fun X => L X p q * L X r s)) ->
  veff_chol n D nx L eta G p q = veff_eri n D eri eta G p q.
Proof. exact good_chol. Qed.
Print Assumptions C133_cholesky.
Theorem C133_fock : forall mdim ci F n h eri om G D D' g eta,
  good_state mdim ci -> om <> 0 -> eri_sym eri -> sym D -> sym D' ->
  (forall x, FC_factor mdim ci F om x = Ok (G x)) ->
  derivable_pt_lim (fun t => sc_energy n (fun p q => D p q + t * D' p q) om h eri G g eta) 0
    (sum2 n (fun p q => (hcore_do om h (g_dipole g eta) eta G p q
                         + veff_do n D om (veff_eri n D eri eta G) (g_dipole g eta) p q) * D' p q)).
Proof. exact good_fock. Qed.
Print Assumptions C133_fock.
Example C133_ex : veff_dse 2 (fun p q => if (p =? q)%nat then 1 else 1/2) 2 (fun p => INR p) 1%nat 1%nat = 1/2.
Proof. unfold veff_dse, sumn. cbn. field. Qed.

(** C154.  The gradient in f of grad_var_params is the derivative of the energy
    when the displacements are scaled along with the coupling ... *)
Theorem C154_joint_scaling_partial : forall mdim ci F n D om h eri G g0 x f,
  good_state mdim ci -> om <> 0 -> sym D -> eri_sym eri ->
  (forall x, FC_factor mdim ci F om x = Ok (G x)) -> 1 / 100000 < Rabs f ->
  derivable_pt_lim (fun y => sc_energy n D om h eri G (fun k => y * g0 k) (fun k => y * x k)) f
    (dvlf n D om h eri (fun k => f * g0 k) (fun k => f * x k) f (gaussian_derivative_f mdim ci F om f)).
Proof. exact good_fgrad. Qed.
Print Assumptions C154_joint_scaling_partial.
(** ... and not the partial derivative at fixed displacements, although f and the
    displacements are independent parameters of the optimiser. *)
Theorem C154_fixed_displacements_refuted : exists n D om h eri G g0 eta f,
  (forall x, FC_factor 1 one 0 om x = Ok (G x)) /\ sym D /\ eri_sym eri /\ 0 < om /\ 0 < f < 1 /\
  exists l, derivable_pt_lim (fun y => sc_energy n D om h eri G (fun k => y * g0 k) eta) f l /\
    l <> dvlf n D om h eri (fun k => f * g0 k) eta f (gaussian_derivative_f 1 one 0 om f).
Proof. exact f_partial_wrong. Qed.
Print Assumptions C154_fixed_displacements_refuted.

(** C155.  get_vsq_gradient is the derivative of the energy in the squeezing
    parameter. *)
Theorem C155_squeezing_gradient : forall mdim ci F n D om h eri G g eta,
  good_state mdim ci -> om <> 0 -> sym D -> eri_sym eri ->
  (forall y x, FC_factor mdim ci y om x = Ok (G y x)) ->
  derivable_pt_lim (fun y => sc_energy n D om h eri (G y) g eta) F
    (dvsq n D om h eri g eta (gaussian_derivative_sq mdim ci F om)).
Proof. exact good_sq. Qed.
Print Assumptions C155_squeezing_gradient.
Example C155_ex : dvsq 2 (fun _ _ => 1) 1 (fun p q => if (p =? q)%nat then 0 else 1) (fun _ _ _ _ => 0)
  (fun k => INR k) (fun k => INR k) (gaussian_derivative_sq 1 one 0 1) = - 2 * exp (- (1/2)).
Proof.
  unfold dvsq, h1e_DO, g_dipole, diff1, diff2, sumn, gaussian_derivative_sq. cbn [seq map lsum fold_right Nat.eqb Nat.ltb Nat.leb INR].
  rewrite exp_0. replace (- (1 / 2) * (1 / 1 * (1 - 0 + 0)) ^ 2) with (- (1/2)) by field.
  replace (- (1 / 2) * (1 / 1 * (0 - 1 + 0)) ^ 2) with (- (1/2)) by field. field.
Qed.

(** C157.  Each gradient's Cholesky path equals its four-index path ... *)
Theorem C157_eta : forall n D eri nx L eta dG p,
  (forall p q r s, eri p q r s = sum_below nx (fun X => L X p q * L X r s)) ->
  deta_two_chol n D nx L eta dG p = deta_two n D eri eta dG p.
Proof. exact eta_chol. Qed.
Print Assumptions C157_eta.
Theorem C157_f : forall n D eri nx L eta dG,
  (forall p q r s, eri p q r s = sum_below nx (fun X => L X p q * L X r s)) ->
  dvlf_two_chol n D nx L eta dG =
  sumn n (fun p => sumn n (fun q => sumn n (fun r => sumn n (fun s =>
      dG (diff2 eta p q r s) * (2 * eri p q r s - eri p s r q) * D r s)) * D p q)) / 4.
Proof. exact f_chol. Qed.
Print Assumptions C157_f.
Theorem C157_squeezing : forall n D eri dGF nx L eta,
  (forall p q r s, eri p q r s = sum_below nx (fun X => L X p q * L X r s)) ->
  dvsq_two_chol n D nx L eta dGF =
  sumn n (fun p => sumn n (fun q => sumn n (fun r => sumn n (fun s =>
      dGF (diff2 eta q p s r) * (2 * eri p q r s - eri p s r q) * D r s)) * D p q)) / 4.
Proof. exact sq_chol. Qed.
Print Assumptions C157_squeezing.
(** ... except in grad_var_params_together. *)
Theorem C157_together_refuted : exists n D om nx L eta f eri, (forall X, sym (L X)) /\ sym D /\ 0 < om /\ 0 < f <= 1 /\
  (forall p q r s, eri p q r s = sum_below nx (fun X => L X p q * L X r s)) /\
  dvlf_two_together n D nx L eta (gaussian_derivative_f 1 one 0 om f) <>
  sumn n (fun p => sumn n (fun q => sumn n (fun r => sumn n (fun s =>
      gaussian_derivative_f 1 one 0 om f (diff2 eta p q r s) * (2 * eri p q r s - eri p s r q) * D r s)) * D p q)) / 4.
Proof. exact together_wrong. Qed.
Print Assumptions C157_together_refuted.
