(** Model of the strong-coupling QED-HF energy and of the gradients of its
    variational parameters, openms/mqed/scqedhf.py and vtqedhf.py, for one
    photon mode and in the dipole basis (the code transforms the operators back
    to atomic orbitals and contracts them with the density there; that change
    of basis is not part of this model).

    [n] is the number of orbitals, [D] the density matrix dm_do[0], [h] the bare
    one-electron matrix and [eri] the two-electron integrals in the dipole basis,
    [g] the diagonal of the coupling matrix (gtmp), [om] the frequency.  The
    Franck-Condon factor of one element of diff_eta and its derivative enter as
    functions [G] and [dG] (FC_factor and gaussian_derivative_* of
    BosonModel.v). *)
From Coq Require Import Reals.
From Verif Require Import Base BosonModel.
Open Scope R_scope.

Section Scq.
Variables (n : nat) (D : mat) (om : R).

(** g_dipole, scqedhf.py 925 *)
Definition g_dipole (g eta : nat -> R) (p : nat) : R := g p - eta p.
(** h1e_DO, 912-926: the diagonal gets g_dipole^2 / omega *)
Definition h1e_DO (h : mat) (gd : nat -> R) : mat := fun p q =>
  h p q + (if (p =? q)%nat then gd p ^ 2 / om else 0).
(** get_hcore, 959-968, before the transformation back *)
Definition hcore_do (h : mat) (gd eta : nat -> R) (G : R -> R) : mat := fun p q =>
  h1e_DO h gd p q * G (diff1 eta 0 p q).

(** get_veff, 1008-1024: dipole self-energy part *)
Definition veff_dse (gd : nat -> R) : mat := fun p q =>
  let gD := sumn n (fun r => D r r * gd r) in
  if (p =? q)%nat then (2 * gd p * gD - gd p ^ 2 * D p p) / om
  else if (p <? q)%nat then - (gd p * gd q * D q p / om)
  else - (gd q * gd p * D p q / om).
(** 1065-1069 (numpy adds the transposed view without aliasing): two-electron part with the full integrals *)
Definition veff_half (eri : nat -> nat -> nat -> nat -> R) (eta : nat -> R) (G : R -> R) : mat := fun p q =>
  1/2 * sumn n (fun r => sumn n (fun s => G (diff2 eta p q r s) * (1 * eri p q r s - 1/2 * eri p s r q) * D r s)).
Definition veff_eri (eri : nat -> nat -> nat -> nat -> R) (eta : nat -> R) (G : R -> R) : mat := fun p q =>
  veff_half eri eta G p q + veff_half eri eta G q p.
(** 1032-1052: two-electron part with [nx] Cholesky vectors [L] *)
Definition chol_J (nx : nat) (L : nat -> mat) (p q r s : nat) : R := sumn nx (fun X => L X p q * L X r s).
Definition chol_K (nx : nat) (L : nat -> mat) (p q r s : nat) : R := sumn nx (fun X => L X p s * L X r q).
Definition veff_chol (nx : nat) (L : nat -> mat) (eta : nat -> R) (G : R -> R) : mat := fun p q =>
  let shift := eta p - eta q in
  sumn n (fun r => sumn n (fun s =>
    (chol_J nx L p q r s - 1/2 * chol_K nx L p q r s) * D r s * G (diff1 eta shift r s))).
Definition veff_do (v2 : mat) (gd : nat -> R) : mat := fun p q => veff_dse gd p q + v2 p q.

(** pyscf's energy_elec: Tr(h D) + 1/2 Tr(v D) *)
Definition energy (hc v : mat) : R :=
  sumn n (fun p => sumn n (fun q => hc p q * D q p)) + sumn n (fun p => sumn n (fun q => v p q * D q p)) * (1/2).
(** the energy of the SCF with parameters g, eta *)
Definition sc_energy (h : mat) (eri : nat -> nat -> nat -> nat -> R) (G : R -> R) (g eta : nat -> R) : R :=
  let gd := g_dipole g eta in
  energy (hcore_do h gd eta G) (veff_do (veff_eri eri eta G) gd).

(** get_eta_gradient, 620-678 *)
Definition deta_one (h : mat) (gd eta : nat -> R) (dG : R -> R) (p : nat) : R :=
  - (2 * D p p * gd p / om)
  + sumn n (fun q => 2 * h1e_DO h gd p q * D p q * dG (diff1 eta 0 p q)
                     - (2 * D p p * D q q - D p q * D q p) * gd q / om).
Definition deta_two (eri : nat -> nat -> nat -> nat -> R) (eta : nat -> R) (dG : R -> R) (p : nat) : R :=
  sumn n (fun q => sumn n (fun r => sumn n (fun s =>
    dG (diff2 eta p q r s) * (2 * eri p q r s - eri p s r q) * D r s)) * D p q).
Definition deta_two_chol (nx : nat) (L : nat -> mat) (eta : nat -> R) (dG : R -> R) (p : nat) : R :=
  sumn n (fun q => let shift := eta p - eta q in
    sumn n (fun r => sumn n (fun s =>
      (2 * chol_J nx L p q r s - chol_K nx L p q r s) * dG (diff1 eta shift r s) * D r s)) * D p q).
Definition eta_grad (h : mat) (eri : nat -> nat -> nat -> nat -> R) (g eta : nat -> R) (dG : R -> R) (p : nat) : R :=
  deta_one h (g_dipole g eta) eta dG p + deta_two eri eta dG p.

(** grad_var_params, vtqedhf.py 468-514: the part from the dressed energy (the
    residual dipole self-energy added at 525 is in QhfModel.v); [dGf] is
    gaussian_derivative_f_vector *)
Definition dvlf (h : mat) (eri : nat -> nat -> nat -> nat -> R) (g eta : nat -> R) (f : R) (dGf : R -> R) : R :=
  let gd := g_dipole g eta in
  (if Rlt_dec (1 / 100000) (Rabs f) then 2 * sumn n (fun p => D p p * gd p ^ 2) / om / f else 0)
  + (sumn n (fun p => sumn n (fun q => h1e_DO h gd p q * dGf (diff1 eta 0 p q) * D p q))
     + (2 * (sumn n (fun p => D p p * gd p) * sumn n (fun p => D p p * gd p))
        - sumn n (fun p => sumn n (fun q => D p q * D p q * gd p * gd q))) / om / f)
  + sumn n (fun p => sumn n (fun q => sumn n (fun r => sumn n (fun s =>
      dGf (diff2 eta p q r s) * (2 * eri p q r s - eri p s r q) * D r s)) * D p q)) / 4.

(** ... its two-electron part with Cholesky vectors, 497-505 *)
Definition dvlf_two_chol (nx : nat) (L : nat -> mat) (eta : nat -> R) (dGf : R -> R) : R :=
  sumn n (fun p => sumn n (fun q => let shift := eta p - eta q in
    sumn n (fun r => sumn n (fun s =>
      (2 * chol_J nx L p q r s - chol_K nx L p q r s) * dGf (diff1 eta shift r s) * D r s)) * D p q / 4)).

(** get_vsq_gradient, vtqedhf.py 275-315, without the photon energy part added
    at 318; its diff_eta has the orbitals exchanged (186-191) *)
Definition dvsq (h : mat) (eri : nat -> nat -> nat -> nat -> R) (g eta : nat -> R) (dGF : R -> R) : R :=
  let gd := g_dipole g eta in
  sumn n (fun p => sumn n (fun q => h1e_DO h gd p q * dGF (diff1 eta 0 q p) * D p q))
  + sumn n (fun p => sumn n (fun q => sumn n (fun r => sumn n (fun s =>
      dGF (diff2 eta q p s r) * (2 * eri p q r s - eri p s r q) * D r s)) * D p q)) / 4.
(** ... with Cholesky vectors, 299-307: shift = eta_q - eta_p *)
Definition dvsq_two_chol (nx : nat) (L : nat -> mat) (eta : nat -> R) (dGF : R -> R) : R :=
  sumn n (fun p => sumn n (fun q => let shift := eta q - eta p in
    sumn n (fun r => sumn n (fun s =>
      (2 * chol_J nx L p q r s - chol_K nx L p q r s) * dGF (diff1 eta shift s r) * D r s)) * D p q / 4)).
(** grad_var_params_together (vtqedhf.py 380-391) uses that shift for the
    unreversed difference in the f and eta gradients as well *)
Definition dvlf_two_together (nx : nat) (L : nat -> mat) (eta : nat -> R) (dGf : R -> R) : R :=
  sumn n (fun p => sumn n (fun q => let shift := eta q - eta p in
    sumn n (fun r => sumn n (fun s =>
      (2 * chol_J nx L p q r s - chol_K nx L p q r s) * D r s * dGf (diff1 eta shift r s))) * D p q / 4)).
End Scq.
