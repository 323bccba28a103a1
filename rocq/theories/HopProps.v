(** Properties of the lattice models and of the surface-hopping Hamiltonian:
    C59, C61, C80, C139. *)
From Verif Require Import Base HopModel HopSpec HopProofs.
Open Scope Z_scope.

(** C59.  Chains of two or more sites (Hubbard1D): -1 exactly on the bonds. *)
Theorem C59_hubbard_partial : forall bc L, bc <> Other -> (2 <= L)%nat ->
  exists t, tmatS bc L = Ok t /\ hopping bc L (-1) t /\ symmetric L t.
Proof. exact hubbard_chain. Qed.
Print Assumptions C59_hubbard_partial.
Example C59_ex : exists t, tmatS Periodic 4 = Ok t /\ t 0%nat 3%nat = -1 /\ t 0%nat 2%nat = 0.
Proof. eexists. split; [reflexivity|]. split; reflexivity. Qed.
(** One site: the open chain raises, the periodic one hops onto itself. *)
Theorem C59_single_open_refuted : exists e, tmatS Open_ 1 = Err e.
Proof. exact (ex_intro _ _ hubbard_one_open). Qed.
Print Assumptions C59_single_open_refuted.
Theorem C59_single_periodic_refuted :
  exists t, tmatS Periodic 1 = Ok t /\ t 0%nat 0%nat = -1 /\ ~ bonded Periodic 1 0 0.
Proof. exact hubbard_one_periodic. Qed.
Print Assumptions C59_single_periodic_refuted.
(** An unknown boundary condition is rejected. *)
Theorem C59_unknown : forall L, (0 < L)%nat -> tmatS Other L = Err RuntimeError.
Proof. exact hubbard_other. Qed.
Print Assumptions C59_unknown.
(** Hubbard-Holstein: the same for three or more sites ... *)
Theorem C59_hh_partial : forall bc L, bc <> Other -> (3 <= L)%nat ->
  exists t, hh_tmatS bc L = Ok t /\ hopping bc L (-1) t /\ symmetric L t.
Proof. exact hh_chain. Qed.
Print Assumptions C59_hh_partial.
(** ... but amplitude -2 on two sites, for the open chain as well. *)
Theorem C59_hh_two_refuted : forall bc, bc <> Other ->
  exists t, hh_tmatS bc 2 = Ok t /\ hopping bc 2 (-2) t /\ symmetric 2 t.
Proof. exact hh_two. Qed.
Print Assumptions C59_hh_two_refuted.
(** The reference orbitals are computed for the same hopping matrix, except
    on the open chain of two sites. *)
Theorem C59_reference_partial : forall bc L, bc <> Other -> (2 <= L)%nat -> (L <> 2%nat \/ bc = Periodic) ->
  exists s t, hh_tmatS bc L = Ok s /\ mo_h1 bc L = Ok t /\ same L s t.
Proof. exact hh_mo_same. Qed.
Print Assumptions C59_reference_partial.
Theorem C59_reference_refuted : exists s t, hh_tmatS Open_ 2 = Ok s /\ mo_h1 Open_ 2 = Ok t /\
  s 0%nat 1%nat = -2 /\ t 0%nat 1%nat = -1.
Proof. exact hh_mo_differ. Qed.
Print Assumptions C59_reference_refuted.

(** C80.  With a symmetry-broken guess the solver gets the repulsion U; *)
Theorem C80_broken_partial : forall L U, onsite L U (mo_eri L U true).
Proof. exact mo_onsite. Qed.
Print Assumptions C80_broken_partial.
(** without one it gets none, so the orbitals do not depend on U. *)
Theorem C80_symmetric_refuted : exists L U, (0 < L)%nat /\ ~ onsite L U (mo_eri L U false).
Proof. exact mo_no_U. Qed.
Print Assumptions C80_symmetric_refuted.
Theorem C80_ignores_U : forall O (solver : Z -> mat -> (nat -> nat -> nat -> nat -> Q) -> (nat -> Q * Q) -> O) L N U U' bc,
  get_mo solver L N U false bc = get_mo solver L N U' false bc.
Proof. exact mo_ignores_U. Qed.
Print Assumptions C80_ignores_U.
Example C80_ex : mo_eri 2 4 true 1 1 1 1 = 4%Q /\ mo_eri 2 4 false 1 1 1 1 = 0%Q.
Proof. split; reflexivity. Qed.
(** An odd number of electrons is rejected. *)
Theorem C80_odd : forall O (solver : Z -> mat -> (nat -> nat -> nat -> nat -> Q) -> (nat -> Q * Q) -> O) L N U b bc,
  (2 <= L)%nat -> N mod 2 <> 0 -> get_mo solver L N U b bc = Err AssertionError.
Proof. exact mo_odd. Qed.
Print Assumptions C80_odd.

(** C61.  With one entry per pair j <= k, the matrix of every molecule is
    antisymmetric off the diagonal and holds the couplings in row order ... *)
Theorem C61_antisym_partial : forall n mols hs,
  Forall (fun m => (n <= length (fst (fst m)))%nat /\ (n * (n + 1) <= 2 * length (snd (fst m)))%nat) mols ->
  get_H n mols = Ok hs -> Forall (antisym n) hs.
Proof. exact get_H_antisym. Qed.
Print Assumptions C61_antisym_partial.
Theorem C61_couplings_partial : forall n e d h H, (n <= length e)%nat -> (n * (n + 1) <= 2 * length d)%nat ->
  get_H1 n e d h = Ok H -> forall j k, (j < k < n)%nat ->
  nth_error d (j * (2 * n + 1 - j) / 2 + (k - j)) = Some (H j k).
Proof. exact get_H1_couplings. Qed.
Print Assumptions C61_couplings_partial.
Example C61_ex : exists H, get_H1 2 [1; 2]%Q [0; 3; 0]%Q (fun _ _ => 0%Q) = Ok H /\ H 0%nat 1%nat = 3%Q.
Proof. eexists. split; reflexivity. Qed.
(** ... but the diagonal is overwritten with minus an entry of the couplings *)
Theorem C61_diagonal : forall n e d h H, (n <= length e)%nat -> (n * (n + 1) <= 2 * length d)%nat ->
  get_H1 n e d h = Ok H -> forall j, (j < n)%nat ->
  exists x, nth_error d (j * (2 * n + 1 - j) / 2) = Some x /\ H j j = (- x)%Q.
Proof. exact get_H1_diag. Qed.
Print Assumptions C61_diagonal.
Theorem C61_energies_refuted : exists n e d h H, (n <= length e)%nat /\ get_H1 n e d h = Ok H /\ ~ diag_ok n e H.
Proof. exact get_H_refuted. Qed.
Print Assumptions C61_energies_refuted.
(** and one entry per pair j < k, the number of distinct couplings, raises. *)
Theorem C61_short_refuted : forall n e d h, (n <= length e)%nat -> (2 * length d < n * (n + 1))%nat ->
  get_H1 n e d h = Err IndexError.
Proof. exact get_H1_short. Qed.
Print Assumptions C61_short_refuted.

(** C139.  Population is conserved for a symmetric matrix, but not for the
    antisymmetric one that get_H builds. *)
Theorem C139_symmetric_partial : forall n h c,
  (forall j k, (j < n)%nat -> (k < n)%nat -> (h j k == h k j)%Q) -> (norm_rate n c (coef_dot n h c) == 0)%Q.
Proof. exact norm_rate_sym. Qed.
Print Assumptions C139_symmetric_partial.
Theorem C139_population_refuted : exists n e d h H c, get_H1 n e d h = Ok H /\ antisym n H /\
  ~ (norm_rate n c (coef_dot n H c) == 0)%Q.
Proof. exact norm_rate_refuted. Qed.
Print Assumptions C139_population_refuted.
