{
 "claims": [
  {
   "property": "C01",
   "status": "proved",
   "theorems": [
    "C01_branching_conserves_population_and_weight"
   ]
  },
  {
   "property": "C02",
   "status": "proved",
   "theorems": [
    "C02_branching_unbiased"
   ],
   "note": "expectation over independent coins with the code's probabilities; that a uniform draw is below q with probability q is outside the model"
  },
  {
   "property": "C03",
   "status": "partial",
   "theorems": [
    "C03_branching_signed_total_refuted",
    "C03_branching_total_partial"
   ],
   "note": "the full statement is false of the code; witness in the _refuted theorem"
  },
  {
   "property": "C04",
   "status": "partial",
   "theorems": [
    "C04_outcome_partial",
    "C04_constant_branching_total_refuted",
    "C04_constant_branching_size_partial"
   ],
   "note": "the full statement is false of the code; witness in the _refuted theorem"
  },
  {
   "property": "C05",
   "status": "proved",
   "theorems": [
    "C05_reconfiguration_conserves",
    "C05_comb_conserves"
   ]
  },
  {
   "property": "C06",
   "status": "proved",
   "theorems": [
    "C06_reconfiguration_copies",
    "C06_comb_copies",
    "C06_zero_weight_never_selected",
    "C06_reconfiguration_order",
    "C06_comb_order"
   ]
  },
  {
   "property": "C07",
   "status": "proved",
   "theorems": [
    "C07_comb_is_reconfiguration",
    "C07_comb_boundary_refuted"
   ],
   "note": "the property excepts the boundary case; C07_comb_boundary_refuted shows the exception is needed"
  },
  {
   "property": "C08",
   "status": "proved",
   "theorems": [
    "C08_reconfiguration_unbiased"
   ],
   "note": "stated as a bound on every equidistant grid average of the copy count (error below 1/M for M grid offsets); the integral itself is not formalised"
  },
  {
   "property": "C09",
   "status": "proved",
   "theorems": [
    "C09_branching_population_control"
   ]
  },
  {
   "property": "C10",
   "status": "proved",
   "theorems": [
    "C10_rebalance_plan",
    "C10_plan_made_when_imbalanced"
   ]
  },
  {
   "property": "C11",
   "status": "proved",
   "theorems": [
    "C11_weight_control_normalises",
    "C11_between_control_steps"
   ]
  },
  {
   "property": "C12",
   "status": "proved",
   "theorems": [
    "C12_weights_within_ten_percent",
    "C12_recorded_total"
   ]
  },
  {
   "property": "C13",
   "status": "proved",
   "theorems": [
    "C13_rank_partition",
    "C13_every_walker_on_one_rank"
   ]
  },
  {
   "property": "C14",
   "status": "proved",
   "theorems": [
    "C14_unpack_pack",
    "C14_resampled_package"
   ]
  },
  {
   "property": "C15",
   "status": "partial",
   "theorems": [
    "C15_side_data_refuted",
    "C15_blocks_together_partial"
   ],
   "note": "the full statement is false of the code; witness in the _refuted theorem"
  },
  {
   "property": "C16",
   "status": "partial",
   "theorems": [
    "C16_shared_options_refuted",
    "C16_all_options_equal"
   ],
   "note": "the full statement is false of the code; witness in the _refuted theorem"
  },
  {
   "property": "C17",
   "status": "partial",
   "theorems": [
    "C17_requested_walkers_refuted",
    "C17_explicit_none_partial"
   ],
   "note": "the full statement is false of the code; witness in the _refuted theorem"
  },
  {
   "property": "C18",
   "status": "proved",
   "theorems": [
    "C18_schedule"
   ]
  },
  {
   "property": "C19",
   "status": "proved",
   "theorems": [
    "C19_energy_shift_window"
   ]
  },
  {
   "property": "C20",
   "status": "proved",
   "theorems": [
    "C20_green",
    "C20_overlap_size"
   ],
   "note": "the magnitude of the overlap is divided by |det R|; the sign/phase and the closed-shell power are wrong, see C84"
  },
  {
   "property": "C21",
   "status": "proved",
   "theorems": [
    "C21_blocked",
    "C21_full"
   ]
  },
  {
   "property": "C22",
   "status": "partial",
   "theorems": [
    "C22_at_most_rank",
    "C22_terminates",
    "C22_enough_rows_partial",
    "C22_reserved_refuted"
   ],
   "note": "at most rank-many vectors and termination proved; false that it fails only when the reserved rows are too few: one spare row is needed"
  },
  {
   "property": "C23",
   "status": "partial",
   "theorems": [
    "C23_eightfold_refuted",
    "C23_fourfold_partial",
    "C23_both_orders_partial"
   ],
   "note": "the eightfold symmetry is false of the generated tensor; the proved part is the fourfold one"
  },
  {
   "property": "C24",
   "status": "proved",
   "theorems": [
    "C24_find_shell",
    "C24_offsets"
   ]
  },
  {
   "property": "C25",
   "status": "partial",
   "theorems": [
    "C25_one_entry_each",
    "C25_exchange_partial",
    "C25_exchange_refuted"
   ],
   "note": "false for non-symmetric vectors (the low-rank branch misses a transpose); proved for symmetric ones. The routines have no caller in the repository"
  },
  {
   "property": "C26",
   "status": "proved",
   "theorems": [
    "C26_scheme1",
    "C26_scheme2"
   ],
   "note": "modes failing the norm test are assumed to have no coupling; the code drops any coupling below its threshold"
  },
  {
   "property": "C27",
   "status": "proved",
   "theorems": [
    "C27_projector",
    "C27_mixing"
   ]
  },
  {
   "property": "C28",
   "status": "proved",
   "theorems": [
    "C28_energy",
    "C28_force_bias"
   ]
  },
  {
   "property": "C29",
   "status": "proved",
   "theorems": [
    "C29_closed_shell"
   ]
  },
  {
   "property": "C30",
   "status": "proved",
   "theorems": [
    "C30_gather"
   ],
   "note": "the routine is marked deprecated and has no caller in the repository"
  },
  {
   "property": "C31",
   "status": "partial",
   "theorems": [
    "C31_numba_refuted"
   ],
   "note": "false of ecoul_rltensor_Ghalf_numba, which sums L.G instead of its square; that function has no caller in the repository, the energies use ecoul_rltensor_uhf"
  },
  {
   "property": "C32",
   "status": "partial",
   "theorems": [
    "C32_coupling_refuted",
    "C32_single_mode_partial",
    "C32_leading_block_partial"
   ],
   "note": "false with several modes: idx is never advanced; C32_leading_block_partial says what is computed"
  },
  {
   "property": "C33",
   "status": "partial",
   "theorems": [
    "C33_run_bound",
    "C33_step_bound",
    "C33_energy_in_window",
    "C33_energy_value",
    "C33_dead_stays_dead",
    "C33_local_nonneg",
    "C33_phase_kill_partial"
   ],
   "note": "the bound on weights and energies holds; the phase clause is proved for the phase the code uses (Im of the force-bias factor), which is not the phase of the overlap ratio"
  },
  {
   "property": "C34",
   "status": "partial",
   "theorems": [
    "C34_bound_refuted",
    "C34_bound_partial",
    "C34_unchanged_within",
    "C34_direction",
    "C34_projection_iff_one_partial",
    "C34_counter"
   ],
   "note": "false for bounds other than one: components above the bound are scaled to modulus one"
  },
  {
   "property": "C35",
   "status": "proved",
   "theorems": [
    "C35_taylor",
    "C35_linear",
    "C35_nilpotent"
   ]
  },
  {
   "property": "C36",
   "status": "partial",
   "theorems": [
    "C36_real_partial",
    "C36_hermitian_refuted"
   ],
   "note": "proved for Cholesky vectors fixed by conjugation; false for complex Hermitian ones, where the code contracts conj(L_pr) L_rq"
  },
  {
   "property": "C37",
   "status": "proved",
   "theorems": [
    "C37_tail"
   ],
   "note": "Real-number model of get_mean_std; the averaging window is the last max(1, len/N) samples."
  },
  {
   "property": "C38",
   "status": "proved",
   "theorems": [
    "C38_inliers",
    "C38_fraction"
   ],
   "note": "Real-number model.  Data whose samples are all equal are excluded here (numpy divides by zero) and treated in C74."
  },
  {
   "property": "C39",
   "status": "partial",
   "theorems": [
    "C39_blocks_partial",
    "C39_zero_block_refuted",
    "C39_short_refuted"
   ],
   "note": "Proved when the cleaned data are not constant and the autocorrelation time is positive.  Refuted otherwise: a time in (-1,0] (data 1,-1) gives block size 0 and ZeroDivisionError.  The autocorrelation in the real-number model is the direct sum, which C112 proves to be what the FFT computes (over any closed field; the passage to R is informal)."
  },
  {
   "property": "C40",
   "status": "partial",
   "theorems": [
    "C40_smallest_partial",
    "C40_none_refuted",
    "C40_none_partial",
    "C40_all_refuted",
    "C40_all_partial",
    "C40_time_partial"
   ],
   "note": "Proved when some window is self-consistent and some is not, which is always so inside get_autocorr_time.  Refuted as stated: without a self-consistent window the answer is 0, and when all are the answer is the last index."
  },
  {
   "property": "C41",
   "status": "proved",
   "theorems": [
    "C41_round_trip",
    "C41_round_trip_doubled",
    "C41_index",
    "C41_bijection",
    "C41_stored",
    "C41_dot",
    "C41_short",
    "C41_rectangular"
   ],
   "note": "Real-number model; error cases (short packed array, rectangular matrix) included."
  },
  {
   "property": "C42",
   "status": "partial",
   "theorems": [
    "C42_derivative_partial",
    "C42_parity_partial",
    "C42_derivative_refuted"
   ],
   "note": "Refuted: displacement_deriv_kernel tests m-n > 1 where m-n >= 1 is needed, so the term of neighbouring number states is missing.  Partial: the exact missing sum, and correctness when neighbouring states are not coupled.  scipy's genlaguerre is taken as its textbook formula."
  },
  {
   "property": "C43",
   "status": "partial",
   "theorems": [
    "C43_symmetric_partial",
    "C43_two_body_partial",
    "C43_symmetric_refuted"
   ],
   "note": "Refuted for amplitudes that mix parities.  Partial: the vacuum and states of definite parity.  Real amplitudes."
  },
  {
   "property": "C44",
   "status": "proved",
   "theorems": [
    "C44_blocks",
    "C44_bare",
    "C44_short"
   ],
   "note": "Blocks, symmetry and the undisplaced limit proved; the 'spectrum' part is the diagonal form itself."
  },
  {
   "property": "C45",
   "status": "partial",
   "theorems": [
    "C45_array_refuted",
    "C45_again_partial",
    "C45_list_partial"
   ],
   "note": "Refuted for float arrays without given couplings: the caller's array is normalised in place and the second object gets couplings 1.  Partial: lists, given couplings, unit vectors."
  },
  {
   "property": "C46",
   "status": "partial",
   "theorems": [
    "C46_dipole_partial",
    "C46_quadrupole_partial",
    "C46_electron_boson",
    "C46_fresh_refuted"
   ],
   "note": "Exact agreement once dipole and quadrupole integrals are stored.  Refuted on a fresh object: get_gmat_ao and get_q_lambda_ao use the attribute, which is still None."
  },
  {
   "property": "C47",
   "status": "proved",
   "theorems": [
    "C47_history"
   ],
   "note": "The electronic Coulomb/exchange builder is any additive map."
  },
  {
   "property": "C48",
   "status": "proved",
   "theorems": [
    "C48_origin"
   ],
   "note": "Empty cavity (<b + b^+> = 0 in every mode, which is what update_boson_coeff yields in the coherent-state representation)."
  },
  {
   "property": "C49",
   "status": "proved",
   "theorems": [
    "C49_qed_flag",
    "C49_sc_flag",
    "C49_bound",
    "C49_zero",
    "C49_energy"
   ],
   "note": "Driver loops of qedhf.kernel and scqedhf.kernel over abstract methods; callbacks, logging, checkpoint files left out. TIGHT_GRAD_CONV_TOL only divides by sqrt(1)."
  },
  {
   "property": "C50",
   "status": "partial",
   "theorems": [
    "C50_out_of_core_refuted",
    "C50_range_separated_refuted",
    "C50_in_memory_partial"
   ],
   "note": "Refuted: the out-of-core branch calls RHF.get_jk, which in this module is the same method.  Partial: in memory."
  },
  {
   "property": "C51",
   "status": "partial",
   "theorems": [
    "C51_diagonal_partial",
    "C51_two_states_partial",
    "C51_poisson_refuted"
   ],
   "note": "Refuted from three number states on: the amplitudes are multiplied by sqrt(m!) where they should be divided.  Partial: the exact distribution produced, and correctness up to two states."
  },
  {
   "property": "C52",
   "status": "partial",
   "theorems": [
    "C52_set_params_partial",
    "C52_set_var_params_partial",
    "C52_refuted"
   ],
   "note": "Proved except for optimize_vsq without optimize_varf, where the offset skips past the end and the squeezing parameters are silently not set (C52_refuted)."
  },
  {
   "property": "C53",
   "status": "partial",
   "theorems": [
    "C53_blocks_partial",
    "C53_refuted",
    "C53_tie_refuted"
   ],
   "note": "Proved for groups not reaching the last eigenvalue when no difference equals the threshold; a trailing group is never resolved, a tie mixes unrelated levels (refuted theorems). The orthogonal change within a block is not modelled."
  },
  {
   "property": "C54",
   "status": "proved",
   "theorems": [
    "C54_adjoint",
    "C54_commutator",
    "C54_cutoff",
    "C54_number",
    "C54_other_modes",
    "C54_creations_commute"
   ],
   "note": "All numbers of modes and cutoffs; entries of the tensor outside the cutoffs do not exist.  At the cutoff itself the commutator is -n (C54_cutoff)."
  },
  {
   "property": "C55",
   "status": "partial",
   "theorems": [
    "C55_vector_partial",
    "C55_one_mode_partial",
    "C55_two_modes_refuted",
    "C55_value_refuted"
   ],
   "note": "Proved for a vector of frequencies and for one mode through the kernel.  Refuted with two modes: the kernel turns the vector into a matrix, so Hbb[imode] is a row that numpy lines up with another mode's axis; it raises, or at cutoff one loses the first mode's energy."
  },
  {
   "property": "C56",
   "status": "proved",
   "theorems": [
    "C56_absorb",
    "C56_coupling"
   ],
   "note": "pyscf's link tables enter through their number-operator property; one electron in any number of orbitals is shown to satisfy it.  The 1e-100 guard is ignored (at least one electron)."
  },
  {
   "property": "C57",
   "status": "proved",
   "theorems": [
    "C57_pure_photon"
   ],
   "note": "All mode counts and orders; the module's import of epcc_equations, which is missing from the package, is ignored in all coupled-cluster entries."
  },
  {
   "property": "C58",
   "status": "proved",
   "theorems": [
    "C58_round_trip",
    "C58_vector"
   ],
   "note": "T2 symmetric under exchange of the electron pairs, as the equations make it.  Photonic amplitudes are returned from the argument, not the vector (see C76)."
  },
  {
   "property": "C59",
   "status": "partial",
   "theorems": [
    "C59_hubbard_partial",
    "C59_single_open_refuted",
    "C59_single_periodic_refuted",
    "C59_unknown",
    "C59_hh_partial",
    "C59_hh_two_refuted",
    "C59_reference_partial",
    "C59_reference_refuted"
   ],
   "note": "Proved for L >= 2 (Hubbard1D) and L >= 3 (HHModel).  Refuted: one site (IndexError open, self-hopping periodic); two sites in HHModel have amplitude -2 even on the open chain, where the reference orbitals use -1."
  },
  {
   "property": "C60",
   "status": "proved",
   "theorems": [
    "C60_hubbard",
    "C60_holstein"
   ],
   "note": "The hopping matrix is an arbitrary argument.  Holstein coupling without gij."
  },
  {
   "property": "C61",
   "status": "partial",
   "theorems": [
    "C61_antisym_partial",
    "C61_couplings_partial",
    "C61_diagonal",
    "C61_energies_refuted",
    "C61_short_refuted"
   ],
   "note": "Refuted: the inner loop starts at k = j and overwrites the diagonal; one coupling per pair raises IndexError.  Off-diagonal part proved."
  },
  {
   "property": "C62",
   "status": "proved",
   "theorems": [
    "C62_linear",
    "C62_polynomial"
   ]
  },
  {
   "property": "C63",
   "status": "partial",
   "theorems": [
    "C63_gated_partial",
    "C63_error_refuted",
    "C63_debug_refuted",
    "C63_percent_refuted"
   ],
   "note": "log, warn, note, info and debug proved for messages that can be formatted.  Refuted: error and debug1 to debug4 refer to an undefined name at any verbosity, and a message with a bare % raises."
  },
  {
   "property": "C64",
   "status": "partial",
   "theorems": [
    "C64_reduce_partial",
    "C64_buffers_partial",
    "C64_mail_partial",
    "C64_mail_other",
    "C64_scatter_partial",
    "C64_scatter_other",
    "C64_number_refuted",
    "C64_exx_zero",
    "C64_exx_refuted",
    "C64_fields_refuted"
   ],
   "note": "Numpy values, equal-length buffers, tags and one-entry scatter proved.  Refuted: python numbers (no copy attribute) and the [buffer, counts, ...] specifications used by the package's own calls."
  },
  {
   "property": "C65",
   "status": "partial",
   "theorems": [
    "C65_documented_partial",
    "C65_tiledarray_partial",
    "C65_tiledarray_refuted",
    "C65_accepted",
    "C65_exactly_refuted",
    "C65_cupy"
   ],
   "note": "numpy and torch names and the cpu TiledArray names proved; what an accepted string selects is characterised for every string.  Refuted: the two TiledArray.cuda names, and undocumented strings such as numpy.sin are accepted."
  },
  {
   "property": "C66",
   "status": "proved",
   "theorems": [
    "C66_coordinate",
    "C66_momentum",
    "C66_displaced",
    "C66_displaced_momentum"
   ],
   "note": "Also gives the local energy of a displaced trial."
  },
  {
   "property": "C67",
   "status": "partial",
   "theorems": [
    "C67_sign_refuted",
    "C67_exchanged_partial"
   ],
   "note": "the sign is wrong for some permutations (witness); right when one pair is exchanged; permutation_sign has no caller in the repository"
  },
  {
   "property": "C68",
   "status": "proved",
   "theorems": [
    "C68_blocks",
    "C68_cover",
    "C68_block_diag"
   ]
  },
  {
   "property": "C69",
   "status": "proved",
   "theorems": [
    "C69_antihermitian",
    "C69_stationary"
   ]
  },
  {
   "property": "C70",
   "status": "partial",
   "theorems": [
    "C70_deprecated_partial",
    "C70_wall_time",
    "C70_wall_time_refuted"
   ],
   "note": "The deprecation decorator proved; the timing decorator returns None (refuted)."
  },
  {
   "property": "C71",
   "status": "partial",
   "theorems": [
    "C71_complex_refuted",
    "C71_complex_nonnegative_partial",
    "C71_probabilities_partial",
    "C71_boson_renorm_refuted",
    "C71_nonnegative_partial"
   ],
   "note": "false: absolute values of the amplitudes are stored; norm and probabilities are right"
  },
  {
   "property": "C72",
   "status": "partial",
   "theorems": [
    "C72_scheme3_refuted"
   ],
   "note": "the full statement is false of the code; witness in the _refuted theorem"
  },
  {
   "property": "C73",
   "status": "partial",
   "theorems": [
    "C73_boson_refuted",
    "C73_first_order_partial"
   ],
   "note": "false from order 2 on (no division by k); the call to this routine is commented out in propagate_walkers"
  },
  {
   "property": "C74",
   "status": "partial",
   "theorems": [
    "C74_constant_partial",
    "C74_two_refuted",
    "C74_nonempty_partial"
   ],
   "note": "Refuted: constant data and pairs at threshold 1 are removed entirely.  Partial: non-constant data survive any threshold above 1."
  },
  {
   "property": "C75",
   "status": "partial",
   "theorems": [
    "C75_singles_partial",
    "C75_doubles_partial",
    "C75_singles_refuted",
    "C75_doubles_refuted",
    "C75_orbital_index",
    "C75_value_refuted"
   ],
   "note": "One mode proved at every order.  Refuted with several modes: w is broadcast over the occupied-orbital axis."
  },
  {
   "property": "C76",
   "status": "partial",
   "theorems": [
    "C76_singles_partial",
    "C76_doubles_partial",
    "C76_applied",
    "C76_skipped",
    "C76_photonic_refuted"
   ],
   "note": "Electronic amplitudes proved; photonic amplitudes keep their old values because the loops rebind the loop variable (refuted)."
  },
  {
   "property": "C77",
   "status": "partial",
   "theorems": [
    "C77_amplitudes_refuted",
    "C77_photons_refuted",
    "C77_electronic_refuted",
    "C77_energy_partial"
   ],
   "note": "Refuted: the request is passed in the position of another parameter; with photons the undefined boson_occ is called; nfock1 = 0 with the default nfock2 = 1 raises."
  },
  {
   "property": "C78",
   "status": "partial",
   "theorems": [
    "C78_seed_ignored_refuted",
    "C78_single_rank_partial"
   ],
   "note": "the full statement is false of the code; witness in the _refuted theorem"
  },
  {
   "property": "C79",
   "status": "partial",
   "theorems": [
    "C79_total_refuted",
    "C79_denominator_partial",
    "C79_one_rank_partial",
    "C79_identical_ranks_partial",
    "C79_electronic_partial"
   ],
   "note": "false with bosons on several ranks: the numerator is local to the rank while the norm is reduced; proved for one rank, identical ranks and electrons only"
  },
  {
   "property": "C80",
   "status": "partial",
   "theorems": [
    "C80_broken_partial",
    "C80_symmetric_refuted",
    "C80_ignores_U",
    "C80_odd"
   ],
   "note": "Refuted without symmetry breaking: U never reaches the solver.  The mean-field solver is an arbitrary function."
  },
  {
   "property": "C81",
   "status": "partial",
   "theorems": [
    "C81_float_selection_partial",
    "C81_float_failure_partial",
    "C81_reconfiguration_float_overrun_refuted"
   ],
   "note": "the full statement is false of the code; witness in the _refuted theorem"
  },
  {
   "property": "C82",
   "status": "proved",
   "theorems": [
    "C82_branching_thresholds"
   ]
  },
  {
   "property": "C83",
   "status": "partial",
   "theorems": [
    "C83_small_population_clipped_refuted",
    "C83_large_population_partial"
   ],
   "note": "the full statement is false of the code; witness in the _refuted theorem"
  },
  {
   "property": "C84",
   "status": "partial",
   "theorems": [
    "C84_sign_refuted",
    "C84_closed_shell_refuted",
    "C84_positive_partial"
   ],
   "note": "false: closed-shell walkers are divided once although the overlap is squared, and the sign of det R is dropped; proved for open shell with positive diagonal"
  },
  {
   "property": "C85",
   "status": "partial",
   "theorems": [
    "C85_hybrid_refuted",
    "C85_local_partial"
   ],
   "note": "false in the hybrid scheme: clipping in place drops the imaginary part, so the overlap phase never reaches the cosine; the local scheme uses it"
  },
  {
   "property": "C86",
   "status": "partial",
   "theorems": [
    "C86_cross_term_refuted",
    "C86_defect_partial"
   ],
   "note": "false: the cross term le*b + lb*e is missing; C86_defect_partial gives the exact defect. The sampled operator is assembled from several code lines"
  },
  {
   "property": "C87",
   "status": "proved",
   "theorems": [
    "C87_density_ratio"
   ]
  },
  {
   "property": "C88",
   "status": "partial",
   "theorems": [
    "C88_shared_refuted",
    "C88_disjoint_partial"
   ],
   "note": "false when a shared field has both biases; proved when the biases have disjoint support"
  },
  {
   "property": "C89",
   "status": "proved",
   "theorems": [
    "C89_linear_terms",
    "C89_weight_exponent"
   ]
  },
  {
   "property": "C90",
   "status": "proved",
   "theorems": [
    "C90_response"
   ]
  },
  {
   "property": "C91",
   "status": "proved",
   "theorems": [
    "C91_implementations"
   ]
  },
  {
   "property": "C92",
   "status": "proved",
   "theorems": [
    "C92_transformed",
    "C92_vanish_together"
   ]
  },
  {
   "property": "C93",
   "status": "partial",
   "theorems": [
    "C93_default_refuted",
    "C93_named_partial"
   ],
   "note": "false: energy_scheme=None is passed explicitly and update_weight raises ValueError; proved when a valid scheme is named"
  },
  {
   "property": "C94",
   "status": "partial",
   "theorems": [
    "C94_limit_refuted",
    "C94_below_limit_partial"
   ],
   "note": "false: the break cannot be reached, an IndexError comes first"
  },
  {
   "property": "C95",
   "status": "proved",
   "theorems": [
    "C95_blocks",
    "C95_energy"
   ]
  },
  {
   "property": "C96",
   "status": "partial",
   "theorems": [
    "C96_dimensions_refuted",
    "C96_equal_dimensions_partial"
   ],
   "note": "false for unequal dimensions, where asarray raises; proved for equal ones"
  },
  {
   "property": "C97",
   "status": "proved",
   "theorems": [
    "C97_projector"
   ]
  },
  {
   "property": "C98",
   "status": "partial",
   "theorems": [
    "C98_one_mode_partial",
    "C98_modes_refuted",
    "C98_two_modes_partial"
   ],
   "note": "false: with two or more vectors the reshape raises; proved for one vector"
  },
  {
   "property": "C99",
   "status": "partial",
   "theorems": [
    "C99_additive_refuted",
    "C99_single_mode_partial"
   ],
   "note": "false: modes are concatenated, not tensored; proved for one mode"
  },
  {
   "property": "C100",
   "status": "proved",
   "theorems": [
    "C100_open_shell",
    "C100_closed_shell"
   ]
  },
  {
   "property": "C101",
   "status": "partial",
   "theorems": [
    "C101_scale_refuted",
    "C101_phase_partial"
   ],
   "note": "false: the density of each walker is not divided by its norm; proved for factors of modulus one"
  },
  {
   "property": "C102",
   "status": "partial",
   "theorems": [
    "C102_hybrid_refuted",
    "C102_local_refuted"
   ],
   "note": "false in both schemes: the hybrid energy is clipped, and angle(0)=0 in the local scheme"
  },
  {
   "property": "C103",
   "status": "proved",
   "theorems": [
    "C103_rotation"
   ]
  },
  {
   "property": "C104",
   "status": "proved",
   "theorems": [
    "C104_unbiased"
   ]
  },
  {
   "property": "C105",
   "status": "partial",
   "theorems": [
    "C105_covers_partial",
    "C105_least_partial",
    "C105_total_refuted"
   ],
   "note": "false: a vector without an element at or above the threshold makes it raise; otherwise covers and is least"
  },
  {
   "property": "C106",
   "status": "partial",
   "theorems": [
    "C106_unequal_refuted",
    "C106_equal_partial"
   ],
   "note": "false when the numbers of alpha and beta core orbitals differ: beta gets alpha's core; right when they are equal"
  },
  {
   "property": "C107",
   "status": "partial",
   "theorems": [
    "C107_values_partial",
    "C107_no_constant_refuted",
    "C107_no_constant_partial"
   ],
   "note": "without a constant record the function fails on an unbound name; otherwise the listed values are read; read_fcidump has no caller in the repository"
  },
  {
   "property": "C108",
   "status": "partial",
   "theorems": [
    "C108_undefined_refuted",
    "C108_count_partial"
   ],
   "note": "the function uses an undefined name and always raises; the count is proved as if the name were bound"
  },
  {
   "property": "C109",
   "status": "partial",
   "theorems": [
    "C109_count_partial",
    "C109_weight_refuted"
   ],
   "note": "size and membership hold, the total weight is not conserved"
  },
  {
   "property": "C110",
   "status": "partial",
   "theorems": [
    "C110_average_partial",
    "C110_away_refuted",
    "C110_always_away_partial"
   ],
   "note": "the sign is wrong: above the target the average grows further; the routines have no callers"
  },
  {
   "property": "C111",
   "status": "partial",
   "theorems": [
    "C111_quartiles_partial",
    "C111_nonempty_partial",
    "C111_two_refuted"
   ],
   "note": "The kept samples are characterised for all data.  Not emptying is refuted for two samples with threshold below 1/2 and proved for any other number of samples."
  },
  {
   "property": "C112",
   "status": "partial",
   "theorems": [
    "C112_sums_partial",
    "C112_factor_partial",
    "C112_documented_refuted"
   ],
   "note": "The FFT value equals the lagged sum of products for every lag (zero padding suffices).  The documented 1/(N-k) average is refuted: the code differs from it by (N-k)/N."
  },
  {
   "property": "C113",
   "status": "proved",
   "theorems": [
    "C113_agree"
   ]
  },
  {
   "property": "C114",
   "status": "partial",
   "theorems": [
    "C114_operator_partial",
    "C114_mean_partial",
    "C114_expectation_partial",
    "C114_expectation_refuted"
   ],
   "note": "The operator D is characterised by its differential equation and initial value.  Refuted for states that mix parities, because the lower triangle is doubled instead of adding the transposed elements."
  },
  {
   "property": "C115",
   "status": "partial",
   "theorems": [
    "C115_vacuum_partial",
    "C115_scaled_partial",
    "C115_derivative_refuted"
   ],
   "note": "Refuted for mdim > 1: the chain-rule factor e^F/omega is missing."
  },
  {
   "property": "C116",
   "status": "partial",
   "theorems": [
    "C116_squeezing_partial",
    "C116_displacement_partial",
    "C116_squeezing_refuted"
   ],
   "note": "Refuted for states that mix parities (consequence of C42); the squeezing routine is used with the reversed difference."
  },
  {
   "property": "C117",
   "status": "partial",
   "theorems": [
    "C117_norm_partial",
    "C117_one_mode_partial",
    "C117_two_modes_refuted"
   ],
   "note": "Refuted for two modes: FC_factor reads column idx (the mode's offset) of the eigenvectors of the whole photon Hamiltonian.  The eigensolver is any orthonormal ascending eigendecomposition."
  },
  {
   "property": "C118",
   "status": "proved",
   "theorems": [
    "C118_energy",
    "C118_gradient"
   ]
  },
  {
   "property": "C122",
   "status": "partial",
   "theorems": [
    "C122_agree_partial",
    "C122_residue_refuted"
   ],
   "note": "Refuted for residue=True without dipole self energy."
  },
  {
   "property": "C123",
   "status": "proved",
   "theorems": [
    "C123_fluctuation"
   ],
   "note": "Empty cavity."
  },
  {
   "property": "C124",
   "status": "proved",
   "theorems": [
    "C124_gradient"
   ],
   "note": "Empty cavity."
  },
  {
   "property": "C125",
   "status": "partial",
   "theorems": [
    "C125_bilinear_refuted",
    "C125_bilinear_partial"
   ],
   "note": "Refuted: the shift z multiplies the overlap matrix without division by the electron number, so it enters N times.  Partial: the exact energy produced."
  },
  {
   "property": "C126",
   "status": "partial",
   "theorems": [
    "C126_flags_refuted",
    "C126_both_partial"
   ],
   "note": "Refuted when the dipole self energy is on (None += array)."
  },
  {
   "property": "C127",
   "status": "proved",
   "theorems": [
    "C127_basis"
   ]
  },
  {
   "property": "C128",
   "status": "partial",
   "theorems": [
    "C128_oei_partial",
    "C128_vjk_partial",
    "C128_one_mode_refuted",
    "C128_without_residue_refuted"
   ],
   "note": "Refuted for several modes (one matrix summed over modes) and without residue (name unbound).  Partial: the derivative along a common change of all parameters, hence each derivative for one mode."
  },
  {
   "property": "C129",
   "status": "partial",
   "theorems": [
    "C129_no_density_refuted",
    "C129_density_partial"
   ],
   "note": "Refuted: without a density get_hcore returns the bare core Hamiltonian; the h1e argument is overwritten in any case."
  },
  {
   "property": "C130",
   "status": "partial",
   "theorems": [
    "C130_level_shift_refuted",
    "C130_none_partial"
   ],
   "note": "Refuted: the functions damping and level_shift are not defined in qedhf.py (noted as TODO in the source)."
  },
  {
   "property": "C119",
   "status": "partial",
   "theorems": [
    "C119_float_refuted",
    "C119_numpy_float_refuted",
    "C119_list_partial",
    "C119_alike_partial"
   ],
   "note": "Refuted: a python float has no .size (AttributeError); a numpy.float64 gives a zero-dimensional array that cannot be indexed."
  },
  {
   "property": "C120",
   "status": "partial",
   "theorems": [
    "C120_integers_refuted",
    "C120_floats_partial"
   ],
   "note": "Refuted for integer arrays (in-place assignment truncates).  Vectors shorter than 1e-15 are left as they are."
  },
  {
   "property": "C121",
   "status": "proved",
   "theorems": [
    "C121_consistent",
    "C121_default_coupling",
    "C121_given_coupling",
    "C121_given_displacements",
    "C121_default_displacements"
   ],
   "note": "Frequencies assumed non-negative where a square root is taken (numpy returns nan otherwise)."
  },
  {
   "property": "C135",
   "status": "partial",
   "theorems": [
    "C135_hubbard",
    "C135_holstein_partial",
    "C135_holstein_refuted"
   ],
   "note": "Hubbard1D proved; HHModel loses one electron when N is odd (N // 2 for both spins)."
  },
  {
   "property": "C136",
   "status": "proved",
   "theorems": [
    "C136_fock"
   ]
  },
  {
   "property": "C137",
   "status": "proved",
   "theorems": [
    "C137_gradient"
   ],
   "note": "Coupling matrices assumed symmetric, as the constructor makes them."
  },
  {
   "property": "C138",
   "status": "proved",
   "theorems": [
    "C138_antisymmetry"
   ]
  },
  {
   "property": "C139",
   "status": "partial",
   "theorems": [
    "C139_symmetric_partial",
    "C139_population_refuted"
   ],
   "note": "Refuted: get_H builds a real antisymmetric matrix, for which -i H is not anti-Hermitian."
  },
  {
   "property": "C142",
   "status": "partial",
   "theorems": [
    "C142_critical_partial",
    "C142_error_refuted"
   ],
   "note": "CRITICAL is proved first; at the default verbosity INFO is shown and ERROR is not (refuted)."
  },
  {
   "property": "C143",
   "status": "proved",
   "theorems": [
    "C143_width",
    "C143_centred"
   ]
  },
  {
   "property": "C144",
   "status": "partial",
   "theorems": [
    "C144_atomic_partial",
    "C144_atomic_refuted"
   ],
   "note": "Proved for every failure other than an unknown float type, which leaves the new class installed (refuted)."
  },
  {
   "property": "C140",
   "status": "proved",
   "theorems": [
    "C140_gradient",
    "C140_laplacian",
    "C140_energy",
    "C140_gradient_momentum",
    "C140_laplacian_momentum",
    "C140_energy_momentum"
   ]
  },
  {
   "property": "C141",
   "status": "proved",
   "theorems": [
    "C141_eigenstate",
    "C141_vacuum",
    "C141_norm"
   ],
   "note": "Real amplitudes."
  },
  {
   "property": "C145",
   "status": "partial",
   "theorems": [
    "C145_entry",
    "C145_succeeds",
    "C145_norm_partial",
    "C145_short",
    "C145_norm_refuted"
   ],
   "note": "Proved with amplitudes given; without them the coefficients exp(-sum n) have norm above one (refuted)."
  },
  {
   "property": "C146",
   "status": "proved",
   "theorems": [
    "C146_stops"
   ]
  },
  {
   "property": "C147",
   "status": "partial",
   "theorems": [
    "C147_attribute_refuted"
   ],
   "note": "Refuted: the attribute is set to False by the constructor and never assigned."
  },
  {
   "property": "C148",
   "status": "partial",
   "theorems": [
    "C148_fixed_partial",
    "C148_between_partial",
    "C148_step",
    "C148_undamped",
    "C148_monotone_refuted"
   ],
   "note": "Monotonicity refuted at damp = 1, which switches mixing off."
  },
  {
   "property": "C149",
   "status": "proved",
   "theorems": [
    "C149_hop"
   ],
   "note": "For a vector of frequencies (the matrix path is C55).  Link tables enter through the adjoint property."
  },
  {
   "property": "C150",
   "status": "proved",
   "theorems": [
    "C150_expectation",
    "C150_symmetric",
    "C150_trace",
    "C150_energy"
   ]
  },
  {
   "property": "C151",
   "status": "proved",
   "theorems": [
    "C151_rdm1",
    "C151_rdm2",
    "C151_energy"
   ],
   "note": "pyscf's reorder_rdm is part of the model."
  },
  {
   "property": "C152",
   "status": "partial",
   "theorems": [
    "C152_plain_partial",
    "C152_coherent_refuted",
    "C152_int_refuted"
   ],
   "note": "Lists of cutoffs proved; coherent_state reaches la.solve with no la imported, and an integer cutoff is indexed in make_hdiag (both refuted)."
  },
  {
   "property": "C153",
   "status": "partial",
   "theorems": [
    "C153_high_partial",
    "C153_vacuum_refuted"
   ],
   "note": "Refuted: each mode contributes at least 1/2, also with zero quanta.  The vector is only used as a preconditioner."
  },
  {
   "property": "C132",
   "status": "partial",
   "theorems": [
    "C132_eta_gradient_partial",
    "C132_eta_gradient_refuted"
   ],
   "note": "One mode, dipole basis.  Exact for the vacuum factor, and for normalised states of definite parity when exp F = omega; refuted otherwise because the chain-rule factor exp F / omega is missing in the branch with several photon states."
  },
  {
   "property": "C133",
   "status": "proved",
   "theorems": [
    "C133_symmetric",
    "C133_self_adjoint",
    "C133_cholesky",
    "C133_fock"
   ],
   "note": "One mode, dipole basis (the change back to atomic orbitals is not modelled); vacuum or normalised parity states."
  },
  {
   "property": "C154",
   "status": "partial",
   "theorems": [
    "C154_joint_scaling_partial",
    "C154_fixed_displacements_refuted"
   ],
   "note": "The code divides every derivative by f as if displacements scaled with f: exact for joint scaling, refuted at fixed displacements although both are independent optimiser variables."
  },
  {
   "property": "C155",
   "status": "proved",
   "theorems": [
    "C155_squeezing_gradient"
   ],
   "note": "The photon-energy part e_boson_grad_r added afterwards is not included."
  },
  {
   "property": "C156",
   "status": "proved",
   "theorems": [
    "C156_energy"
   ],
   "note": "One mode; vacuum factor or a normalised state of definite parity."
  },
  {
   "property": "C157",
   "status": "partial",
   "theorems": [
    "C157_eta",
    "C157_f",
    "C157_squeezing",
    "C157_together_refuted"
   ],
   "note": "grad_var_params_together is defined but the line that would select it is commented out; it is refuted."
  },
  {
   "property": "C134",
   "status": "partial",
   "theorems": [
    "C134_refuted"
   ],
   "note": "Refuted: the flag can only be set, never cleared, in the extra cycle (unless check_convergence is given)."
  },
  {
   "property": "C158",
   "status": "partial",
   "theorems": [
    "C158_reported_partial",
    "C158_fixed_partial",
    "C158_refuted"
   ],
   "note": "One mode, dipole basis; DIIS an arbitrary function. Energy and gradient use parameters before the last update; refuted in general with default tolerances, starting from displacements given by init_params."
  },
  {
   "property": "C159",
   "status": "partial",
   "theorems": [
    "C159_refuted"
   ],
   "note": "Refuted for every argument: the factory passes one positional argument too many."
  },
  {
   "property": "C160",
   "status": "partial",
   "theorems": [
    "C160_damping_refuted",
    "C160_level_refuted",
    "C160_off_partial"
   ],
   "note": "Refuted: damping and level_shift are undefined names. The exception is the model's reading of the name lookup."
  },
  {
   "property": "C161",
   "status": "proved",
   "theorems": [
    "C161_factors",
    "C161_orthonormal",
    "C161_errors"
   ],
   "note": "LAPACK's dpstrf is an argument with its documented contract (dpstrf_ok); exact arithmetic."
  },
  {
   "property": "C162",
   "status": "partial",
   "theorems": [
    "C162_documented",
    "C162_density",
    "C162_electrons_refuted",
    "C162_deficient_refuted"
   ],
   "note": "With P and L in their documented places the statement holds. get_cholesky unpacks (L, P) as (P, L): wrong electron number (witness: two orbitals with overlap 3/5) and ValueError for every linearly dependent basis. scipy's eigh is an argument with its contract."
  },
  {
   "property": "C163",
   "status": "partial",
   "theorems": [
    "C163_selection",
    "C163_well_conditioned",
    "C163_maximum",
    "C163_no_boson_refuted",
    "C163_debug_refuted"
   ],
   "note": "Selection proved below debug verbosity with a photon object; without one the function raises UnboundLocalError, at debug verbosity TypeError. Condition numbers are arguments, NaN excluded."
  },
  {
   "property": "C164",
   "status": "proved",
   "theorems": [
    "C164_general",
    "C164_hermitian",
    "C164_hermitian_needed"
   ],
   "note": "The routine is only called from the first, shadowed davidson1."
  },
  {
   "property": "C165",
   "status": "partial",
   "theorems": [
    "C165_davidson_refuted",
    "C165_lanczos_refuted"
   ],
   "note": "Refuted: the second definition of davidson1 has an empty body, so davidson subscripts None; lanczos returns None."
  },
  {
   "property": "C166",
   "status": "proved",
   "theorems": [
    "C166_agree",
    "C166_formula",
    "C166_back",
    "C166_symmetric",
    "C166_trace",
    "C166_expectation",
    "C166_expectation_back"
   ],
   "note": "Real matrices."
  },
  {
   "property": "C167",
   "status": "proved",
   "theorems": [
    "C167_eigenvectors",
    "C167_largest",
    "C167_unique"
   ],
   "note": "Columns must be non-zero for uniqueness; ties of magnitude resolve to the first row as in numpy.argmax."
  },
  {
   "property": "C168",
   "status": "proved",
   "theorems": [
    "C168_denominator"
   ],
   "note": "Division by the clipped value only; the sign of a small denominator is lost, as the code does."
  },
  {
   "property": "C169",
   "status": "partial",
   "theorems": [
    "C169_verlet_partial",
    "C169_reversible",
    "C169_momentum",
    "C169_angular_momentum",
    "C169_energy_bounded",
    "C169_surface_refuted",
    "C169_init_state",
    "C169_separate",
    "C169_separate_refuted",
    "C169_separate_unset"
   ],
   "note": "Proved for surface 0 with the missing method next_velocity read as next_velocity_many_molecule and molecules shared with the driver. Refuted for other surfaces (init_state is never used) and for separate molecule objects (the copied attribute is never read). Exact arithmetic."
  },
  {
   "property": "C170",
   "status": "partial",
   "theorems": [
    "C170_steps_refuted",
    "C170_resumed_refuted",
    "C170_fresh_refuted"
   ],
   "note": "Refuted: next_velocity does not exist, a list has no reset_bo, Molecule has no get_etot. Directory handling is reduced to whether the old directory exists."
  },
  {
   "property": "C171",
   "status": "partial",
   "theorems": [
    "C171_refuted",
    "C171_zero"
   ],
   "note": "Refuted: __init__ sets veloc to None and build drops the keyword; velocities are always zero."
  },
  {
   "property": "C172",
   "status": "partial",
   "theorems": [
    "C172_three_partial",
    "C172_one_refuted",
    "C172_other_refuted"
   ],
   "note": "Proved for three dimensions. One dimension moves all three components, any other raises ValueError."
  },
  {
   "property": "C173",
   "status": "partial",
   "theorems": [
    "C173_formula",
    "C173_nonneg",
    "C173_rest",
    "C173_scaling",
    "C173_temperature_refuted"
   ],
   "note": "Kinetic energy proved; temperature_many_molecule raises for every argument."
  },
  {
   "property": "C174",
   "status": "partial",
   "theorems": [
    "C174_propagation_partial",
    "C174_first_refuted",
    "C174_construct_refuted"
   ],
   "note": "Proved once the stored Hamiltonian belongs to the stored coordinates. The first step uses the uninitialised np.empty matrix, and no MQC object can be constructed because __init__ reads self.dt before it is set. The driver is an argument; get_H is covered by C61."
  },
  {
   "property": "C175",
   "status": "partial",
   "theorems": [
    "C175_table_refuted",
    "C175_density",
    "C175_read_partial",
    "C175_equal_partial",
    "C175_target_refuted",
    "C175_flux",
    "C175_flux_refuted"
   ],
   "note": "Refuted: range(self.states) raises for every molecule. Read with range(self.nstates), the entry is divided by the population of the target instead of the current state, and uses the real part of the density where the code's own equation of motion moves population through the imaginary part. Entries of the table for vanishing populations (division by zero) are not covered."
  },
  {
   "property": "C176",
   "status": "partial",
   "theorems": [
    "C176_target",
    "C176_none",
    "C176_last",
    "C176_distribution_partial",
    "C176_stay_partial",
    "C176_distribution_refuted",
    "C176_single_refuted",
    "C176_molecules"
   ],
   "note": "The end state, its distribution for independent random numbers and the stay probability are given exactly; they are not the requested ones, and several hops can happen in one step. The step from uniform random numbers to independent events is informal. argsort is an argument with its contract."
  },
  {
   "property": "C177",
   "status": "partial",
   "theorems": [
    "C177_rescaling",
    "C177_degenerate",
    "C177_uphill",
    "C177_energy_refuted",
    "C177_back",
    "C177_momentum_partial",
    "C177_momentum_refuted"
   ],
   "note": "Acceptance rule and velocity change proved. Energy conservation refuted (uphill hops along the motion gain energy), momentum only for equal masses, a hop there and back changes the velocity twice. One-dimensional array energies; broadcasting left out."
  },
  {
   "property": "C178",
   "status": "proved",
   "theorems": [
    "C178_unit",
    "C178_range"
   ]
  },
  {
   "property": "C179",
   "status": "partial",
   "theorems": [
    "C179_forces",
    "C179_outputs",
    "C179_unset_refuted"
   ],
   "note": "Forces proved once self.Z exists; nothing calls get_Z, so a new driver raises. States from nstates on keep their old forces. The network and autograd are arguments, autograd with the contract that it returns existing partial derivatives."
  },
  {
   "property": "C180",
   "status": "partial",
   "theorems": [
    "C180_gradient_partial",
    "C180_units_refuted"
   ],
   "note": "The returned gradient is with respect to the network's length unit; the factor is missing."
  },
  {
   "property": "C181",
   "status": "proved",
   "theorems": [
    "C181_pairs",
    "C181_nacr",
    "C181_nact"
   ],
   "note": "Exact arithmetic; degenerate pairs (division by zero) excluded."
  },
  {
   "property": "C182",
   "status": "partial",
   "theorems": [
    "C182_call_refuted",
    "C182_short_refuted",
    "C182_few_refuted"
   ],
   "note": "Refuted: get_energies takes no argument, and there are n(n-1)/2 couplings where get_H reads n(n+1)/2."
  },
  {
   "property": "C183",
   "status": "partial",
   "theorems": [
    "C183_lines",
    "C183_size",
    "C183_nonneg",
    "C183_bounded",
    "C183_additive",
    "C183_order",
    "C183_tdes_refuted",
    "C183_tdes_empty"
   ],
   "note": "linear_spec proved over an arbitrary real field. tdes refuted: it uses sys, which is not imported."
  },
  {
   "property": "C184",
   "status": "partial",
   "theorems": [
    "C184_construct_refuted",
    "C184_start",
    "C184_solves",
    "C184_energies",
    "C184_sum_rule",
    "C184_totdip",
    "C184_trace",
    "C184_band"
   ],
   "note": "Refuted for an imported class: bd is the module openms.lib.backend, which has no zeros; the rest is for the class as run in its own file, where bd is the backend object. Eigensolver, argsort and random draws are arguments; the eigensolver's contract is asked only for the chain at hand. Rounding is not modelled."
  },
  {
   "property": "C185",
   "status": "partial",
   "theorems": [
    "C185_first",
    "C185_cached",
    "C185_second_sample_refuted",
    "C185_dark_refuted",
    "C185_no_energies",
    "C185_partial_strength"
   ],
   "note": "Right for the first spectrum. Refuted for every later sample (the dipoles are cached and kernel does not clear them) and for the default selection, which holds the lowest Nexc states and can miss the bright one."
  },
  {
   "property": "C186",
   "status": "proved",
   "theorems": [
    "C186_selection",
    "C186_runs",
    "C186_empty"
   ],
   "note": "For a new object, before any earlier selection; later selections use the cached order and dipoles (as C185). Rounding is not modelled."
  },
  {
   "property": "C187",
   "status": "partial",
   "theorems": [
    "C187_runs",
    "C187_onebody",
    "C187_exponential",
    "C187_step",
    "C187_kept",
    "C187_inplace_refuted",
    "C187_real_partial",
    "C187_real_refuted",
    "C187_shapes"
   ],
   "note": "Complex kernels and the step proved over an arbitrary field with BLAS reference semantics. Refuted: the in-place auxiliary-field call leaves a real or non-contiguous array unchanged (the step is safe because the one-body kernel returns a new array), and the real kernel divides the k-th power by k instead of k!. Rounding and aliasing of views are not modelled."
  },
  {
   "property": "C188",
   "status": "proved",
   "theorems": [
    "C188_overlap",
    "C188_shapes",
    "C188_greens",
    "C188_inverse"
   ],
   "note": "Square overlaps; the inverse is an argument asked to be right on invertible matrices only (C188_inverse shows one exists). Rounding is not modelled."
  },
  {
   "property": "C189",
   "status": "partial",
   "theorems": [
    "C189_exchange",
    "C189_coulomb",
    "C189_uhf_partial",
    "C189_uhf_refuted",
    "C189_uhf_beta_refuted"
   ],
   "note": "Two spins: right for equally many alpha and beta electrons, refuted otherwise (the alpha length is used for the beta arrays). Rounding is not modelled."
  },
  {
   "property": "C190",
   "status": "proved",
   "theorems": [
    "C190_contraction"
   ],
   "note": "BLAS-free loop over an arbitrary field; rounding is not modelled."
  },
  {
   "property": "C191",
   "status": "partial",
   "theorems": [
    "C191_elements",
    "C191_packed_partial",
    "C191_square_refuted",
    "C191_mode"
   ],
   "note": "Right when the caller packs the density matrix; refuted for the square matrix the Python routine takes, whose first entries are read as if packed. GSL's Laguerre polynomial is its formula; rounding is not modelled."
  },
  {
   "property": "C192",
   "status": "partial",
   "theorems": [
    "C192_table_partial",
    "C192_mark_refuted"
   ],
   "note": "Right unless a displacement equals -1, the mark of a missing argument; refuted there."
  },
  {
   "property": "C193",
   "status": "proved",
   "theorems": [
    "C193_ampere",
    "C193_molecular",
    "C193_faraday",
    "C193_conductor",
    "C193_outside",
    "C193_order",
    "C193_cells"
   ],
   "note": "Real-field update of propagate. Exact field arithmetic: single-precision rounding is not modelled. No periodic boundary or parity."
  },
  {
   "property": "C194",
   "status": "proved",
   "theorems": [
    "C194_magnetic",
    "C194_electric"
   ],
   "note": "The cell and the neighbours the divergence reads have to be visited. Exact field arithmetic: single-precision rounding is not modelled. No periodic boundary or parity."
  },
  {
   "property": "C195",
   "status": "proved",
   "theorems": [
    "C195_balance",
    "C195_conserved",
    "C195_dissipates"
   ],
   "note": "Energy with H at the two half steps around E. Molecular and layer cells are excluded. Exact field arithmetic: single-precision rounding is not modelled. No periodic boundary or parity."
  },
  {
   "property": "C196",
   "status": "partial",
   "theorems": [
    "C196_bounded",
    "C196_any_step_refuted"
   ],
   "note": "Bounded under the Courant condition (c dt)^2 (1/dx^2+1/dy^2+1/dz^2) < min eps on a uniform grid; refuted without a condition (one cell, c dt = 2 spacings: growth 2^n). Exact field arithmetic: single-precision rounding is not modelled. No periodic boundary or parity."
  },
  {
   "property": "C197",
   "status": "proved",
   "theorems": [
    "C197_equations",
    "C197_off",
    "C197_decay"
   ],
   "note": "sigma.c's profiles are parameters. Exact field arithmetic: single-precision rounding is not modelled. No periodic boundary or parity."
  },
  {
   "property": "C198",
   "status": "proved",
   "theorems": [
    "C198_drude"
   ],
   "note": "Exact field arithmetic: single-precision rounding is not modelled. No periodic boundary or parity."
  },
  {
   "property": "C199",
   "status": "proved",
   "theorems": [
    "C199_bloch",
    "C199_gamma"
   ],
   "note": "Proved for all sizes, phases with cos^2 + sin^2 = 1, and states. cos and sin enter as numbers; exact arithmetic. Cells with molecules are excluded for the imaginary fields (C201)."
  },
  {
   "property": "C200",
   "status": "partial",
   "theorems": [
    "C200_bloch",
    "C200_gamma",
    "C200_odd_refuted"
   ],
   "note": "Proved for an even number of cells in x; refuted for an odd one (0.5 * isize is cut off, one column of the upper row is never written)."
  },
  {
   "property": "C201",
   "status": "partial",
   "theorems": [
    "C201_superposition",
    "C201_imaginary_refuted"
   ],
   "note": "Superposition proved for real coefficients without molecules. Refuted: the imaginary loop has no molecular branch and treats such cells as a metal with eps = 100."
  },
  {
   "property": "C202",
   "status": "proved",
   "theorems": [
    "C202_mirror"
   ],
   "note": "Proved for one mirror plane at a time in any direction, even and odd, real fields. The components in the plane are shown to solve their equations in vacuum cells."
  },
  {
   "property": "C203",
   "status": "partial",
   "theorems": [
    "C203_bounds",
    "C203_order_refuted"
   ],
   "note": "Proved for the order box, mirror planes, periodic boundaries; refuted for the other order, where Hz_parity takes back the enlarged size of a periodic box."
  },
  {
   "property": "C204",
   "status": "partial",
   "theorems": [
    "C204_spacings",
    "C204_zero",
    "C204_courant",
    "C204_layers",
    "C204_layers_refuted"
   ],
   "note": "Spacings, division by zero and the Courant condition proved; refuted for layers whose resolution does not divide the common multiple (integer division)."
  },
  {
   "property": "C205",
   "status": "partial",
   "theorems": [
    "C205_profile",
    "C205_interior",
    "C205_increasing",
    "C205_ends",
    "C205_mirror",
    "C205_no_layer_refuted"
   ],
   "note": "Proved for layers of at least one cell that do not overlap, with positive orders; pi is exact (the code has 3.141592), real arithmetic. A layer of no cells is accepted by pml_size and is refuted: the first (or last) cell divides by zero."
  },
  {
   "property": "C206",
   "status": "partial",
   "theorems": [
    "C206_coefficients",
    "C206_no_layer_refuted"
   ],
   "note": "Proved for layers of at least one cell; refuted for layers of none (not a number)."
  },
  {
   "property": "C207",
   "status": "partial",
   "theorems": [
    "C207_layers",
    "C207_interior",
    "C207_y_refuted"
   ],
   "note": "Proved for the x direction; refuted for the others, since cpmlbx and cpmlax read isize and use_periodic_x whatever the direction. The calls that would use these coefficients are commented out in propagate."
  },
  {
   "property": "C208",
   "status": "partial",
   "theorems": [
    "C208_gaussian",
    "C208_lorentzian_partial",
    "C208_continuous",
    "C208_continuous_refuted"
   ],
   "note": "Gaussian pulses proved; Lorentzian ones proved for a non-zero decay time and refuted for decay time 0 (continuous source), whose imaginary part is always 0."
  },
  {
   "property": "C209",
   "status": "partial",
   "theorems": [
    "C209_gaussian",
    "C209_lorentzian_slow",
    "C209_lorentzian_refuted"
   ],
   "note": "The purpose of the two helpers is not documented in the repository; the statement is what Gaussian_phase achieves. Proved for the Gaussian pulse, refuted for the Lorentzian one, whose helper suits a cosine while the source is a sine."
  },
  {
   "property": "C210",
   "status": "partial",
   "theorems": [
    "C210_total",
    "C210_cells",
    "C210_beam",
    "C210_wave",
    "C210_bloch_partial",
    "C210_bloch_y_partial",
    "C210_bloch_refuted",
    "C210_imag_partial",
    "C210_imag_refuted",
    "C210_external",
    "C210_external_refuted"
   ],
   "note": "Point sources proved for all names with pi exact. Plane waves proved for the pair Ex, Hy. Phase consistent with the boundary proved for a box of one lattice constant and refuted for larger ones (the boundary phase counts boxes, the source lattice constants). Imaginary part proved except for Hy in beams and lines, where sqrt(eo/uo) enters twice (refuted). external_planewave compares the first name only, so Hy is never driven (refuted)."
  },
  {
   "property": "C211",
   "status": "partial",
   "theorems": [
    "C211_independent",
    "C211_renewed_partial",
    "C211_stuck",
    "C211_stuck_refuted",
    "C211_current",
    "C211_joining_refuted"
   ],
   "note": "Independence proved for all draws, with the start of the clock at 0 or later and the same number of dipoles in every update; a dipole that joins later reads behind the arrays (refuted). Renewal proved for waiting times of at least one; the code truncates the absolute value of a Gaussian to an integer, and with 0 the dipole is never renewed again (refuted)."
  },
  {
   "property": "C212",
   "status": "partial",
   "theorems": [
    "C212_field_partial",
    "C212_quantity_partial",
    "C212_node",
    "C212_values",
    "C212_odd_refuted"
   ],
   "note": "Proved for any combination of mirror planes when each mirrored size is even (the plane is then at the node where the update puts it); refuted for odd sizes, where the image is taken one node off."
  },
  {
   "property": "C213",
   "status": "partial",
   "theorems": [
    "C213_replica_partial",
    "C213_replica_xy_partial",
    "C213_xy_refuted",
    "C213_columns",
    "C213_columns_refuted"
   ],
   "note": "Copies in x and in y proved, pi exact; with copies in both directions proved for the first row only, and refuted in general (the factor 2 pi of the second wave vector is missing). Each copy prints one column less than the period (refuted)."
  },
  {
   "property": "C214",
   "status": "partial",
   "theorems": [
    "C214_gauss_partial",
    "C214_free_partial",
    "C214_y_refuted",
    "C214_z_refuted",
    "C214_parts_partial",
    "C214_parts_refuted"
   ],
   "note": "Proved for layers of non-negative thickness, equal layers in y and a vertical resolution that 5 divides; refuted without either of the last two (the upper y face uses the thickness of the lower layer; rounding differs between a start value and a bound). The three parts count the strips at the two planes twice (identity proved, refuted as a partition)."
  },
  {
   "property": "C215",
   "status": "partial",
   "theorems": [
    "C215_group",
    "C215_weight",
    "C215_sum_refuted",
    "C215_sign_refuted",
    "C215_kinetic_refuted"
   ],
   "note": "The two parts are proved to add up to the derivative; eps_m is proved to be the mean of permittivity and derivative and so to differ from their sum (refuted), and both can be negative (refuted)."
  },
  {
   "property": "C216",
   "status": "partial",
   "theorems": [
    "C216_direction",
    "C216_range_partial",
    "C216_even_refuted",
    "C216_value"
   ],
   "note": "Azimuth and bilinear values proved for all sizes outside the pixels with polar angle below 0.02, which show the centre value; range proved for an odd number of samples and refuted for an even one (reads behind the array)."
  },
  {
   "property": "C217",
   "status": "proved",
   "theorems": [
    "C217_max",
    "C217_first",
    "C217_none"
   ],
   "note": "Values in real arithmetic; the loop over the block is a list of cells."
  },
  {
   "property": "C218",
   "status": "partial",
   "theorems": [
    "C218_round_trip_partial",
    "C218_spacing_partial",
    "C218_increasing_partial",
    "C218_nearest_partial",
    "C218_trip_refuted",
    "C218_monotone_refuted"
   ],
   "note": "Proved in rational arithmetic for any number of disjoint layers whose ends lie on grid points of both sides; refuted for other layers (the base index is truncated while indices are rounded): the index is not recovered and is not monotone in the height."
  },
  {
   "property": "C219",
   "status": "partial",
   "theorems": [
    "C219_sorts_partial",
    "C219_keeps",
    "C219_unsorted_refuted",
    "C219_overrun_refuted"
   ],
   "note": "Rearrangement proved for all arrays; order and memory safety proved for starts that are whole numbers and refuted for others, since the pivot is an int: (-0.2, -0.5) stays unsorted, (0.2, 0.5) reads entry -1."
  },
  {
   "property": "C220",
   "status": "proved",
   "theorems": [
    "C220_local_energy",
    "C220_finite_rule",
    "C220_reported_energy",
    "C220_bounded_bias",
    "C220_closed_shell"
   ],
   "note": "Proved for all systems over any numeric field; expm and exp enter by the first terms of their series; the constant is half the sum of the squared mean-field values, which the code leaves out of the propagation. The phaseless cosine and the clipping of the hybrid energy are not part of this statement (area Phase)."
  },
  {
   "property": "C221",
   "status": "partial",
   "theorems": [
    "C221_coupled_rate_partial",
    "C221_coupling_part",
    "C221_bosons_off",
    "C221_free_bosons",
    "C221_coupling_once_refuted"
   ],
   "note": "The rate is proved for all systems in the product treatment: electronic energy with the displaced one-body matrix, free bosons (none in first quantisation) and the bosonic coupling operator. Hence the coupling is counted twice: refuted by a walker equal to a normalised trial. Bosons off: equal to the electronic step. Missing: the decoupled treatment of the coupling."
  },
  {
   "property": "C222",
   "status": "partial",
   "theorems": [
    "C222_amplitudes",
    "C222_start",
    "C222_electrons_refuted",
    "C222_twice",
    "C222_above_half"
   ],
   "note": "Proved over any real closed field; eigh enters only by the orthonormality of its columns. Start: normalised for n in [0,1], NaN otherwise. Electron number refuted: the density matrix counts both spins, the amplitudes hold twice as many electrons, and above half filling every run raises (a NaN reaches eigh)."
  },
  {
   "property": "C223",
   "status": "proved",
   "theorems": [
    "C223_numerator",
    "C223_bounds",
    "C223_no_clip",
    "C223_uncorrelated"
   ],
   "note": "Proved. The value for an uncorrelated site is n(1-n)/(n(1-n)+EPS) for the square of the factor."
  },
  {
   "property": "C224",
   "status": "partial",
   "theorems": [
    "C224_qp_ham",
    "C224_deltas_uniform",
    "C224_deltas_refuted"
   ],
   "note": "Hamiltonian proved. The hybridisation is the documented one for uniform factors; refuted otherwise: the site's own factor is used instead of the neighbours'."
  },
  {
   "property": "C225",
   "status": "partial",
   "theorems": [
    "C225_expectation",
    "C225_ground_state_refuted"
   ],
   "note": "The expectation value is proved for all amplitudes, with EPS added to the quotient rather than under the root. Refuted that the ground state is taken: c[0] is the first row of the eigenvector matrix, not the first column."
  },
  {
   "property": "C226",
   "status": "partial",
   "theorems": [
    "C226_flag",
    "C226_test",
    "C226_driver",
    "C226_last_cycle_refuted",
    "C226_energy_refuted",
    "C226_energy_zero",
    "C226_empty_or_full"
   ],
   "note": "The flag is proved to mean that some cycle met the test; refuted for the last cycle. The energy is always zero: refuted against the energy of the state, for every eigensolver. A site with occupation 0 or 1 in the density, hence a uniform half-filled system, makes the run raise."
  },
  {
   "property": "C227",
   "status": "partial",
   "theorems": [
    "C227_density",
    "C227_aufbau",
    "C227_electrons_refuted",
    "C227_signs"
   ],
   "note": "Proved with 2*min(N/2,n) electrons; for odd N one electron is lost: refuted. argsort and argmax are arguments."
  },
  {
   "property": "C228",
   "status": "proved",
   "theorems": [
    "C228_error",
    "C228_update"
   ],
   "note": "Proved."
  },
  {
   "property": "C229",
   "status": "partial",
   "theorems": [
    "C229_ring",
    "C229_two_sites_refuted"
   ],
   "note": "Proved with two bonds per site for three sites and more; refuted for two sites, where the second bond overwrites the first."
  },
  {
   "property": "C230",
   "status": "partial",
   "theorems": [
    "C230_t1",
    "C230_t2",
    "C230_t1_any_G_refuted"
   ],
   "note": "Proved for nfock1, nfock2 > 0 and G = 0, which is what the driver passes; refuted for G != 0."
  },
  {
   "property": "C231",
   "status": "proved",
   "theorems": [
    "C231_singles",
    "C231_doubles"
   ],
   "note": "Proved for nfock1, nfock2 > 0."
  },
  {
   "property": "C232",
   "status": "proved",
   "theorems": [
    "C232_T2",
    "C232_U2",
    "C232_U22"
   ],
   "note": "Proved for nfock1, nfock2 > 0 (two for the doubles with two photons)."
  },
  {
   "property": "C233",
   "status": "proved",
   "theorems": [
    "C233_one",
    "C233_two"
   ],
   "note": "Proved for G = 0, with the rows that the code sets to zero."
  },
  {
   "property": "C234",
   "status": "proved",
   "theorems": [
    "C234_singles",
    "C234_unique"
   ],
   "note": "Proved for G = 0; the derivative is unique."
  },
  {
   "property": "C235",
   "status": "partial",
   "theorems": [
    "C235_nfock2_1_partial",
    "C235_one_mode_partial",
    "C235_plain",
    "C235_two_modes_refuted"
   ],
   "note": "Optimised equations proved for nfock2 = 1, and for one mode; refuted for two modes with nfock2 = 2. The plain equations are proved for all modes."
  },
  {
   "property": "C236",
   "status": "partial",
   "theorems": [
    "C236_one_mode_partial",
    "C236_one_mode_refuted",
    "C236_plain_partial",
    "C236_single_mode",
    "C236_plain_with_doubles_refuted"
   ],
   "note": "Optimised equations: for one mode without coupled doubles exactly one term is wrong (half of <kl||cd> T2 U is missing), so refuted. Plain equations proved without coupled doubles, refuted with them. Single-mode equations proved."
  },
  {
   "property": "C237",
   "status": "partial",
   "theorems": [
    "C237_doubles_refuted"
   ],
   "note": "Refuted, already for one mode."
  },
  {
   "property": "C238",
   "status": "partial",
   "theorems": [
    "C238_symmetric_refuted",
    "C238_equation_refuted"
   ],
   "note": "Both refuted with two modes."
  },
  {
   "property": "C239",
   "status": "partial",
   "theorems": [
    "C239_singles",
    "C239_doubles_refuted",
    "C239_U22_refuted"
   ],
   "note": "Singles with one and (C236) two photons proved; refuted for the doubles with one photon, and the doubles with two photons differ from the plain equations."
  },
  {
   "property": "C240",
   "status": "partial",
   "theorems": [
    "C240_shapes",
    "C240_one_mode",
    "C240_modes_refuted",
    "C240_nfock1_refuted"
   ],
   "note": "With nfock1, nfock2 > 0 a call returns exactly if the lengths of eps_vir and w can be broadcast, always for one mode. Refuted for two modes and three virtual orbitals, and for nfock1 = 0."
  },
  {
   "property": "C241",
   "status": "partial",
   "theorems": [
    "C241_doubled_partial",
    "C241_stationary_refuted"
   ],
   "note": "The update divides a residual that already holds w U by a denominator that holds -w: stationary points satisfy the equation with 2w, refuted with w."
  },
  {
   "property": "C242",
   "status": "partial",
   "theorems": [
    "C242_single_partial",
    "C242_first_partial",
    "C242_other_partial",
    "C242_green_partial",
    "C242_sum_refuted"
   ],
   "note": "The code returns the component along the first determinant whatever the coefficients are: proved for one determinant with coefficient one, refuted for two; a walker equal to another determinant has overlap zero."
  },
  {
   "property": "C243",
   "status": "partial",
   "theorems": [
    "C243_oao_partial",
    "C243_same_partial",
    "C243_mo_partial",
    "C243_mo_refuted"
   ],
   "note": "Proved in orthogonalised atomic orbitals for any orthonormalising matrix; in molecular orbitals the build always raises IndexError, because a column number is used in place of a slice: refuted."
  },
  {
   "property": "C244",
   "status": "partial",
   "theorems": [
    "C244_hf_partial",
    "C244_others_partial",
    "C244_all_refuted"
   ],
   "note": "Proved for TrialHF; multiCI and TrialUHF inherit an empty half rotation and raise AttributeError: refuted."
  },
  {
   "property": "C245",
   "status": "proved",
   "theorems": [
    "C245_electrons"
   ],
   "note": "Proved."
  },
  {
   "property": "C246",
   "status": "partial",
   "theorems": [
    "C246_norm",
    "C246_coherent",
    "C246_shared_partial",
    "C246_modes_refuted"
   ],
   "note": "Norm and coherence proved; the modes are laid side by side in one vector of norm one, so two equal modes have half the displacement each: refuted."
  },
  {
   "property": "C247",
   "status": "partial",
   "theorems": [
    "C247_lowest_partial",
    "C247_vacuum_partial",
    "C247_refuted"
   ],
   "note": "The start has the wrong sign, one spin and no division by the frequency: it is the minimum exactly when the coupling vanishes, and otherwise lies above the vacuum: refuted."
  },
  {
   "property": "C248",
   "status": "proved",
   "theorems": [
    "C248_integrals",
    "C248_symmetry",
    "C248_blocks"
   ],
   "note": "Proved for any real orbitals and integrals over any field."
  },
  {
   "property": "C249",
   "status": "partial",
   "theorems": [
    "C249_unrestricted_partial",
    "C249_restricted_partial",
    "C249_odd_refuted",
    "C249_order_refuted"
   ],
   "note": "Unrestricted references and restricted ones with an even number of electrons keep their electrons; an odd number loses one, and the occupied orbitals are taken to be the first ones: refuted."
  },
  {
   "property": "C250",
   "status": "partial",
   "theorems": [
    "C250_fock_partial",
    "C250_no_dse_refuted"
   ],
   "note": "Proved when the reference has the dipole self-energy in its Coulomb and exchange matrices; otherwise get_I still includes it: refuted."
  },
  {
   "property": "C251",
   "status": "proved",
   "theorems": [
    "C251_shift",
    "C251_mean_field",
    "C251_coupling"
   ],
   "note": "Proved."
  },
  {
   "property": "C252",
   "status": "partial",
   "theorems": [
    "C252_energy_partial",
    "C252_half_refuted",
    "C252_calls_partial",
    "C252_again_refuted"
   ],
   "note": "Right with the shift, and at the first call for a reference that keeps its core Hamiltonian. Otherwise half of the one-electron part of the dipole self-energy is lost, and a kept core Hamiltonian grows at each call: refuted."
  },
  {
   "property": "C253",
   "status": "partial",
   "theorems": [
    "C253_self_energy_partial",
    "C253_one_mode_partial",
    "C253_modes_refuted",
    "C253_density_partial",
    "C253_density_refuted"
   ],
   "note": "The dipole self-energy is right for all modes. The factor of the frequency is right for one mode; with more it raises or scales columns. The starting density keeps its electrons only if the overlap is the identity: refuted."
  },
  {
   "property": "C254",
   "status": "partial",
   "theorems": [
    "C254_neutral_partial",
    "C254_translation",
    "C254_electrons_partial",
    "C254_ion_refuted",
    "C254_shift_refuted"
   ],
   "note": "Right for neutral molecules without shift, invariant under translation, and for electrons alone with shift. Ions and shifted neutral molecules get a wrong dipole: refuted."
  },
  {
   "property": "C255",
   "status": "partial",
   "theorems": [
    "C255_plasmon",
    "C255_given",
    "C255_isotropic_refuted"
   ],
   "note": "Right for an array of masses. One mass gives a number for which the conductivity raises TypeError: refuted."
  },
  {
   "property": "C256",
   "status": "partial",
   "theorems": [
    "C256_components_partial",
    "C256_passive",
    "C256_single_partial",
    "C256_drude_refuted",
    "C256_threshold_refuted",
    "C256_mixing_refuted",
    "C256_dielectric_refuted"
   ],
   "note": "Shape, imaginary part and passivity are proved. The Drude weight is the plasmon frequency rather than its square, the step sits at the plasmon frequencies and is added to all directions, and the dielectric function is not returned: refuted."
  },
  {
   "property": "C257",
   "status": "proved",
   "theorems": [
    "C257_splitting",
    "C257_given",
    "C257_half"
   ],
   "note": "Proved over any field in which three is not zero."
  },
  {
   "property": "C258",
   "status": "proved",
   "theorems": [
    "C258_gtensor"
   ],
   "note": "Proved; stacks of tensors are not modelled."
  },
  {
   "property": "C259",
   "status": "partial",
   "theorems": [
    "C259_dimension",
    "C259_system_refuted",
    "C259_object_partial",
    "C259_attributes_refuted"
   ],
   "note": "Tensors and dimension are right. The attributes D and E stay zero, and a system always holds one spin one half: refuted."
  },
  {
   "property": "C260",
   "status": "partial",
   "theorems": [
    "C260_energy",
    "C260_gradient",
    "C260_eigenstate",
    "C260_normalisation",
    "C260_metric",
    "C260_complex_partial",
    "C260_phase",
    "C260_complex_refuted"
   ],
   "note": "Proved for real wave functions. For complex ones the gradient lacks a conjugation: right for real logarithmic derivatives, refuted otherwise."
  },
  {
   "property": "C261",
   "status": "partial",
   "theorems": [
    "C261_loop_partial",
    "C261_base_refuted",
    "C261_report_refuted"
   ],
   "note": "Right when a subclass sets sampler, psi and opt. The class itself does not, so every run raises AttributeError, and the reported energy and step count stay zero: refuted."
  }
 ]
}