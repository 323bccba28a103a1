{"id": "C01", "title": "Pair branching conserves population and total weight", "statement": "Calling the 'branching' population control on any list of walkers with matching weights returns exactly as many walkers as it was given, every returned walker is an unmodified copy of one of the inputs, and the sum of the returned weights equals the sum of the absolute values of the input weights.", "quantifier": "every number of walkers, every real weight vector (any signs, ties, zeros), every pair of thresholds, every outcome of the random draws", "why_tests_cant": "a test fixes one weight vector and one RNG stream; the number of pairs visited, the clone/kill choices and the early exit are data- and draw-dependent", "anchors": ["openms/qmc/population_control.py:branching_dp0", "openms/qmc/population_control.py:control_func_dict"]}
{"id": "C02", "title": "Pair branching is unbiased", "statement": "Averaged over the uniform random draws, the total weight carried by the copies of any given input walker after 'branching' control equals that walker's absolute input weight.", "quantifier": "every weight vector with a positive pair sum wherever a pair is branched, every threshold pair, every walker", "why_tests_cant": "an expectation over the RNG cannot be established by finitely many seeds", "anchors": ["openms/qmc/population_control.py:branching_dp0"]}
{"id": "C03", "title": "Pair branching keeps the signed total weight", "statement": "The signed sum of the weights is unchanged by 'branching' population control.", "quantifier": "every real weight vector, including negative weights which weight_control explicitly allows (it clips to plus or minus a bound)", "why_tests_cant": "existing tests only use positive weights", "anchors": ["openms/qmc/population_control.py:branching_dp0", "openms/qmc/generic_walkers.py:BaseWalkers.weight_control"]}
{"id": "C04", "title": "Constant-population pair branching conserves total weight", "statement": "The documented 'constant walker count' variant of pair branching returns as many walkers as it received, clones the selected walker over the deleted one, and conserves the sum of absolute weights.", "quantifier": "every weight vector, thresholds and draws", "why_tests_cant": "seed-dependent; needs all draws", "anchors": ["openms/qmc/population_control.py:branching_dp_constant"]}
{"id": "C05", "title": "Reconfiguration returns exactly N equally weighted walkers without overrunning", "statement": "Stochastic reconfiguration of N walkers with non-negative weights of positive total never indexes past the last walker, returns exactly N walkers each of weight total/N, and therefore conserves the total weight.", "quantifier": "every N>=1, every non-negative weight vector with positive sum, every starting offset in [0,1/N)", "why_tests_cant": "the two-pointer loop's termination and bounds depend on the offset and on all partial sums", "anchors": ["openms/qmc/population_control.py:stochastic_reconfiguration", "openms/qmc/population_control.py:systematic_resampling"]}
{"id": "C06", "title": "Reconfiguration and comb copy each walker floor or ceiling of its share", "statement": "In reconfiguration (and in comb resampling) the number of copies of walker j differs from N*w_j/sum(w) by strictly less than one, zero-weight walkers are never selected for an interior offset, and the copies appear in the input order.", "quantifier": "every N, weight vector, offset, walker index", "why_tests_cant": "the claim bounds a count for all offsets", "anchors": ["openms/qmc/population_control.py:stochastic_reconfiguration", "openms/qmc/population_control.py:comb_resampling"]}
{"id": "C07", "title": "Comb resampling and reconfiguration select the same walkers", "statement": "Given the same weights and the same starting offset, comb resampling and stochastic reconfiguration return the same walkers with the same weights except when a marker falls exactly on a cumulative-weight boundary.", "quantifier": "every N, weights, offset", "why_tests_cant": "two independent algorithms (binary search versus two-pointer sweep) agree for all inputs only by proof", "anchors": ["openms/qmc/population_control.py:comb_resampling", "openms/qmc/population_control.py:stochastic_reconfiguration", "openms/qmc/population_control.py:systematic_resampling"]}
{"id": "C08", "title": "Reconfiguration is unbiased over the offset", "statement": "Averaged over the uniform starting offset, the expected number of copies of walker j is N*w_j/sum(w).", "quantifier": "every weight vector and walker", "why_tests_cant": "an integral over a continuous random variable", "anchors": ["openms/qmc/population_control.py:stochastic_reconfiguration"]}
{"id": "C09", "title": "Unrestricted branching keeps weight bookkeeping", "statement": "Cloning/killing branching replaces a heavy walker by copies whose weights add up to the original weight, leaves mid-weight walkers untouched, and replaces a light walker by either nothing or one walker at the lower bound with the probability that makes it unbiased.", "quantifier": "every weight list, bounds with 0<lower<=upper, every draw", "why_tests_cant": "draw-dependent and data-dependent branches", "anchors": ["openms/qmc/population_control.py:branching_population_control"]}
{"id": "C10", "title": "Inter-node rebalancing plan is conservative and sufficient", "statement": "The send plan computed for inter-node rebalancing only moves walkers from ranks above the ideal count to ranks below it, never sends more than a rank's surplus, and satisfies every receiver's deficit exactly.", "quantifier": "every list of per-rank walker counts", "why_tests_cant": "every distribution of walkers over any number of ranks", "anchors": ["openms/qmc/population_control.py:inter_node_rebalance"]}
{"id": "C11", "title": "Weight control normalises the global weight and never changes ratios", "statement": "At a control step with no population-control method the new weights are one positive constant times the (clipped) old weights, their absolute values sum over all ranks to the original global walker number, and at non-control steps weights are only clipped.", "quantifier": "every step number, frequency, number of ranks and weight vectors per rank with positive total", "why_tests_cant": "histories over steps and ranks are unbounded", "anchors": ["openms/qmc/generic_walkers.py:BaseWalkers.weight_control"]}
{"id": "C12", "title": "Weights stay within ten percent of the recorded total", "statement": "After weight control at any step later than the first, before renormalisation no walker weight exceeds one tenth of the last recorded total weight in magnitude, and clipping never changes a weight already inside the bound nor its sign.", "quantifier": "every history of steps and weights", "why_tests_cant": "requires every reachable history of totals", "anchors": ["openms/qmc/generic_walkers.py:BaseWalkers.weight_control"]}
{"id": "C13", "title": "Walkers are partitioned over ranks evenly, completely and contiguously", "statement": "For any global number of walkers and any number of ranks the per-rank counts add up to the global number, differ by at most one, are non-increasing in rank, and the displacements are the exclusive prefix sums so the rank segments tile the global array without gap or overlap.", "quantifier": "every walker count, rank count and rank", "why_tests_cant": "a test runs on one communicator size", "anchors": ["openms/qmc/generic_walkers.py:BaseWalkers.__init__"]}
{"id": "C14", "title": "Packing and unpacking walkers is lossless", "statement": "Unpacking a packed population restores exactly the alpha, beta and bosonic parts of every walker, for every combination of components and bosons; and unpacking a permuted/resampled package moves all packed parts of one walker together.", "quantifier": "every population, every component count, with or without bosons, every resampling index list", "why_tests_cant": "four code paths and arbitrary resampling lists", "anchors": ["openms/qmc/generic_walkers.py:BaseWalkers._pack_walkers", "openms/qmc/generic_walkers.py:BaseWalkers._unpack_walkers"]}
{"id": "C15", "title": "Per-walker data stay attached to their walker under population control", "statement": "After population control every per-walker quantity (overlap, hybrid energy, accumulated log determinant) at slot i belongs to the walker stored in slot i.", "quantifier": "every population, method and draw", "why_tests_cant": "only visible when walkers are permuted by particular draws", "anchors": ["openms/qmc/generic_walkers.py:BaseWalkers._pack_walkers", "openms/qmc/generic_walkers.py:BaseWalkers._unpack_walkers", "openms/qmc/population_control.py:population_control_factory", "openms/qmc/propagators.py:Phaseless.update_weight"]}
{"id": "C16", "title": "Simulations do not share walker options", "statement": "Constructing a simulation with walker_options does not affect the options of any simulation constructed before or after it.", "quantifier": "every sequence of constructions", "why_tests_cant": "depends on construction history within one process", "anchors": ["openms/qmc/qmc.py:QMCbase.__init__", "openms/qmc/generic_walkers.py:default_walker_options"]}
{"id": "C17", "title": "A walker count passed in walker_options is honoured", "statement": "When the user passes walker_options={'nwalkers': n} without num_walkers, the simulation uses n walkers.", "quantifier": "every n and every history", "why_tests_cant": "default-argument interaction holds for every n, a single test could accidentally use the default", "anchors": ["openms/qmc/qmc.py:QMCbase.__init__"]}
{"id": "C18", "title": "QMC run records energies on schedule", "statement": "A run of nsteps steps returns time and energy lists of equal length nsteps // property_calc_freq, the k-th time (from 1) being dt*(k*freq-1), one propagation per step, one orthogonalisation before the loop and one at every renorm_freq-th step before that step's propagation.", "quantifier": "every nsteps, every positive frequency, every time step", "why_tests_cant": "unbounded number of steps and frequencies", "anchors": ["openms/qmc/qmc.py:QMCbase.kernel", "openms/qmc/qmc.py:kernel"]}
{"id": "C19", "title": "The energy shift is the weight-averaged hybrid energy of the last window", "statement": "Whenever properties are reduced, the energy shift used from then on equals the ratio of the accumulated weighted hybrid energies to the accumulated weights over exactly the steps since the previous reduction (summed over all ranks), and the accumulator is empty afterwards.", "quantifier": "every sequence of walker states, frequency and number of ranks", "why_tests_cant": "history-dependent", "anchors": ["openms/qmc/qmc.py:QMCbase.property_stack"]}
{"id": "C20", "title": "Orthogonalisation keeps the walker's physical state", "statement": "Orthogonalising a walker leaves its mixed-estimator Green's function with any trial unchanged and divides its overlap by the stored determinant factor.", "quantifier": "every walker, trial, QR factorisation with invertible R", "why_tests_cant": "all matrices", "anchors": ["openms/qmc/qmc.py:QMCbase.orthogonalization", "openms/qmc/qmc.py:qr_ortho"]}
{"id": "C21", "title": "Pivoted Cholesky reproduces the integrals within the threshold", "statement": "When the modified Cholesky decomposition of a symmetric positive semidefinite integral matrix returns, every element of M - sum_n L_n L_n^T is at most the threshold in magnitude.", "quantifier": "every symmetric PSD matrix of every size, every positive threshold", "why_tests_cant": "all matrices", "anchors": ["openms/qmc/tools.py:chols_blocked", "openms/qmc/tools.py:chols_full"]}
{"id": "C22", "title": "Pivoted Cholesky terminates with at most rank-many vectors", "statement": "The modified Cholesky loop on an N x N symmetric PSD matrix stops after at most N vectors, so with the reserved 15*nao rows it fails with an index error only if more rows than reserved are needed to reach the threshold.", "quantifier": "every matrix size, threshold and reserved row count", "why_tests_cant": "loop bound over all matrices", "anchors": ["openms/qmc/tools.py:chols_blocked"]}
{"id": "C23", "title": "FCIDUMP integrals carry the full permutational symmetry", "statement": "After reading an FCIDUMP file listing each unique integral once, eri[p,q,r,s] equals eri at all eight permutation-equivalent index tuples and h1e is symmetric.", "quantifier": "every list of records", "why_tests_cant": "all files; a symmetric sample file hides missing images", "anchors": ["openms/qmc/tools.py:read_fcidump"]}
{"id": "C24", "title": "Shell lookup inverts the shell offsets", "statement": "For strictly increasing AO offsets starting at zero, looking up any AO index returns the unique shell whose half-open AO range contains it.", "quantifier": "every offset list and AO index", "why_tests_cant": "all bases", "anchors": ["openms/qmc/tools.py:_find_shell"]}
{"id": "C25", "title": "The plan of sparse and low-rank Cholesky vectors preserves the exchange energy", "statement": "The plan has exactly one entry per Cholesky vector, and the exchange energy computed from it equals the plain exchange energy when the dropped singular values and the elements outside the band vanish.", "quantifier": "every list of Cholesky vectors, density, rank limit and bandwidth", "why_tests_cant": "all tensors; symmetric samples hide a missing transpose", "anchors": ["openms/qmc/tools.py:build_Ltensor_plan", "openms/qmc/estimators.py:exx_mixed_rank"]}
{"id": "C26", "title": "Bilinear decoupling reproduces the electron-photon Hamiltonian", "statement": "The auxiliary fields produced by the bilinear decomposition (schemes 1 and 2) satisfy sum over fields of (e_field + b_field)^2/2 = bilinear coupling, with the pure electronic and pure bosonic squares cancelling.", "quantifier": "every coupling matrix and mode count, schemes 1 and 2", "why_tests_cant": "algebraic identity over all matrices", "anchors": ["openms/qmc/tools.py:bilinear_decomposition"]}
{"id": "C27", "title": "Mixed Green's function is a projector with the right particle number", "statement": "For any trial and walker with non-singular overlap the Green's function is idempotent, its trace is the number of electrons, it reproduces the walker orbitals, and it does not change when walker orbitals are mixed by any invertible matrix.", "quantifier": "every trial, walker, orbital number, electron number", "why_tests_cant": "all matrices", "anchors": ["openms/qmc/trial.py:trial_walker_ovlp_gf_base", "openms/qmc/estimators.py:GF"]}
{"id": "C28", "title": "Half-rotated energy equals the full Green's-function energy", "statement": "The one-body, Coulomb and exchange energies computed from half-rotated integrals and the half Green's function equal those computed from the full integrals and full Green's function.", "quantifier": "every Hamiltonian, trial and walker", "why_tests_cant": "algebraic identity over all matrices", "anchors": ["openms/qmc/estimators.py:e_rh1e_Ghalf", "openms/qmc/estimators.py:ecoul_rltensor_uhf", "openms/qmc/estimators.py:exx_rltensor_Ghalf", "openms/qmc/trial.py:half_rotate_integrals"]}
{"id": "C29", "title": "Closed-shell energy path equals the unrestricted path", "statement": "For equal alpha and beta walkers and trials the restricted local energy equals the unrestricted one and the restricted overlap equals the product of the spin overlaps.", "quantifier": "every Hamiltonian, trial and walker", "why_tests_cant": "all matrices", "anchors": ["openms/qmc/estimators.py:local_energy_SD_RHF", "openms/qmc/estimators.py:local_energy_SD_UHF", "openms/qmc/trial.py:calc_trial_walker_ovlp"]}
{"id": "C30", "title": "Distributed exchange equals serial exchange", "statement": "The exchange energies computed rank by rank on local walkers and gathered with the counts and displacements of the walker distribution equal, in order, the ones computed serially for all walkers.", "quantifier": "every number of walkers, ranks and vectors", "why_tests_cant": "all chunkings", "anchors": ["openms/qmc/estimators.py:exx_rltensor_Ghalf_chunked"]}
{"id": "C31", "title": "Compiled Coulomb kernel equals the array implementation", "statement": "The numba Coulomb kernel returns the same energies as the numpy one.", "quantifier": "every input", "why_tests_cant": "kernel only selected at run time; the equality must hold for all inputs", "anchors": ["openms/qmc/estimators.py:ecoul_rltensor_uhf"]}
{"id": "C32", "title": "Electron-boson energy accumulates over every mode", "statement": "The bilinear electron-boson local energy is the sum over all modes of the coupling evaluated with that mode's own block of the bosonic walker.", "quantifier": "every number of modes and Fock dimensions", "why_tests_cant": "multi-mode layouts", "anchors": ["openms/qmc/estimators.py:local_eng_eboson"]}
{"id": "C33", "title": "Walker weights stay non-negative and bounded", "statement": "With the hybrid phaseless scheme non-negative weights stay non-negative, a phase rotation beyond pi/2 kills the walker, and one step multiplies a weight by at most exp(dt*(energy bound + half the shift difference)).", "quantifier": "every weight, overlap ratio, force-bias factor, energy and step size; every number of steps", "why_tests_cant": "complex-valued inputs and unbounded histories", "anchors": ["openms/qmc/propagators.py:Phaseless.update_weight"]}
{"id": "C34", "title": "Force bias is bounded after rescaling", "statement": "After force-bias rescaling every component has magnitude at most the configured bound and components within the bound are unchanged; direction is preserved.", "quantifier": "every complex force bias and bound", "why_tests_cant": "all complex inputs and bounds", "anchors": ["openms/qmc/propagators.py:Phaseless.rescale_fbias"]}
{"id": "C35", "title": "Taylor propagation applies the truncated exponential", "statement": "Applying the Taylor-series propagator of order n to a walker yields sum_{k<=n} A^k/k! applied to it, which is linear in the walker, and exact for a nilpotent A of index at most n+1.", "quantifier": "every operator, walker and order", "why_tests_cant": "all orders and matrices", "anchors": ["openms/qmc/propagators.py:propagate_exp_op"]}
{"id": "C36", "title": "Mean-field background subtraction leaves the Hamiltonian unchanged", "statement": "Shifting every auxiliary field operator by its mean-field value, adding the compensating one-body and constant terms, gives back the original Hamiltonian.", "quantifier": "every set of Cholesky vectors and every density", "why_tests_cant": "algebraic identity", "anchors": ["openms/qmc/propagators.py:PropagatorBase.build"]}
{"id": "C37", "title": "Tail averages use exactly the last fraction of the data", "statement": "The mean/standard-error routine averages exactly the last max(1, len//N) samples.", "quantifier": "every data length and N", "why_tests_cant": "all lengths", "anchors": ["openms/qmc/tools.py:get_mean_std"]}
{"id": "C38", "title": "Outlier removal keeps all inliers and bounds what it drops", "statement": "z-score outlier removal keeps every sample within the threshold, removes every one outside, keeps order, and (for non-constant data) cannot remove more than a 1/threshold^2 fraction.", "quantifier": "every data set and threshold", "why_tests_cant": "all data sets", "anchors": ["openms/qmc/tools.py:remove_outliers"]}
{"id": "C39", "title": "Block analysis partitions the series", "statement": "The blocking analysis cuts the series into disjoint contiguous blocks of equal size covering all but fewer than one block of samples, and the mean of block means is the mean of the covered samples.", "quantifier": "every series length and block size", "why_tests_cant": "all lengths", "anchors": ["openms/qmc/tools.py:analysis_autocorr"]}
{"id": "C40", "title": "Automatic window picks the first self-consistent window", "statement": "The automatic windowing returns the smallest window M with M >= c*tau(M), and the last index when none exists.", "quantifier": "every autocorrelation series and c", "why_tests_cant": "all series", "anchors": ["openms/qmc/tools.py:auto_window"]}
{"id": "C41", "title": "Packed symmetric storage is lossless", "statement": "Packing a symmetric matrix and unpacking it gives back the matrix, the packed index is a bijection between pairs i>=j and 0..n(n+1)/2-1, and the weighted packed dot product equals the full double sum.", "quantifier": "every size and symmetric matrix", "why_tests_cant": "all sizes", "anchors": ["openms/lib/boson.py:packed_index", "openms/lib/boson.py:pack_symmetric", "openms/lib/boson.py:unpack_symmetric"]}
{"id": "C42", "title": "Displacement factor derivative is the derivative of the displacement factor", "statement": "The derivative routine for the photon displacement factor returns the derivative with respect to the displacement of the value routine.", "quantifier": "every displacement and every photon density matrix of every dimension", "why_tests_cant": "all real displacements and all density matrices", "anchors": ["openms/lib/boson.py:Boson.displacement_exp_val", "openms/lib/boson.py:Boson.displacement_deriv_kernel"]}
{"id": "C43", "title": "Dressing factor is symmetric so dressed integrals are Hermitian", "statement": "The dressing (Franck-Condon) factor for orbital pair (p,q) equals that for (q,p).", "quantifier": "every pair of dipole eigenvalues and photon density matrix", "why_tests_cant": "all density matrices", "anchors": ["openms/lib/boson.py:Boson.displacement_exp_val", "openms/mqed/scqedhf.py:FC_factor"]}
{"id": "C44", "title": "Bosonic Hamiltonian is symmetric, block diagonal and has the right spectrum limits", "statement": "The bosonic mean-field Hamiltonian is symmetric and block diagonal over modes for any displacement; without displacement and squeezing it is diagonal with entries n*omega.", "quantifier": "every number of modes, Fock dimensions, frequencies, displacements", "why_tests_cant": "all mode layouts", "anchors": ["openms/lib/boson.py:get_bosonic_Ham"]}
{"id": "C45", "title": "Constructing a cavity does not alter its inputs", "statement": "Building two cavity objects from the same polarisation vectors, frequencies yields the same couplings, and the caller's arrays are not modified.", "quantifier": "every polarisation vector", "why_tests_cant": "only visible on reuse of arrays", "anchors": ["openms/lib/boson.py:Boson.__init__"]}
{"id": "C46", "title": "Duplicate interaction-matrix routines agree", "statement": "The pairs of routines computing the dipole and quadrupole interaction matrices return the same matrices, and the electron-boson coupling is sqrt(omega/2) times the dipole one.", "quantifier": "every geometry, mode and polarisation", "why_tests_cant": "all inputs", "anchors": ["openms/lib/boson.py:Photon.get_gmat_ao", "openms/lib/boson.py:Photon.get_gmatao", "openms/lib/boson.py:Photon.get_q_lambda_ao", "openms/lib/boson.py:Photon.get_q_dot_lambda", "openms/lib/boson.py:Photon.get_geb_ao"]}
{"id": "C47", "title": "Incremental and full Fock builds agree", "statement": "Building the QED-HF effective potential incrementally from the previous density and potential gives the same matrix as building from scratch, over any number of iterations.", "quantifier": "every sequence of densities", "why_tests_cant": "arbitrarily long SCF histories", "anchors": ["openms/mqed/qedhf.py:RHF.get_veff", "openms/mqed/qedhf.py:RHF.get_dse_jk"]}
{"id": "C48", "title": "Coherent-state QED-HF energy is origin invariant", "statement": "Translating the dipole operator by any multiple of the overlap (moving the origin of a neutral or charged molecule) does not change the coherent-state QED-HF dipole self energy for idempotent densities.", "quantifier": "every density, dipole and shift", "why_tests_cant": "all inputs", "anchors": ["openms/lib/boson.py:Photon.update_cs", "openms/lib/boson.py:Photon.add_oei_ao", "openms/mqed/qedhf.py:RHF.get_dse_jk"]}
{"id": "C49", "title": "SCF convergence flag is truthful and iteration count bounded", "statement": "The SCF driver reports convergence only if in some cycle both the energy change and the gradient norm were below tolerance, stops at the first such cycle, and never runs more than max_cycle cycles.", "quantifier": "every sequence of energies and gradients, tolerances and cycle limits", "why_tests_cant": "all iteration histories", "anchors": ["openms/mqed/qedhf.py:kernel", "openms/mqed/scqedhf.py:kernel"]}
{"id": "C50", "title": "Coulomb/exchange build terminates when integrals are not held in memory", "statement": "Requesting Coulomb and exchange matrices terminates regardless of whether the integrals fit in memory.", "quantifier": "every call", "why_tests_cant": "out-of-core branch is never exercised by small tests", "anchors": ["openms/mqed/qedhf.py:RHF.get_jk"]}
{"id": "C51", "title": "Photon number distribution of a coherent state is Poissonian", "statement": "The photon density matrix returned with a coherent displacement has Poisson-distributed diagonal (up to normalisation of the truncated space).", "quantifier": "every displacement and truncation", "why_tests_cant": "all displacements", "anchors": ["openms/mqed/qedhf.py:RHF.make_rdm1_org", "openms/mqed/scqedhf.py:RHF.make_rdm1_org", "openms/mqed/vtqedhf.py:RHF.make_rdm1_org"]}
{"id": "C52", "title": "Variational parameters survive packing and unpacking", "statement": "Packing the variational parameters into the flat DIIS vector and unpacking it restores the Fock matrix and every parameter that is being optimised.", "quantifier": "every parameter set and every combination of optimisation switches", "why_tests_cant": "all switch combinations and sizes", "anchors": ["openms/mqed/vtqedhf.py:RHF.set_params", "openms/mqed/vtqedhf.py:RHF.set_var_params", "openms/mqed/scqedhf.py:RHF.set_params"]}
{"id": "C53", "title": "Every degenerate dipole block is resolved", "statement": "Degeneracy resolution treats every maximal group of (nearly) equal dipole eigenvalues.", "quantifier": "every sorted eigenvalue list", "why_tests_cant": "position of the degenerate block matters", "anchors": ["openms/mqed/scqedhf.py:RHF.check_n_resolve_degeneracy"]}
{"id": "C54", "title": "Truncated boson ladder operators are adjoint and have the right commutator", "statement": "Creation and annihilation on the truncated CI tensor are adjoint to each other; annihilating after creating minus creating after annihilating is the identity below the cutoff; each touches only its own mode.", "quantifier": "every CI tensor, number of modes and cutoffs", "why_tests_cant": "all tensors and cutoffs", "anchors": ["openms/mqed/qedfci.py:cre_boson", "openms/mqed/qedfci.py:des_boson"]}
{"id": "C55", "title": "Bosonic FCI energy operator counts quanta in every mode", "statement": "Applying the bosonic part of the Hamiltonian multiplies a basis state with n_k quanta in mode k by sum_k omega_k*n_k.", "quantifier": "every number of modes, cutoffs, tensor", "why_tests_cant": "multi-mode layouts", "anchors": ["openms/mqed/qedfci.py:contract_bb", "openms/mqed/qedfci.py:kernel"]}
{"id": "C56", "title": "Absorbing the one-electron term into the two-electron operator preserves the Hamiltonian", "statement": "For states of nelec electrons, the two-electron operator with the absorbed one-electron term acts like the sum of both operators.", "quantifier": "every Hamiltonian and electron number", "why_tests_cant": "operator identity", "anchors": ["openms/mqed/qedfci.py:absorb_h1e"]}
{"id": "C57", "title": "Coupled-cluster denominators use the photon energy of each photon index", "statement": "The denominators for pure n-photon amplitudes equal the negative sum of the n photon energies at every index and for any number of modes.", "quantifier": "every number of modes, orders and photon energies", "why_tests_cant": "index broadcasting for all sizes", "anchors": ["openms/mqed/ccsd.py:getDsn", "openms/mqed/ccsd.py:getD1p", "openms/mqed/ccsd.py:getD2p"]}
{"id": "C58", "title": "Coupled-cluster amplitude vector round-trips", "statement": "Flattening the amplitudes and unflattening gives back the amplitudes.", "quantifier": "every amplitude set and vector", "why_tests_cant": "all sizes", "anchors": ["openms/mqed/ccsd.py:CCSD.amplitudes2vector", "openms/mqed/ccsd.py:CCSD.vector2amplitudes"]}
{"id": "C59", "title": "Lattice hopping matrix is the adjacency of the chain", "statement": "The Hubbard hopping matrix is symmetric and connects exactly nearest neighbours with amplitude -1 for both boundary conditions and every length.", "quantifier": "every chain length and boundary condition", "why_tests_cant": "all lengths including the degenerate ones", "anchors": ["openms/models/hubbard.py:Hubbard1D.tmatS", "openms/models/hh_model.py:HHModel.tmatS", "openms/models/hh_model.py:get_mo"]}
{"id": "C60", "title": "Hubbard mean-field energy equals the textbook expression", "statement": "The model's Hartree-Fock energy equals trace of hopping with the density plus U times the sum over sites of up- and down-densities (plus the phonon shift constant).", "quantifier": "every length, U, density", "why_tests_cant": "algebraic identity for all sizes", "anchors": ["openms/models/hubbard.py:Hubbard1D.hf_energy", "openms/models/hh_model.py:HHModel.hf_energy"]}
{"id": "C61", "title": "Surface-hopping Hamiltonian carries the adiabatic energies on its diagonal", "statement": "The electronic Hamiltonian assembled for surface hopping has the adiabatic energies on the diagonal and antisymmetric couplings off the diagonal.", "quantifier": "every number of molecules and states", "why_tests_cant": "all sizes", "anchors": ["openms/qmd/sh.py:SH.get_H"]}
{"id": "C62", "title": "Runge-Kutta step is fourth-order exact for linear systems", "statement": "One RK4 step for a linear autonomous system equals the fourth-order Taylor polynomial of the exact propagator; for a polynomial right-hand side in time of degree at most three it integrates exactly.", "quantifier": "every matrix, state and step", "why_tests_cant": "all matrices", "anchors": ["openms/qmd/propagator.py:rk4"]}
{"id": "C63", "title": "Log messages are gated by verbosity and never fail", "statement": "A log call prints exactly when the object's verbosity reaches the level of the call, and no level of log call raises.", "quantifier": "every verbosity, every level, every rank", "why_tests_cant": "all verbosity and level pairs", "anchors": ["openms/lib/logger.py"]}
{"id": "C64", "title": "Serial communicator stand-in behaves like a one-rank communicator", "statement": "Without MPI, collective operations on numbers and arrays return the value of the single rank and never raise.", "quantifier": "every value type and operation", "why_tests_cant": "type-dependent failure", "anchors": ["openms/__mpi__.py:FakeComm"]}
{"id": "C65", "title": "Backend selection accepts exactly the documented names", "statement": "Selecting a backend by any documented name either switches to it or reports it unavailable with the documented error.", "quantifier": "every string", "why_tests_cant": "all strings", "anchors": ["openms/lib/backend.py:set_backend"]}
{"id": "C66", "title": "Harmonic trial has zero-variance energy", "statement": "For an undisplaced harmonic trial with matching frequency the local energy is zero for every configuration in both coordinate and momentum representation.", "quantifier": "every mass, frequency, configuration and site number", "why_tests_cant": "all configurations", "anchors": ["openms/qmc/trial_boson.py:TrialQ.local_energy", "openms/qmc/trial_boson.py:TrialP.local_energy"]}
{"id": "C67", "title": "Determinant reordering sign is the permutation parity", "statement": "The sign returned for reordering occupied orbitals equals the parity of the sorting permutation.", "quantifier": "every list of distinct orbital indices", "why_tests_cant": "all permutations", "anchors": ["openms/qmc/trial.py:permutation_sign"]}
{"id": "C68", "title": "Occupied-virtual block slicing partitions the integrals", "statement": "The sixteen occupied/virtual blocks cut from a two-electron tensor contain every element exactly once, and block-diagonal stacking preserves both blocks and zeros elsewhere.", "quantifier": "every occupied and virtual dimension", "why_tests_cant": "all sizes", "anchors": ["openms/lib/ov_blocks.py"]}
{"id": "C69", "title": "DIIS error vector vanishes exactly at self-consistency", "statement": "The DIIS error matrix is anti-Hermitian and is zero exactly when the Fock and density matrices commute in the overlap metric.", "quantifier": "every overlap, density and Fock matrix", "why_tests_cant": "all matrices", "anchors": ["openms/mqed/diis.py:get_err_vec_orig"]}
{"id": "C70", "title": "Decorated functions keep their results", "statement": "Timing or deprecation decorators return what the wrapped function returns.", "quantifier": "every function and argument", "why_tests_cant": "all functions", "anchors": ["openms/lib/misc.py:wall_time", "openms/lib/misc.py:deprecated"]}
{"id": "C71", "title": "Bosonic renormalisation keeps the walker up to a scalar", "statement": "Renormalising a bosonic walker replaces its amplitude vector by a scalar multiple of itself.", "quantifier": "every bosonic amplitude vector", "why_tests_cant": "sign and phase patterns", "anchors": ["openms/qmc/qmc.py:QMCbase.orthogonalization"]}
{"id": "C72", "title": "Decoupling scheme 3 reproduces the coupling without self-energy", "statement": "The auxiliary fields of bilinear decoupling scheme 3 reproduce the bilinear coupling with the pure electronic squares cancelling.", "quantifier": "every coupling matrix and mode count", "why_tests_cant": "algebraic identity", "anchors": ["openms/qmc/tools.py:bilinear_decomposition"]}
{"id": "C73", "title": "Bosonic bilinear propagation applies the truncated exponential", "statement": "In the bilinear electron-boson propagation the bosonic factor applied to a walker is the Taylor polynomial of the exponential of the requested order.", "quantifier": "every order, operator and walker", "why_tests_cant": "all orders", "anchors": ["openms/qmc/propagators.py:PhaselessElecBoson.propagate_walkers_bilinear"]}
{"id": "C74", "title": "Outlier removal never empties the data", "statement": "z-score outlier removal never returns an empty array for non-empty input.", "quantifier": "every non-empty data set and positive threshold", "why_tests_cant": "degenerate data sets", "anchors": ["openms/qmc/tools.py:remove_outliers"]}
{"id": "C75", "title": "Mixed electron-photon denominators use each photon index", "statement": "The coupled-cluster denominators for mixed n-photon excitations equal the orbital energy difference minus the sum of the n photon energies at every index.", "quantifier": "every number of modes and photons", "why_tests_cant": "index broadcasting for all sizes", "anchors": ["openms/mqed/ccsd.py:getD1p", "openms/mqed/ccsd.py:getD2p"]}
{"id": "C76", "title": "Extrapolated coupled-cluster vector reaches every amplitude", "statement": "After DIIS extrapolation every amplitude, including photonic ones, takes its value from the extrapolated vector.", "quantifier": "every vector", "why_tests_cant": "all sizes", "anchors": ["openms/mqed/ccsd.py:CCSD.vector2amplitudes", "openms/mqed/ccsd.py:CCSD.run_diis"]}
{"id": "C77", "title": "Requested amplitudes are returned by the coupled-cluster driver", "statement": "Running the coupled-cluster driver with the request to return amplitudes returns them.", "quantifier": "every run", "why_tests_cant": "argument-order dependent", "anchors": ["openms/mqed/ccsd.py:CCSD.ccsd_nfock", "openms/mqed/ccsd.py:kernel"]}
{"id": "C78", "title": "Random streams are reproducible and rank specific", "statement": "In a multi-rank run every rank draws from its own stream fixed by the user's seed.", "quantifier": "every seed and rank count", "why_tests_cant": "depends on MPI size", "anchors": ["openms/qmc/qmc.py:QMCbase.kernel"]}
{"id": "C79", "title": "Electron-boson energy is globally reduced consistently", "statement": "With several ranks, the reported electron-boson total energy numerator and denominator are both summed over all ranks.", "quantifier": "every rank count and per-rank populations", "why_tests_cant": "only visible with several ranks", "anchors": ["openms/qmc/propagators.py:PhaselessElecBoson.local_energy"]}
{"id": "C80", "title": "Hubbard-Holstein reference orbitals depend on U", "statement": "The mean-field reference orbitals of the Hubbard-Holstein model are obtained with the on-site repulsion U whether or not the initial guess breaks spin symmetry.", "quantifier": "every U and symmetry flag", "why_tests_cant": "flag combination", "anchors": ["openms/models/hh_model.py:get_mo"]}
{"id": "C81", "title": "Reconfiguration never overruns in double precision", "statement": "Stochastic reconfiguration of a population of positive double-precision weights never raises IndexError, for every value the random generator can return.", "quantifier": "every population size, every vector of positive doubles, every 53-bit draw", "why_tests_cant": "the failing draws have probability about 1e-15 per call and depend on rounding of the cumulative sum", "anchors": ["openms/qmc/population_control.py:stochastic_reconfiguration"]}
{"id": "C82", "title": "Pair branching leaves only in-range walkers untouched", "statement": "After 'branching' control every walker that survives as exactly one copy has an absolute weight between the minimum and maximum thresholds, except possibly the middle walker of an odd population.", "quantifier": "every population, thresholds and draws", "why_tests_cant": "the loop stops at a data-dependent pair; the claim is about all pairs not visited", "anchors": ["openms/qmc/population_control.py:branching_dp0"]}
{"id": "C83", "title": "A balanced population is not clipped", "statement": "If all walkers carry the same weight and the recorded total is the sum of the weights, weight control between control steps leaves every weight unchanged.", "quantifier": "every population size and weight", "why_tests_cant": "tests use large populations; the ten percent rule fails only for fewer than ten walkers", "anchors": ["openms/qmc/generic_walkers.py:BaseWalkers.weight_control"]}
{"id": "C84", "title": "Stored overlap after orthogonalisation is the overlap of the new walker", "statement": "After orthogonalisation the overlap attribute of a walker equals the overlap of its new orbitals with the trial.", "quantifier": "every walker, trial and QR factorisation", "why_tests_cant": "Tests use one QR sign convention and rarely read the stored overlap between steps.", "anchors": ["openms/qmc/qmc.py:QMCbase.orthogonalization", "openms/qmc/qmc.py:qr_ortho"]}
{"id": "C85", "title": "Hybrid phaseless factor uses the overlap phase", "statement": "In the hybrid scheme a walker whose overlap ratio is rotated beyond pi/2 gets weight zero.", "quantifier": "every overlap ratio, force-bias factor, energy bound and step size", "why_tests_cant": "Runs rarely meet rotated walkers, and the averaged energy does not show which ones were kept.", "anchors": ["openms/qmc/propagators.py:Phaseless.update_weight"]}
{"id": "C86", "title": "Decoupled mean-field shift leaves the coupling unchanged", "statement": "In the decoupled electron-boson scheme the sampled field operators plus the one-body compensations equal the original half squares up to a constant.", "quantifier": "every electronic and bosonic operator and mean values", "why_tests_cant": "A missing mean-field cross term only biases the energy of a stochastic run.", "anchors": ["openms/qmc/propagators.py:PhaselessElecBoson.build", "openms/qmc/propagators.py:PhaselessElecBoson.propagate_bosons_bilinear"]}
{"id": "C87", "title": "Force-bias factor is the Gaussian density ratio", "statement": "The factor added to the weight exponent for a shift of the auxiliary fields is the log ratio of the Gaussian densities at the shifted and unshifted fields.", "quantifier": "every field sample and every bias", "why_tests_cant": "Holds for all samples; a run only averages over them.", "anchors": ["openms/qmc/propagators.py:Phaseless.propagate_walkers_twobody"]}
{"id": "C88", "title": "Shared fields have one force bias", "statement": "In the decoupled electron-boson scheme the total force-bias factor is the Gaussian density ratio of one shift of the shared fields.", "quantifier": "every field sample and every pair of electronic and bosonic biases", "why_tests_cant": "The violation is a systematic weight error below statistical noise in short runs.", "anchors": ["openms/qmc/propagators.py:PhaselessElecBoson.propagate_bosons_bilinear", "openms/qmc/propagators.py:PhaselessElecBoson.propagate_walkers"]}
{"id": "C89", "title": "Force bias cancels the first-order fluctuation of the weight", "statement": "With the unbounded force bias the terms of the weight exponent linear in the random fields (overlap response, force-bias factor and mean-field phase) add up to zero.", "quantifier": "every walker, field sample, mean-field shift and step size", "why_tests_cant": "A variance property; a wrong sign still gives right averages.", "anchors": ["openms/qmc/propagators.py:Phaseless.propagate_walkers_twobody"]}
{"id": "C90", "title": "Green's function is the one-body response of the overlap", "statement": "The overlap of the trial with the walker acted on by 1 + e c+_a c_b is the overlap times 1 + e G_ab, and this determines G.", "quantifier": "every trial, walker, pair of orbitals and e", "why_tests_cant": "Needs an independent many-body evaluation for every input.", "anchors": ["openms/qmc/trial.py:trial_walker_ovlp_gf_base", "openms/qmc/estimators.py:GF"]}
{"id": "C91", "title": "All Green's function implementations agree", "statement": "The einsum, compiled and estimator versions of the half and full Green's functions return the same matrices.", "quantifier": "every trial and walker", "why_tests_cant": "Only one implementation is active on a given machine.", "anchors": ["openms/qmc/trial.py:trial_walker_ovlp_gf_base", "openms/qmc/trial.py:trial_walker_ovlp_gf_base_numba", "openms/qmc/estimators.py:GF", "openms/qmc/propagators.py:compute_GF_base"]}
{"id": "C92", "title": "Orthonormal DIIS error is the transformed error", "statement": "The DIIS error in an orthonormal basis is C^H times the plain error times C, so with an invertible C both vanish together.", "quantifier": "every overlap, density, Fock and basis matrix", "why_tests_cant": "Tests look at converged energies only.", "anchors": ["openms/mqed/diis.py:get_err_vec_orth"]}
{"id": "C93", "title": "Default options select a valid energy scheme", "statement": "A calculation created without naming an energy scheme uses one of the implemented schemes.", "quantifier": "every option dictionary without an energy scheme", "why_tests_cant": "Tests always pass the scheme explicitly.", "anchors": ["openms/qmc/qmc.py:QMCbase.__init__", "openms/qmc/propagators.py:update_weight"]}
{"id": "C94", "title": "Reaching the Cholesky vector limit returns the vectors found", "statement": "When the number of vectors reaches max_chol_fac*nao the decomposition stops with a warning and returns the vectors found so far.", "quantifier": "every matrix, threshold and limit", "why_tests_cant": "tests never reach the limit", "anchors": ["openms/qmc/tools.py:chols_blocked"]}
{"id": "C95", "title": "Matrix of the bosonic displacement", "statement": "boson_adag_plus_a is the symmetric block-diagonal matrix of sum_a z_a (b_a^+ + b_a), and its contraction with a bosonic Green's function is the coupling energy.", "quantifier": "every list of Fock dimensions and couplings", "why_tests_cant": "Tests use one mode with a few states.", "anchors": ["openms/qmc/propagators.py:boson_adag_plus_a"]}
{"id": "C96", "title": "Bosonic energy for any Fock dimensions", "statement": "The bosonic local energy is sum_a omega_a n_a over the diagonal of each mode's block of the Green's function, for any Fock dimensions.", "quantifier": "every list of modes and Green's function", "why_tests_cant": "Tests use equal dimensions.", "anchors": ["openms/qmc/estimators.py:local_eng_boson_2nd"]}
{"id": "C97", "title": "Bosonic Green's function is a rank-one projector", "statement": "The bosonic Green's function is idempotent, has trace one and leaves the walker unchanged.", "quantifier": "every trial and walker with non-zero overlap", "why_tests_cant": "Tests sample a few vectors.", "anchors": ["openms/qmc/trial.py:calc_trial_walker_ovlp_gf"]}
{"id": "C98", "title": "Cholesky columns include every coupling vector", "statement": "With coupling vectors g given, the column used for a pivot is the column of M + sum_n g_n g_n^T, for any number of vectors.", "quantifier": "every matrix, list of coupling vectors and pivot", "why_tests_cant": "tests use one photon mode", "anchors": ["openms/qmc/tools.py:_compute_eri_chunk"]}
{"id": "C99", "title": "Bosonic energy is additive over modes", "statement": "For a product state of several modes the bosonic energy is the sum of the energies of the modes.", "quantifier": "every product state", "why_tests_cant": "Tests use one mode.", "anchors": ["openms/qmc/estimators.py:local_eng_boson_2nd", "openms/qmc/trial.py"]}
{"id": "C100", "title": "Averaged density has the electron number as trace", "statement": "The weighted average of the walkers' Green's functions has trace na+nb (open shell) or 2n (closed shell).", "quantifier": "every walker ensemble with non-zero overlaps and total weight", "why_tests_cant": "Tests look at energies only.", "anchors": ["openms/qmc/propagators.py:update_GF"]}
{"id": "C101", "title": "Displacement does not depend on the walker's scale", "statement": "The expectation value of b^+ + b is unchanged when the bosonic walkers are multiplied by a constant.", "quantifier": "every walker ensemble and non-zero constant", "why_tests_cant": "Tests normalise the walkers.", "anchors": ["openms/qmc/generic_walkers.py:get_boson_bdag_plus_b"]}
{"id": "C102", "title": "Walkers orthogonal to the trial are removed", "statement": "A walker whose new overlap with the trial vanishes gets weight zero.", "quantifier": "every walker and step", "why_tests_cant": "An exactly vanishing overlap does not occur in tests.", "anchors": ["openms/qmc/propagators.py:update_weight"]}
{"id": "C103", "title": "Rotating Cholesky vectors rotates the integrals", "statement": "The integrals represented by the rotated Cholesky vectors are the integrals represented by the original ones, transformed with the same orbitals.", "quantifier": "every rotation (rectangular allowed) and list of vectors", "why_tests_cant": "all rotations", "anchors": ["openms/qmc/tools.py:get_h1e_chols"]}
{"id": "C104", "title": "Stochastic resolution of the identity is unbiased", "statement": "Averaged over all Rademacher sign choices, the integrals represented by the stochastic vectors equal those represented by the Cholesky vectors.", "quantifier": "every list of vectors and number of samples", "why_tests_cant": "an exact average over all samples cannot be run", "anchors": ["openms/qmc/tools.py:stochastic_thc"]}
{"id": "C105", "title": "The bandwidth covers all large elements", "statement": "The half-bandwidth computed for a list of vectors is the largest distance from the diagonal of an element at or above the threshold, for every list.", "quantifier": "every list of vectors and threshold", "why_tests_cant": "all tensors", "anchors": ["openms/qmc/tools.py:get_blksize"]}
{"id": "C106", "title": "Frozen-core extension gives determinants of all electrons", "statement": "Adding the frozen core to the occupation lists of a multi-determinant trial gives, for each spin, determinants with as many occupied orbitals as that spin has electrons, the core orbitals first.", "quantifier": "every active-space occupation list and numbers of electrons", "why_tests_cant": "all active spaces", "anchors": ["openms/qmc/trial.py:multiCI.__init__"]}
{"id": "C107", "title": "Reading FCIDUMP returns the listed values", "statement": "Reading an FCIDUMP file returns the one- and two-body integrals listed in it at every permuted position, and the constant.", "quantifier": "every list of records", "why_tests_cant": "all files", "anchors": ["openms/qmc/tools.py:read_fcidump"]}
{"id": "C108", "title": "Residual branching returns N equal walkers", "statement": "branching_control returns exactly as many walkers as before, each a copy of an input walker carrying the target weight.", "quantifier": "every population, bound and sequence of draws", "why_tests_cant": "all draws", "anchors": ["openms/qmc/population_control.py:branching_control"]}
{"id": "C109", "title": "Dynamic branching keeps size and total weight", "statement": "branching_dp_dynamics returns as many walkers as it was given, all of them copies of input walkers, and conserves the total weight.", "quantifier": "every population, thresholds and draws", "why_tests_cant": "all draws", "anchors": ["openms/qmc/population_control.py:branching_dp_dynamics"]}
{"id": "C110", "title": "The energy offset drives the average weight to its target", "statement": "The energy-offset adjustment brings the average weight closer to the target weight.", "quantifier": "every population, time step and target", "why_tests_cant": "real exponentials, all populations", "anchors": ["openms/qmc/population_control.py:energy_offset_adjustment_with_resampling", "openms/qmc/population_control.py:adjust_energy_offset"]}
{"id": "C111", "title": "Quartile outlier removal keeps the samples between the widened quartiles", "statement": "remove_outliers with method iqr keeps, in order, exactly the samples between the first and third quartile widened by threshold times their distance, and never empties non-empty data.", "quantifier": "every non-empty data set and non-negative threshold", "why_tests_cant": "all data sets, including degenerate ones", "anchors": ["openms/qmc/tools.py:remove_outliers"]}
{"id": "C112", "title": "The autocorrelation function is the documented average", "statement": "The autocorrelation function computed by padded Fourier transforms equals the documented average of products of deviations at each lag, normalised by its value at lag 0.", "quantifier": "every real series and lag", "why_tests_cant": "all series lengths and values", "anchors": ["openms/qmc/tools.py:autocorr_func"]}
{"id": "C113", "title": "Both evaluations of the displacement factor agree", "statement": "The displacement factor computed through packed storage (displacement_matrix) equals the one computed by the direct loop (displacement_exp_val).", "quantifier": "every dimension, displacement and photon density matrix", "why_tests_cant": "all dimensions and real displacements", "anchors": ["openms/lib/boson.py:Boson.displacement_matrix", "openms/lib/boson.py:Boson.displacement_exp_val"]}
{"id": "C114", "title": "The displacement factor is the expectation value of the displacement operator", "statement": "For a photon density matrix rho the displacement factor equals the sum over m,n of rho_mn <m|D(A)|n>, D(A) being exp(A(b^+ - b)).", "quantifier": "every dimension, displacement and symmetric density matrix", "why_tests_cant": "all real displacements and density matrices", "anchors": ["openms/lib/boson.py:Boson.displacement_exp_val"]}
{"id": "C115", "title": "The eta derivative of the dressing factor is its derivative", "statement": "gaussian_derivative_vectorized returns the derivative of FC_factor with respect to the difference of eta parameters.", "quantifier": "every Fock dimension, photon state, squeezing, frequency and difference", "why_tests_cant": "all real arguments and photon states", "anchors": ["openms/mqed/scqedhf.py:gaussian_derivative_vectorized", "openms/mqed/scqedhf.py:FC_factor"]}
{"id": "C116", "title": "The squeezing and displacement derivatives of the dressing factor are its derivatives", "statement": "gaussian_derivative_sq_vector and gaussian_derivative_f_vector return the derivatives of the dressing factor with respect to the squeezing parameter and the variational displacement parameter.", "quantifier": "every Fock dimension, photon state, squeezing, frequency and difference", "why_tests_cant": "all real arguments and photon states", "anchors": ["openms/mqed/vtqedhf.py:gaussian_derivative_sq_vector", "openms/mqed/vtqedhf.py:gaussian_derivative_f_vector"]}
{"id": "C117", "title": "Without displacement the dressing factor is 1", "statement": "For zero displacement the dressing factor of every mode is 1, so undressed integrals are recovered.", "quantifier": "every number of modes, Fock dimensions and eigenvectors of the photon Hamiltonian", "why_tests_cant": "all mode layouts", "anchors": ["openms/mqed/scqedhf.py:FC_factor"]}
{"id": "C118", "title": "Photon energy and its squeezing gradient are consistent with the photon Hamiltonian", "statement": "The photon energy equals the squared amplitudes weighted with the diagonal of the photon Hamiltonian, and its gradient routine returns the derivative with respect to each mode's squeezing parameter.", "quantifier": "every number of modes, Fock dimensions, frequencies, amplitudes and squeezing parameters", "why_tests_cant": "all real parameters", "anchors": ["openms/lib/boson.py:Boson.update_boson_coeff", "openms/lib/boson.py:get_bosonic_Ham"]}
{"id": "C122", "title": "Both dipole-self-energy Coulomb/exchange routines agree", "statement": "RHF.get_dse_jk and Photon.get_dse_jk return the same Coulomb and exchange matrices for a symmetric density.", "quantifier": "every basis size, number of modes, density, coupling and variational parameter", "why_tests_cant": "all inputs", "anchors": ["openms/mqed/qedhf.py:RHF.get_dse_jk", "openms/lib/boson.py:Photon.get_dse_jk"]}
{"id": "C123", "title": "The QED-HF photon energy is the dipole fluctuation", "statement": "In the coherent-state representation with an empty cavity the photon part of the QED-HF energy is one half the variance of the coupled dipole in the Slater determinant, summed over modes, plus the photon energy.", "quantifier": "every basis, density with the right number of electrons, number of modes and couplings", "why_tests_cant": "all real inputs", "anchors": ["openms/lib/boson.py:Photon.add_oei_ao", "openms/mqed/qedhf.py:RHF.energy_elec", "openms/mqed/qedhf.py:RHF.get_dse_jk"]}
{"id": "C124", "title": "The QED-HF Fock matrix is the gradient of the QED-HF energy", "statement": "On densities with a fixed number of electrons the photon part of the Fock matrix is the derivative of the photon part of the energy, although the coherent-state shift is recomputed from the density.", "quantifier": "every density and every direction", "why_tests_cant": "all real inputs", "anchors": ["openms/mqed/qedhf.py:get_fock", "openms/mqed/qedhf.py:RHF.energy_elec", "openms/lib/boson.py:Photon.update_cs"]}
{"id": "C125", "title": "The bilinear coupling energy uses the displaced dipole", "statement": "A mode with <b + b^+> = x adds x sqrt(omega/2) (<d> - z) to the energy, d being the coupled dipole and z its coherent-state shift.", "quantifier": "every density, shift and photon state", "why_tests_cant": "all real inputs", "anchors": ["openms/lib/boson.py:Photon.add_oei_ao"]}
{"id": "C126", "title": "get_jk honours with_j and with_k", "statement": "Asking for only one of the Coulomb and exchange matrices returns that matrix.", "quantifier": "every call", "why_tests_cant": "all flag and density combinations", "anchors": ["openms/mqed/qedhf.py:RHF.get_jk"]}
{"id": "C127", "title": "Both treatments of the squared dipole agree in a complete basis", "statement": "When the quadrupole matrix is g S^-1 g the one-electron terms are the same with and without the complete-basis option.", "quantifier": "every basis, density and coupling", "why_tests_cant": "all real inputs", "anchors": ["openms/lib/boson.py:Photon.add_oei_ao"]}
{"id": "C128", "title": "The variational-parameter gradients are derivatives", "statement": "The gradient matrices returned with the one-electron and the Coulomb/exchange terms are the derivatives with respect to each mode's variational displacement parameter.", "quantifier": "every number of modes, density and parameter value", "why_tests_cant": "all real parameters", "anchors": ["openms/lib/boson.py:Photon.add_oei_ao", "openms/mqed/qedhf.py:RHF.get_dse_jk"]}
{"id": "C129", "title": "get_fock without a density uses the stored density", "statement": "Called without a density, get_fock returns the Fock matrix of the stored density.", "quantifier": "every state of the object", "why_tests_cant": "all densities and couplings", "anchors": ["openms/mqed/qedhf.py:get_fock", "openms/mqed/qedhf.py:RHF.get_hcore"]}
{"id": "C130", "title": "Level shift and damping can be switched on", "statement": "A QED-HF calculation with a level shift or damping runs.", "quantifier": "every level shift and damping factor", "why_tests_cant": "all settings", "anchors": ["openms/mqed/qedhf.py:get_fock"]}
{"id": "C119", "title": "A single mode may be given as a number", "statement": "The frequency of a single mode may be passed as a float, as the error message of the constructor says; lists and arrays of documented arguments are accepted and treated alike.", "quantifier": "every set of arguments", "why_tests_cant": "all argument combinations", "anchors": ["openms/lib/boson.py:Boson.__init__"]}
{"id": "C120", "title": "Stored polarisation vectors are normalised", "statement": "Each polarisation vector kept by the cavity object is the given vector divided by its length, whatever the numeric type of the array.", "quantifier": "every number of modes and vector", "why_tests_cant": "all vectors", "anchors": ["openms/lib/boson.py:Boson.__init__"]}
{"id": "C121", "title": "The attributes of a cavity object are consistent", "statement": "Whenever the constructor succeeds, every per-mode array has one entry per mode, occupation cut-offs are positive, the bilinear coupling is g sqrt(omega/2), the self-energy coupling g^2/2, the residual coupling 1 - f, the initial photon state is normalised, and g is the given coupling or else the length of the given vector.", "quantifier": "every set of arguments", "why_tests_cant": "all argument combinations", "anchors": ["openms/lib/boson.py:Boson.__init__"]}
{"id": "C135", "title": "Lattice reference densities hold N electrons", "statement": "With orthonormal orbitals the spin densities of the lattice models add up to the requested number of electrons.", "quantifier": "every chain length, electron number and orbitals", "why_tests_cant": "all electron numbers including odd ones", "anchors": ["openms/models/hubbard.py:Hubbard1D.__init__", "openms/models/hh_model.py:HHModel.__init__"]}
{"id": "C136", "title": "Generalised and unrestricted Fock matrices agree", "statement": "The spin-orbital Fock matrix in the orbital basis is block diagonal with the two unrestricted Fock matrices as blocks.", "quantifier": "every length, hopping, U, orbitals and occupation", "why_tests_cant": "algebraic identity for all sizes", "anchors": ["openms/models/hubbard.py:Hubbard1D.g_fock", "openms/models/hubbard.py:Hubbard1D.u_fock"]}
{"id": "C137", "title": "The Hubbard-Holstein Fock matrix is the gradient of the mean-field energy", "statement": "Changing the densities by h d changes the mean-field energy by h tr(d F) plus a term of second order in h, with F the matrix the model returns.", "quantifier": "every length, hopping, U, coupling, frequency, density and direction", "why_tests_cant": "all directions", "anchors": ["openms/models/hh_model.py:HHModel.g_fock", "openms/models/hh_model.py:HHModel.hf_energy"]}
{"id": "C138", "title": "Lattice two-electron integrals are antisymmetric", "statement": "The antisymmetrised integrals in the orbital basis change sign under exchange within either pair of indices and are unchanged by exchanging the pairs.", "quantifier": "every length, U and orbitals", "why_tests_cant": "all index combinations", "anchors": ["openms/models/hubbard.py:Hubbard1D.g_aint", "openms/models/hh_model.py:HHModel.g_aint"]}
{"id": "C139", "title": "Surface-hopping propagation conserves population", "statement": "The electronic equation of motion of surface hopping keeps the sum of the populations constant.", "quantifier": "every Hamiltonian the code builds and every coefficient vector", "why_tests_cant": "all states", "anchors": ["openms/qmd/sh.py:SH.get_coef_dot", "openms/qmd/sh.py:SH.get_H"]}
{"id": "C142", "title": "More severe messages are shown whenever less severe ones are", "statement": "With the Logger class, if a message of some severity is shown at a verbosity then every message of higher severity is shown at that verbosity.", "quantifier": "every verbosity name and every pair of severities", "why_tests_cant": "all pairs", "anchors": ["openms/lib/logger.py:Logger"]}
{"id": "C143", "title": "Task titles have a fixed width and are centred", "statement": "A title line has the width of its level, or that of the message when it is longer, and the padding on the two sides differs by at most one character.", "quantifier": "every message and level", "why_tests_cant": "all message lengths", "anchors": ["openms/lib/logger.py:task_title"]}
{"id": "C144", "title": "A failed backend selection changes nothing", "statement": "When set_backend raises, the backend in use is the one from before the call.", "quantifier": "every name, environment and previous backend", "why_tests_cant": "every string", "anchors": ["openms/lib/backend.py:set_backend"]}
{"id": "C140", "title": "First-quantised trial gradients and laplacians are the derivatives of the trial", "statement": "The gradient and laplacian of the oscillator trials are the first and second derivatives of their wave function divided by it, and the local energy is the oscillator Hamiltonian applied to the wave function, divided by it.", "quantifier": "every mass, frequency, shift, number of sites and configuration", "why_tests_cant": "statement about derivatives at every real point", "anchors": ["openms/qmc/trial_boson.py:TrialQ", "openms/qmc/trial_boson.py:TrialP"]}
{"id": "C141", "title": "Coherent-state coefficients are those of a coherent state", "statement": "The coefficients satisfy the eigenvalue equation of the annihilation operator and their squares sum to one.", "quantifier": "every real amplitude and every occupation", "why_tests_cant": "infinite sum and all amplitudes", "anchors": ["openms/qmc/trial_boson.py:coherent_state_coeff"]}
{"id": "C145", "title": "Fock-space trials hold each basis state at its own place and are normalised up to truncation", "statement": "Building a Fock-space trial stores the coefficient of each occupation vector at the position given by its digits in base nfock, and the norm does not exceed one.", "quantifier": "every number of modes, cutoff and amplitudes", "why_tests_cant": "all mode counts and cutoffs", "anchors": ["openms/qmc/trial_boson.py:TrivialFock.build"]}
{"id": "C146", "title": "Coupled-cluster iterations stop at the first converged cycle and within max_cycle", "statement": "The iteration ends at the first cycle whose energy change and residual are both below their thresholds, or after max_cycle cycles, and the reported energy is that of the last cycle.", "quantifier": "every sequence of energies and residuals and every threshold", "why_tests_cant": "every iteration history", "anchors": ["openms/mqed/ccsd.py:kernel"]}
{"id": "C147", "title": "A converged coupled-cluster run is recorded as converged", "statement": "After a run whose iterations converged, the converged attribute of the object is true.", "quantifier": "every run", "why_tests_cant": "every history", "anchors": ["openms/mqed/ccsd.py:kernel", "openms/mqed/ccsd.py:CCSD.__init__"]}
{"id": "C148", "title": "Amplitude mixing interpolates and damps more with a larger factor", "statement": "Linear mixing keeps a fixed point, gives a value between the old and the new amplitude, and a larger damping factor keeps more of the old one.", "quantifier": "every damping factor in [0, 1] and every pair of amplitudes", "why_tests_cant": "all reals, including the end point", "anchors": ["openms/mqed/ccsd.py:kernel"]}
{"id": "C149", "title": "The electron-boson FCI Hamiltonian is symmetric", "statement": "For symmetric one-electron, two-electron and coupling integrals the operator handed to the Davidson solver is symmetric with respect to the scalar product of CI vectors.", "quantifier": "every CI vector, number of modes and cutoffs, and integrals", "why_tests_cant": "a Davidson run on a non-symmetric operator looks converged; all tensors", "anchors": ["openms/mqed/qedfci.py:contract_all", "openms/mqed/qedfci.py:contract_2e", "openms/mqed/qedfci.py:contract_eb"]}
{"id": "C150", "title": "The FCI one-particle density matrix is the expectation value of E_pq", "statement": "make_rdm1e returns <p^+ q>, which is symmetric, has trace nelec times the norm, and reproduces the one-electron energy.", "quantifier": "every CI vector with any number of modes", "why_tests_cant": "all vectors", "anchors": ["openms/mqed/qedfci.py:make_rdm1e"]}
{"id": "C151", "title": "make_rdm12e agrees with make_rdm1e and reproduces the two-electron energy", "statement": "The one-particle matrix equals that of make_rdm1e, and half the contraction of the integrals with the two-particle matrix is the expectation value of the two-electron operator.", "quantifier": "every CI vector and integrals with pair symmetry", "why_tests_cant": "all vectors and integrals", "anchors": ["openms/mqed/qedfci.py:make_rdm12e"]}
{"id": "C152", "title": "The documented options of the FCI kernel work", "statement": "A list of cutoffs, an integer cutoff for all modes, and the coherent_state option all lead to the diagonalisation.", "quantifier": "every number of modes and cutoffs", "why_tests_cant": "option combinations", "anchors": ["openms/mqed/qedfci.py:kernel", "openms/mqed/qedfci.py:fboson_ci_shape", "openms/mqed/qedfci.py:make_hdiag"]}
{"id": "C153", "title": "The bosonic part of the FCI diagonal is the bosonic energy", "statement": "make_hdiag adds sum_k n_k omega_k for the configuration with n_k quanta in mode k.", "quantifier": "every configuration and every frequency", "why_tests_cant": "all configurations", "anchors": ["openms/mqed/qedfci.py:make_hdiag"]}
{"id": "C132", "title": "The gradient of the displacements", "statement": "get_eta_gradient returns the derivative of the energy with respect to each displacement eta_p.", "quantifier": "every density, integrals, coupling and displacements", "why_tests_cant": "finite differences only probe single points", "anchors": ["openms/mqed/scqedhf.py:get_eta_gradient"]}
{"id": "C133", "title": "The strong-coupling potential", "statement": "get_veff returns a symmetric potential, self-adjoint as a map of densities, whose sum with get_hcore is the derivative of the energy; the Cholesky and four-index paths agree.", "quantifier": "every symmetric density, integrals, coupling and displacements", "why_tests_cant": "all inputs, and the path is chosen by available memory", "anchors": ["openms/mqed/scqedhf.py:get_veff", "openms/mqed/scqedhf.py:get_hcore"]}
{"id": "C154", "title": "The gradient in the transformation parameter f", "statement": "grad_var_params returns the derivative of the energy with respect to f.", "quantifier": "every density, integrals, displacements and f", "why_tests_cant": "all parameters", "anchors": ["openms/mqed/vtqedhf.py:grad_var_params"]}
{"id": "C155", "title": "The gradient in the squeezing parameter", "statement": "get_vsq_gradient returns the derivative of the dressed electronic energy with respect to the squeezing parameter.", "quantifier": "every density, integrals, displacements and squeezing", "why_tests_cant": "all parameters", "anchors": ["openms/mqed/vtqedhf.py:get_vsq_gradient"]}
{"id": "C156", "title": "The strong-coupling energy is the expectation value of the transformed Hamiltonian", "statement": "Tr(hcore D) + Tr(veff D)/2 equals the one-electron energy with dressing factors, the dipole self-energy of g - eta and dressed Coulomb minus half exchange.", "quantifier": "every symmetric density, integrals, coupling and displacements", "why_tests_cant": "all inputs", "anchors": ["openms/mqed/scqedhf.py:get_hcore", "openms/mqed/scqedhf.py:get_veff"]}
{"id": "C157", "title": "Cholesky and four-index paths of the gradients agree", "statement": "With exact Cholesky vectors each gradient's two-electron part equals the four-index one.", "quantifier": "every set of vectors, densities and displacements", "why_tests_cant": "the path is chosen by available memory", "anchors": ["openms/mqed/scqedhf.py:get_eta_gradient", "openms/mqed/vtqedhf.py:grad_var_params", "openms/mqed/vtqedhf.py:get_vsq_gradient", "openms/mqed/vtqedhf.py:grad_var_params_together"]}
{"id": "C134", "title": "The extra SCF cycle verifies convergence", "statement": "After the extra diagonalisation the SCF driver reports convergence only if the extra cycle still meets the (loosened) tolerances.", "quantifier": "every SCF object and every energy and gradient sequence", "why_tests_cant": "only iterations that drift in the extra cycle show it", "anchors": ["openms/mqed/qedhf.py:kernel", "openms/mqed/scqedhf.py:kernel"]}
{"id": "C158", "title": "Strong-coupling SCF reports the energy of what it returns", "statement": "The energy returned by the strong-coupling SCF is the energy of the returned density and displacements, and convergence means their gradient is below tolerance.", "quantifier": "every Hamiltonian, coupling, initial displacements, DIIS behaviour and cycle limit", "why_tests_cant": "converged test molecules hide the stale parameters", "anchors": ["openms/mqed/scqedhf.py:kernel", "openms/mqed/scqedhf.py:RHF.get_h1e_DO", "openms/mqed/qedhf.py:get_fock"]}
{"id": "C159", "title": "mqed.HF builds a solver", "statement": "mqed.HF returns a QED-RHF or QED-RKS object for every closed-shell or one-electron molecule.", "quantifier": "every molecule, spin and functional choice", "why_tests_cant": "no test calls the factory", "anchors": ["openms/mqed/__init__.py:HF"]}
{"id": "C160", "title": "Damping and level shift are usable", "statement": "get_fock applies damping and level shift when their factors are set.", "quantifier": "every cycle, DIIS start and factor", "why_tests_cant": "defaults are zero, so tests never reach the code", "anchors": ["openms/mqed/qedhf.py:get_fock"]}
{"id": "C161", "title": "Full Cholesky orthogonalisation orthonormalises the basis", "statement": "full_cholesky_orth returns a lower-triangular L with non-zero diagonal and a column selection P with P^T S P = L L^T, so that X = P L^-T satisfies X^T S X = 1; it raises ValueError exactly for an invalid LAPACK answer.", "quantifier": "every overlap matrix, basis size and rank", "why_tests_cant": "tests use a few well-conditioned basis sets", "anchors": ["openms/lib/mathlib.py:full_cholesky_orth", "openms/lib/mathlib.py:full_cholesky_decomposition"]}
{"id": "C162", "title": "Initial-guess orbitals of strong-coupling HF are orthonormal", "statement": "The orbitals from diagonalising in the reduced basis are S-orthonormal, solve the projected eigenvalue problem, and the guess density holds the requested number of electrons, also for linearly dependent bases.", "quantifier": "every overlap, core Hamiltonian, rank and occupation", "why_tests_cant": "a bad guess still converges for the test molecules", "anchors": ["openms/mqed/scqedhf.py:RHF.get_cholesky", "openms/mqed/scqedhf.py:cholesky_diag_fock_rao", "openms/mqed/scqedhf.py:RHF.init_guess_by_1e"]}
{"id": "C163", "title": "Linear-dependence treatment follows the condition number", "statement": "remove_linear_dep leaves the solver alone below 1/lindep, uses canonical orthogonalisation up to 1/eps and pivoted Cholesky beyond, with or without photons and at any verbosity.", "quantifier": "every condition number of overlap and couplings, threshold, flag and verbosity", "why_tests_cant": "test molecules are well conditioned", "anchors": ["openms/lib/scipy_helper.py:remove_linear_dep"]}
{"id": "C164", "title": "The subspace Hamiltonian is the projection of the operator", "statement": "After any sequence of blocks of trial vectors the filled subspace matrix is <x_i|A|x_j> for all pairs, for the general routine and for Hermitian operators with the Hermitian routine.", "quantifier": "every operator, block sequence and initial content", "why_tests_cant": "tests cannot cover all block patterns", "anchors": ["openms/solvers/linalg.py:_fill_heff_hermitian", "openms/solvers/linalg.py:_fill_heff"]}
{"id": "C165", "title": "The Davidson and Lanczos solvers return eigenpairs", "statement": "davidson and lanczos return eigenvalues and eigenvectors.", "quantifier": "every operator, guess and preconditioner", "why_tests_cant": "no test calls them", "anchors": ["openms/solvers/linalg.py:davidson", "openms/solvers/linalg.py:davidson1", "openms/solvers/linalg.py:lanczos"]}
{"id": "C166", "title": "Transformations between AO and dipole basis preserve expectation values", "statement": "Both unitary_transform routines give U^T A U; transforming with the inverse undoes it; symmetry and, for orthogonal U, the trace are kept; for an S-orthonormal basis the transformed density and operator have the AO expectation value, and potentials built in the dipole basis keep theirs when transformed back.", "quantifier": "every real matrix, density and basis", "why_tests_cant": "identities over all matrices", "anchors": ["openms/lib/mathlib.py:unitary_transform", "openms/mqed/scqedhf.py:unitary_transform", "openms/mqed/scqedhf.py:RHF.get_dm_do"]}
{"id": "C167", "title": "The phase convention makes eigenvectors unique", "statement": "scqedhf.eigh returns eigenvectors whose entry of largest magnitude is not negative, and the result does not depend on the signs chosen by LAPACK.", "quantifier": "every set of eigenvectors and every sign choice", "why_tests_cant": "LAPACK's signs vary between machines", "anchors": ["openms/mqed/scqedhf.py:eigh"]}
{"id": "C168", "title": "The diagonal preconditioner never divides by zero", "statement": "make_diag_precond divides by diag - e + shift wherever that is at least 1e-8 in magnitude, and by 1e-8 otherwise.", "quantifier": "every diagonal, residual, eigenvalue and shift", "why_tests_cant": "needs a degenerate diagonal", "anchors": ["openms/solvers/linalg.py:make_diag_precond"]}
{"id": "C169", "title": "The nuclear integrator is velocity Verlet", "statement": "Half kick, drift, force evaluation and half kick advance every atom of every molecule by velocity Verlet on the chosen surface: exactly time-reversible, momentum conserving without net force, angular-momentum conserving without torque, and for bound atoms with energy within a fixed factor of its initial value for any number of steps.", "quantifier": "every number of molecules and atoms, masses, positions, velocities, force field, time step, surface and number of steps", "why_tests_cant": "reversibility and conservation are statements about all trajectories", "anchors": ["openms/qmd/bomd.py:BaseMD.next_position", "openms/qmd/bomd.py:BaseMD.next_velocity_many_molecule", "openms/qmd/bomd.py:BOMD.kernel", "openms/lib/hippynn_es_driver.py:NNDriver.calculate_force"]}
{"id": "C170", "title": "The BOMD kernel runs its steps", "statement": "BOMD.kernel completes the requested number of steps for a list of molecules.", "quantifier": "every restart mode, step count, driver outcome and molecule argument", "why_tests_cant": "no test runs the kernel", "anchors": ["openms/qmd/bomd.py:BOMD.kernel", "openms/qmd/bomd.py:BaseMD.update_energy"]}
{"id": "C171", "title": "Initial velocities given to a Molecule are used", "statement": "A Molecule built with the veloc keyword starts with these velocities.", "quantifier": "every velocity array, number of atoms, states and dimension", "why_tests_cant": "tests never pass velocities", "anchors": ["openms/lib/misc.py:Molecule.__init__", "openms/lib/misc.py:Molecule.build"]}
{"id": "C172", "title": "Positions move in the dimensions of the molecule", "statement": "next_position changes exactly the ndim components a molecule of dimension ndim has.", "quantifier": "every dimension, position and velocity", "why_tests_cant": "tests use three dimensions", "anchors": ["openms/qmd/bomd.py:BaseMD.next_position", "openms/lib/misc.py:Molecule.build"]}
{"id": "C173", "title": "Kinetic energy and temperature", "statement": "get_ekin is half the sum of p.v, non-negative, zero exactly at rest and quadratic in the velocities; temperature_many_molecule returns the kinetic temperature.", "quantifier": "every number of atoms and dimensions, masses and velocities", "why_tests_cant": "statements over all velocities", "anchors": ["openms/lib/misc.py:Molecule.get_ekin", "openms/qmd/bomd.py:BaseMD.temperature_many_molecule"]}
{"id": "C174", "title": "Surface-hopping propagation follows the moving Hamiltonian", "statement": "electronic_propagator performs nesteps Runge-Kutta steps of i c' = H(t) c with H evaluated along the straight line of the nuclei, advancing the stored time and coordinates by the same amount, from the first step on.", "quantifier": "every Hamiltonian function, velocity, non-zero step, number of steps and coefficients", "why_tests_cant": "the caching of time and Hamiltonian is invisible in end results", "anchors": ["openms/qmd/sh.py:SH.get_coef_dot", "openms/qmd/sh.py:SH.electronic_propagator", "openms/qmd/mqc.py:MQC.__init__"]}
{"id": "C175", "title": "Hopping probabilities are fewest-switches probabilities", "statement": "hopping_probability returns, for every molecule and every other state, Tully's fewest-switches probability for the density and couplings at hand, in line with the population the propagation moves.", "quantifier": "every number of molecules and states, coefficients, couplings and time step", "why_tests_cant": "no test builds a surface-hopping object; the formula has to hold for every density", "anchors": ["openms/qmd/sh.py:SH.hopping_probability", "openms/qmd/sh.py:SH.get_densities"]}
{"id": "C176", "title": "At most one hop per step, with the given probability", "statement": "check_hops moves a molecule to state j with probability p_j and leaves it with the remaining probability; there is at most one hop per step and never one to a state of zero probability.", "quantifier": "every probability table, random numbers, sorting, energies, couplings and velocity", "why_tests_cant": "a statement about the distribution over all random numbers", "anchors": ["openms/qmd/sh.py:SH.check_hops"]}
{"id": "C177", "title": "Velocity change at a hop", "statement": "An accepted hop changes the velocity along the coupling vector so that total energy and momentum are conserved; a frustrated hop changes nothing; a hop there and back restores the velocity.", "quantifier": "every energy, coupling vector, velocity, mass and time step", "why_tests_cant": "conservation has to hold for every hop", "anchors": ["openms/qmd/sh.py:SH.velocity_rescaling"]}
{"id": "C178", "title": "Decoherence reset is the unit vector of the state", "statement": "instantaneous_decoherence returns the normalised coefficients of the given state and raises IndexError for a state out of range.", "quantifier": "every number of states and state", "why_tests_cant": "a statement about every state index", "anchors": ["openms/qmd/sh.py:SH.instantaneous_decoherence"]}
{"id": "C179", "title": "Network forces are minus the energy gradient in atomic units", "statement": "calculate_force writes into every molecule and state minus the derivative of the energy in hartree with respect to the coordinates in bohr, whatever unit the network uses.", "quantifier": "every network, batch of molecules, geometry, unit conversion and state", "why_tests_cant": "a chain rule over an arbitrary network; the network package is not available in tests", "anchors": ["openms/lib/hippynn_es_driver.py:NNDriver.calculate_force", "openms/lib/hippynn_es_driver.py:NNDriver.nuc_grad", "openms/lib/hippynn_es_driver.py:NNDriver.make_predictions", "openms/lib/hippynn_es_driver.py:NNDriver.get_R"]}
{"id": "C180", "title": "Dipole gradients are in atomic units", "statement": "get_dipole_grad returns the derivative of the transition dipoles with respect to the coordinates in bohr.", "quantifier": "every network, batch, geometry and conversion factor", "why_tests_cant": "a unit error is invisible without an independent derivative", "anchors": ["openms/lib/hippynn_es_driver.py:NNDriver.get_dipole_grad"]}
{"id": "C181", "title": "Couplings of the network driver", "statement": "There is exactly one coupling vector per pair of excited states, equal to the network's output divided by the energy difference, and the time-derivative coupling is its product with the velocity.", "quantifier": "every number of states, energies, network output and velocity", "why_tests_cant": "a statement over every number of states", "anchors": ["openms/lib/hippynn_es_driver.py:NNDriver.get_nacr", "openms/lib/hippynn_es_driver.py:NNDriver.get_nact", "openms/lib/hippynn_es_driver.py:NNDriver.__init__"]}
{"id": "C182", "title": "The network driver serves surface hopping", "statement": "The energies and couplings of the network driver can be turned into the surface-hopping Hamiltonian.", "quantifier": "every number of states, energies, couplings and velocity", "why_tests_cant": "no test combines the two classes", "anchors": ["openms/qmd/sh.py:SH.get_coef_dot", "openms/qmd/sh.py:SH.get_H", "openms/lib/hippynn_es_driver.py:NNDriver.get_energies", "openms/lib/hippynn_es_driver.py:NNDriver.get_nact"]}
{"id": "C183", "title": "Absorption spectra are sums of Lorentzians", "statement": "linear_spec returns at every energy the sum over the selected states of the squared dipole times a Lorentzian; it is never negative, bounded by the total strength over the width, additive over the selection and independent of its order. tdes returns the two-dimensional spectrum.", "quantifier": "every energy list, selection, energies, dipoles and width", "why_tests_cant": "a statement over all inputs; no test calls the functions", "anchors": ["openms/models/aggregates.py:linear_spec", "openms/models/aggregates.py:tdes"]}
{"id": "C184", "title": "The aggregate is diagonalised and obeys the sum rule", "statement": "DMA can be constructed, and each kernel() leaves the sorted eigenvalues and orthonormal eigenvectors of the chain with the drawn site energies; the squared dipoles add up to the number of sites, the eigenvalues add up to the site energies and each lies within twice the hopping of a site energy.", "quantifier": "every number of sites, hopping different from zero, sample of site energies and earlier sample", "why_tests_cant": "a statement over all samples and sizes", "anchors": ["openms/models/aggregates.py:DMA.__init__", "openms/models/aggregates.py:DMA.kernel", "openms/models/aggregates.py:DMA.energies", "openms/models/aggregates.py:DMA.dipole", "openms/models/aggregates.py:DMA.sortdipole"]}
{"id": "C185", "title": "A disorder average uses the dipoles of each sample", "statement": "linearabs after kernel() returns the absorption spectrum of the sample just drawn, including its bright states.", "quantifier": "every sequence of samples, energy list, selection and width", "why_tests_cant": "needs a sequence of samples and an independent diagonalisation of each", "anchors": ["openms/models/aggregates.py:DMA.linearabs", "openms/models/aggregates.py:DMA.dipole"]}
{"id": "C186", "title": "The choice of local states is sound", "statement": "spdfselection chooses distinct states in range, the s states being exactly those whose weight is at least 0.8, and the oscillator-strength ratios it prints lie between zero and one.", "quantifier": "every number of sites, eigenvectors and sorting", "why_tests_cant": "a statement over all eigenvectors", "anchors": ["openms/models/aggregates.py:DMA.spdfselection"]}
{"id": "C187", "title": "Compiled propagation kernels agree with the Python ones", "statement": "The parallel one-body and auxiliary-field kernels give, for every interleaving of their iterations, E phi_w and the first terms of exp(A_w) phi_w, write nothing outside the arrays, and an electronic step through them equals the Python step; the in-place kernel updates the caller's array and the real kernel sums the exponential series.", "quantifier": "every number of walkers, sizes, order, array contents and interleaving", "why_tests_cant": "interleavings of a parallel loop and all sizes cannot be enumerated", "anchors": ["openms/lib/qmclibs/src/propagator.cpp:propagate_onebody_blas_complex_return", "openms/lib/qmclibs/src/propagator.cpp:propagate_exp_op_taylor_complex", "openms/lib/qmclibs/src/propagator.cpp:propagate_exp_op_taylor", "openms/qmc/propagators.py:propagate_onebody", "openms/qmc/propagators.py:propagate_exp_op"]}
{"id": "C188", "title": "Compiled overlaps and Green's functions are right", "statement": "The parallel overlap kernel returns sum_p phi_pi conj(psi_pj); the combined kernel also returns the half-rotated Green's function, which is dual to the trial state, spans the walker and equals the Python one; wrong shapes raise.", "quantifier": "every number of walkers, sizes, walkers with invertible overlap and interleaving", "why_tests_cant": "interleavings and all sizes cannot be enumerated", "anchors": ["openms/lib/qmclibs/src/trial.cpp:trial_walker_ovlp_base", "openms/lib/qmclibs/src/trial.cpp:trial_walker_ovlp_gf_base"]}
{"id": "C189", "title": "Compiled exchange and Coulomb energies are right", "statement": "The kernels return per walker half the sum over Cholesky vectors of tr(LG LG) and of (tr LG)^2, with one and with two spins, as the Python estimators do.", "quantifier": "every number of walkers, vectors, sizes and electron numbers, contents and interleaving", "why_tests_cant": "a statement over all sizes, including different numbers of alpha and beta electrons", "anchors": ["openms/lib/qmclibs/src/estimators.cpp:exx_rltensor_Ghalf_complex", "openms/lib/qmclibs/src/estimators.cpp:exx_rltensor_Ghalf_real", "openms/lib/qmclibs/src/estimators.cpp:ecoul_rltensor_uhf_complex", "openms/lib/qmclibs/src/estimators.cpp:ecoul_rltensor_Ghalf_complex"]}
{"id": "C190", "title": "Compiled tensor contraction is right", "statement": "tensordot_complex returns sum_n A_zn B_npq whatever the new array held before.", "quantifier": "every size, content and interleaving", "why_tests_cant": "interleavings and all sizes cannot be enumerated", "anchors": ["openms/lib/qmclibs/src/linalg.cpp:tensordot_complex"]}
{"id": "C191", "title": "The compiled displacement matrix agrees with the Python one", "statement": "displacement_matrix returns the packed displacement elements of the mode and their contraction with the photon density matrix, equal to Boson.displacement_matrix for the same density matrix; a bad mode raises.", "quantifier": "every number of photon states, density matrix, displacements, squeezing and shift", "why_tests_cant": "a statement over all dimensions and real parameters", "anchors": ["openms/lib/qmclibs/src/qedhf.cpp:displacement_matrix_cpp", "openms/lib/qmclibs/src/qedhf.cpp:packed_index"]}
{"id": "C192", "title": "Compiled Gaussian factors are the Franck-Condon factors", "statement": "test_gaussian returns at each flat index exp(-((eta_p-eta_q+eta_r-eta_s)/w)^2/2).", "quantifier": "every number of orbitals, frequency and displacements", "why_tests_cant": "a statement over all real displacements", "anchors": ["openms/lib/qedlibs/qed.cpp:gaussian_factor_vt_qedhf", "openms/lib/qedlibs/qed.cpp:test_gaussian"]}
{"id": "C193", "title": "A field update solves Maxwell's equations on the staggered grid", "statement": "After one call of propagate every visited cell satisfies Ampere's law with the old magnetic field and Faraday's law with the new electric field, perfect conductors hold no field, nothing else is written, and the order in which cells are visited does not matter.", "quantifier": "every grid size, material, state and order of the cells", "why_tests_cant": "in-place loops over all grids, materials and field values", "anchors": ["openms/lib/fdtd/timeupdate.c:propagate", "openms/lib/fdtd/timeupdate.c:normal_E_field_update", "openms/lib/fdtd/timeupdate.c:normal_H_field_update", "openms/lib/fdtd/timeupdate.c:molecular_E_field_update"]}
{"id": "C194", "title": "Charges are conserved by the update", "statement": "The discrete divergence of H never changes, and the divergence of eps E changes only by the divergence of the molecular current.", "quantifier": "every grid, permittivity, number of steps and state", "why_tests_cant": "a statement over all states and all numbers of steps", "anchors": ["openms/lib/fdtd/timeupdate.c:propagate", "openms/lib/fdtd/timeupdate.c:molecular_E_field_update"]}
{"id": "C195", "title": "The field energy changes only by Joule heat", "statement": "In a closed box of dielectrics, Drude metals and conductors, the discrete energy after a step plus the Joule heat of the currents equals the energy before; it is constant without metal and does not increase with non-negative damping.", "quantifier": "every grid, material, number of steps and state with vanishing walls", "why_tests_cant": "a statement over all states and numbers of steps", "anchors": ["openms/lib/fdtd/timeupdate.c:propagate", "openms/lib/fdtd/timeupdate.c:metal_E_field_update"]}
{"id": "C196", "title": "The fields stay bounded", "statement": "In a closed lossless box the fields stay bounded for all times for any time step; with the Courant condition they do.", "quantifier": "every uniform grid, permittivity, time step, state and number of steps", "why_tests_cant": "boundedness over infinitely many steps", "anchors": ["openms/lib/fdtd/timeupdate.c:propagate", "openms/lib/fdtd/parameter.c:set_default_parameter"]}
{"id": "C197", "title": "The absorbing layer solves the uniaxial layer equations", "statement": "In a layer cell the update solves the time-centred equations of the uniaxial layer with the conductivities taken where each component sits; with zero conductivity it is the ordinary step, and a displacement that is not driven decays.", "quantifier": "every grid, conductivity profile, state and cell", "why_tests_cant": "a statement over all profiles and states", "anchors": ["openms/lib/fdtd/timeupdate.c:coefficient", "openms/lib/fdtd/timeupdate.c:pml_E_field_update", "openms/lib/fdtd/timeupdate.c:pml_H_field_update"]}
{"id": "C198", "title": "Metal cells follow the Drude model", "statement": "In a metal cell a step solves Ampere's law with the mean of the old and new current, and the current obeys J' + gamma J = eo omega^2 E, centred in time.", "quantifier": "every plasma frequency, damping, permittivity and state", "why_tests_cant": "a statement over all parameters and states", "anchors": ["openms/lib/fdtd/timeupdate.c:metal_E_field_update"]}
{"id": "C199", "title": "Periodic boundaries of a rectangular lattice are exact", "statement": "After a step with periodic boundaries the fields behind the seam are those of the neighbouring unit cell times the phase of the wave vector, and every cell, those at the seam included, solves Maxwell's equations, for the real and for the imaginary fields; without a wave vector the real fields repeat.", "quantifier": "every grid size, wave vector, material without molecules and state", "why_tests_cant": "all states, materials and wave vectors; the update works in place with one row of copies", "anchors": ["openms/lib/fdtd/timeupdate.c:propagate", "openms/lib/fdtd/timeupdate.c:E_field_periodic_boundary_update_x", "openms/lib/fdtd/timeupdate.c:H_field_periodic_boundary_update_x"]}
{"id": "C200", "title": "Periodic boundaries of a triangular lattice are exact", "statement": "With propagate_tri the rows above and below are the neighbouring unit cells displaced by half a period, with the right phases, and every cell solves Maxwell's equations.", "quantifier": "every grid size, wave vector, material and state", "why_tests_cant": "all states and sizes; the two halves of the row are copied by different loops", "anchors": ["openms/lib/fdtd/timeupdate.c:propagate_tri", "openms/lib/fdtd/timeupdate.c:E_field_periodic_boundary_update_Ywall", "openms/lib/fdtd/timeupdate.c:H_field_periodic_boundary_update_Ywall"]}
{"id": "C201", "title": "Superposition", "statement": "A step maps a linear combination of fields to the same linear combination of the results, for all media, layers and boundaries, and the imaginary fields follow the same equations as the real ones.", "quantifier": "every pair of states, coefficients, material, layer and boundary", "why_tests_cant": "a statement about all pairs of states", "anchors": ["openms/lib/fdtd/timeupdate.c:propagate", "openms/lib/fdtd/timeupdate.c:normal_iE_field_update", "openms/lib/fdtd/timeupdate.c:metal_iE_field_update"]}
{"id": "C202", "title": "Mirror planes reproduce the mirrored half of the box", "statement": "With a mirror plane, fields that are even or odd under the reflection stay so, and all cells up to and in the plane solve Maxwell's equations.", "quantifier": "every direction, both parities, every grid, material and state with one mirror plane", "why_tests_cant": "all states and sizes", "anchors": ["openms/lib/fdtd/timeupdate.c:Ez_parity_boundary_update", "openms/lib/fdtd/timeupdate.c:Hz_parity_boundary_update", "openms/lib/fdtd/parameter.c:Hz_parity"]}
{"id": "C203", "title": "No access outside the arrays", "statement": "The boundary and cell updates read and write only elements that were allocated, whatever boundary conditions were chosen.", "quantifier": "every box size, parity, periodic flag and order of the set-up calls", "why_tests_cant": "all sizes and combinations of flags", "anchors": ["openms/lib/fdtd/parameter.c:set_default_parameter", "openms/lib/fdtd/parameter.c:Hz_parity", "openms/lib/fdtd/parameter.c:periodic_boundary", "openms/lib/fdtd/timeupdate.c:propagate"]}
{"id": "C204", "title": "Grid spacings and the Courant parameter", "statement": "The integer spacings are in the ratio of the resolutions and as small as possible, a Courant parameter above sqrt 3 makes the step stable for every resolution, and each layer of a non-uniform grid has the spacing of its resolution.", "quantifier": "all resolutions", "why_tests_cant": "all integer resolutions", "anchors": ["openms/lib/fdtd/parameter.c:lcm3", "openms/lib/fdtd/parameter.c:gcd2", "openms/lib/fdtd/parameter.c:set_default_parameter"]}
{"id": "C205", "title": "Graded absorbing layers", "statement": "The conductivity of the absorbing layers is finite and non-negative everywhere, zero between the layers, graded polynomially to its peak at the outer cells, and symmetric for equal layers.", "quantifier": "every position, layer thickness, order and strength", "why_tests_cant": "real parameters and all positions", "anchors": ["openms/lib/fdtd/sigma.c:sigmax", "openms/lib/fdtd/sigma.c:sigmay", "openms/lib/fdtd/sigma.c:sigmaz"]}
{"id": "C206", "title": "The layers never amplify", "statement": "The coefficients of the field update are finite, the factor of the old field lies in (-1, 1], it is below 1 exactly where the conductivity is positive, and the driving factor is positive and at most its value in vacuum.", "quantifier": "every position, layer and positive step", "why_tests_cant": "real parameters and all positions", "anchors": ["openms/lib/fdtd/timeupdate.c:coefficient", "openms/lib/fdtd/sigma.c:sigmax"]}
{"id": "C207", "title": "Convolutional layers", "statement": "In a convolutional layer the recursion factor lies in (0, 1), the coupling in (-1, 0] and the stretching between 1 and its maximum, and between the layers they are 1, 0 and 1, in each direction.", "quantifier": "every position, thickness and parameter set", "why_tests_cant": "real parameters and all positions", "anchors": ["openms/lib/fdtd/sigma.c:cpmlbx", "openms/lib/fdtd/sigma.c:cpmlax", "openms/lib/fdtd/sigma.c:kappa_x", "openms/lib/fdtd/timeupdate.c:coefficient_cpml"]}
{"id": "C208", "title": "Real and imaginary sources form a phasor", "statement": "The real and imaginary amplitudes of a pulse are the sine and minus cosine of one phase times the same envelope, and adding pi to the phase reverses the sign.", "quantifier": "every frequency, phase, delay, decay time and step", "why_tests_cant": "real parameters", "anchors": ["openms/lib/fdtd/incoherent.c:Gauss_amp", "openms/lib/fdtd/incoherent.c:iGauss_amp", "openms/lib/fdtd/incoherent.c:Lorentz_amp", "openms/lib/fdtd/incoherent.c:iLorentz_amp"]}
{"id": "C209", "title": "Pulses without a static part", "statement": "With the phase returned by its helper function the sum of a pulse over time vanishes, so that no static field is left behind.", "quantifier": "every frequency, delay, decay time and summation window centred at the peak", "why_tests_cant": "sums over arbitrarily many steps", "anchors": ["openms/lib/fdtd/source.c:Gaussian_phase", "openms/lib/fdtd/source.c:Lorentzian_phase"]}
{"id": "C210", "title": "Sources deposit what they claim", "statement": "A point source raises the total of the named component by its amplitude and touches nothing else; a plane wave gives each cell the mean of its nodes with the magnetic field in the right ratio, the phase of the lattice and an imaginary part a quarter of a period later.", "quantifier": "every component name, position, field, wave vector and box", "why_tests_cant": "all fields, positions and wave vectors", "anchors": ["openms/lib/fdtd/source.c:Gaussian_dipole_source", "openms/lib/fdtd/source.c:Gaussian_planewave", "openms/lib/fdtd/source.c:Gaussian_dipole_source_beam", "openms/lib/fdtd/source.c:external_planewave"]}
{"id": "C211", "title": "Random dipoles are independent and keep being renewed", "statement": "In every update the c-th call serves the c-th dipole, each dipole keeps its orientation until its own waiting time is over and is then redrawn, and its current has the drawn amplitude.", "quantifier": "every number of dipoles and updates and all draws", "why_tests_cant": "all executions and all draws of the generator; the bookkeeping is in global variables", "anchors": ["openms/lib/fdtd/incoherent.c:incoherent_point_dipole", "openms/lib/fdtd/incoherent.c:random_on"]}
{"id": "C212", "title": "Output of a mirrored box shows the whole box", "statement": "When only part of a mirror-symmetric box is stored, every field component and every derived quantity printed at a node equals the one computed from the whole symmetric field, and only stored entries are read.", "quantifier": "every symmetric field, parity, combination of mirror planes, quantity and node", "why_tests_cant": "all fields and nodes", "anchors": ["openms/lib/fdtd/output.c:grid_value", "openms/lib/fdtd/output.c:efieldx", "openms/lib/fdtd/output.c:hfieldx", "openms/lib/fdtd/output.c:jfieldx", "openms/lib/fdtd/output.c:eps"]}
{"id": "C213", "title": "Copies of a periodic box carry the Bloch phase", "statement": "The n-th copy of a periodic box shows the field turned n times by the phase that the boundary update applies, and the printed columns cover the crystal without gaps.", "quantifier": "every field, wave vector, number of copies and position", "why_tests_cant": "real wave vectors, all fields", "anchors": ["openms/lib/fdtd/output.c:grid_value_periodic_x", "openms/lib/fdtd/output.c:grid_value_periodic_y", "openms/lib/fdtd/output.c:grid_value_periodic_xy", "openms/lib/fdtd/output.c:out_plane_periodic"]}
{"id": "C214", "title": "The flux monitor encloses a volume", "statement": "The total Poynting flux equals the sum of the divergence over the enclosed cells, so it vanishes for a divergence-free flow, and the upper, lower and side fluxes add up to it.", "quantifier": "every flow, box size, layer thickness, resolution and pair of planes", "why_tests_cant": "all fields and geometries", "anchors": ["openms/lib/fdtd/energy.c:Poynting_total", "openms/lib/fdtd/energy.c:Poynting_side", "openms/lib/fdtd/energy.c:Poynting_UpDown"]}
{"id": "C215", "title": "Electric energy in a metal", "statement": "The weight of the electric energy in a Drude metal is the derivative of frequency times permittivity, split into a kinetic and a background part that add up to it, and the energy is not negative.", "quantifier": "every plasma frequency, damping and frequency", "why_tests_cant": "real parameters; a derivative", "anchors": ["openms/lib/fdtd/output.c:eps_m", "openms/lib/fdtd/output.c:eps_m2", "openms/lib/fdtd/output.c:eps_m3"]}
{"id": "C216", "title": "Far field map", "statement": "Each pixel of the map shows the far field in its own direction: the azimuth is that of the pixel, the interpolation stays inside the array and is exact for bilinear data.", "quantifier": "every map size, array size, pixel and data", "why_tests_cant": "all sizes and pixels", "anchors": ["openms/lib/fdtd/transmap.c:into_polar", "openms/lib/fdtd/transmap.c:calc_phi", "openms/lib/fdtd/transmap.c:calc_theta", "openms/lib/fdtd/transmap.c:interpol"]}
{"id": "C217", "title": "Place of the largest energy density", "statement": "The detector returns the first cell of the block with the largest value, and reports nothing only if the block is empty or has no value above its start value.", "quantifier": "every block and field", "why_tests_cant": "all fields and blocks", "anchors": ["openms/lib/fdtd/energy.c:max_E_Energy_detector"]}
{"id": "C218", "title": "Heights and grid points of a non-uniform grid", "statement": "Converting a grid index to a height and back returns the index, heights increase with the index by the inverse of the local resolution, and a height is mapped to the nearest grid point.", "quantifier": "every set of layers, resolution, box height, index and height", "why_tests_cant": "all layer sets and heights", "anchors": ["openms/lib/fdtd/parameter.c:non_uniform_z_to_i", "openms/lib/fdtd/parameter.c:non_uniform_i_to_z", "openms/lib/fdtd/parameter.c:ngrid_lattice_nz_i", "openms/lib/fdtd/parameter.c:ngrid_lattice_nz_z", "openms/lib/fdtd/parameter.c:generate_base_grid"]}
{"id": "C219", "title": "Layers are sorted by height", "statement": "The layers given by the user in any order are rearranged into increasing order before they are used; no entry is lost and nothing outside the array is read.", "quantifier": "every number and order of layers", "why_tests_cant": "all arrays; unbounded recursion", "anchors": ["openms/lib/fdtd/parameter.c:quick_sort_nz_start", "openms/lib/fdtd/parameter.c:set_default_parameter"]}
{"id": "C220", "title": "Averaged over the fields a walker's weight decays at the rate of its local energy", "statement": "For small time steps the factor by which one propagation step multiplies a walker's weight has no term in sqrt(dt) for any field, and its average over fields of mean zero and variance one is 1 - dt (local energy + c) with a constant c that is the same for all walkers.", "quantifier": "every Hamiltonian with real Cholesky vectors, trial and walker with non-zero overlap, numbers of orbitals, fields and electrons, Taylor order of at least two, and all distributions of the fields with these moments", "why_tests_cant": "a statement about the limit of small time steps and an average over all fields", "anchors": ["openms/qmc/propagators.py:propagate_walkers", "openms/qmc/propagators.py:propagate_walkers_twobody", "openms/qmc/propagators.py:build", "openms/qmc/propagators.py:update_weight"]}
{"id": "C221", "title": "The coupled electron-boson step decays at the local energy of the coupled system", "statement": "In the product treatment of the coupling the averaged factor of a walker's weight decays at the rate of electronic, bosonic and coupling energy, each counted once; with the bosons turned off the step is the electronic one.", "quantifier": "every coupled system, walker and trial with non-zero overlaps", "why_tests_cant": "a statement about the limit of small time steps and an average over all fields", "anchors": ["openms/qmc/propagators.py:propagate_walkers", "openms/qmc/propagators.py:propagate_bosons_bilinear", "openms/qmc/propagators.py:propagate_walkers_onebody", "openms/qmc/propagators.py:propagate_bosons_2nd"]}
{"id": "C222", "title": "Gutzwiller amplitudes stay normalised and describe the right number of electrons", "statement": "The starting amplitudes of a site are normalised, non-negative and have the occupation of the density matrix; every run that returns leaves normalised non-negative amplitudes; the amplitudes hold as many electrons as the density matrix.", "quantifier": "every number of sites, hopping matrix, repulsion, density and amplitudes, every number of cycles", "why_tests_cant": "an invariant of all runs", "anchors": ["openms/gwf/ga_sband.py:init_var_params", "openms/gwf/ga_sband.py:update_var_params", "openms/gwf/ga_sband.py:kernel"]}
{"id": "C223", "title": "Renormalisation factors are the documented trace formula and lie between zero and one", "statement": "The numerator is the trace of the Gutzwiller matrices with the annihilation operators, the factor lies in [0,1], the clipping does nothing when density and amplitudes agree, and an uncorrelated site gives one up to the regularisation.", "quantifier": "every normalised set of amplitudes and occupation", "why_tests_cant": "Cauchy-Schwarz for all amplitudes", "anchors": ["openms/gwf/ga_sband.py:update_renormalizations"]}
{"id": "C224", "title": "Quasiparticle Hamiltonian and hybridisation are the documented ones", "statement": "The quasiparticle Hamiltonian is symmetric, is the bare one without renormalisation, and its energy is the renormalised hopping plus the multipliers; the hybridisation is the sum over neighbours with the neighbours' factors.", "quantifier": "every number of sites, hopping matrix, repulsion, density and amplitudes", "why_tests_cant": "identities for all matrices; uniform test systems hide which factor is used", "anchors": ["openms/gwf/ga_sband.py:update_qp_ham", "openms/gwf/ga_sband.py:get_deltas"]}
{"id": "C225", "title": "The embedding Hamiltonian has the documented expectation values and its ground state is taken", "statement": "For all amplitudes the quadratic form of the 3x3 matrix is hopping, repulsion and chemical potential of the local Fock space; the new amplitudes are those of lowest energy.", "quantifier": "every site and all amplitudes", "why_tests_cant": "an identity between operators; the eigenvector matrix of test systems may be symmetric", "anchors": ["openms/gwf/ga_sband.py:update_var_params", "openms/gwf/ga_sband.py:__init__"]}
{"id": "C226", "title": "The Gutzwiller driver reports convergence of its last cycle and the energy of its state", "statement": "The returned flag tells whether the last cycle met the tolerances, the returned energy is that of the Gutzwiller state, and a run is possible for every filling.", "quantifier": "every system, tolerance and number of cycles", "why_tests_cant": "statements about all runs", "anchors": ["openms/gwf/ga_sband.py:kernel", "openms/gwf/ga_sband.py:update_var_params"]}
{"id": "C227", "title": "Occupations, density matrix and orbital signs of the Gutzwiller code", "statement": "The lowest orbitals are filled with all electrons, the density matrix is idempotent in the metric and has the trace of the electrons, and fixing the signs keeps eigenvectors and orthonormality and makes the chosen component non-negative.", "quantifier": "every number of orbitals and electrons, metric and eigenvector matrix", "why_tests_cant": "identities for all matrices", "anchors": ["openms/gwf/ga_sband.py:get_occ", "openms/gwf/ga_sband.py:make_rdm1", "openms/gwf/ga_sband.py:eig"]}
{"id": "C228", "title": "The multipliers of the Gutzwiller code stand still exactly when the occupations agree", "statement": "The reported error is zero if and only if density and amplitudes have the same occupation on all sites; a multiplier moves towards the larger occupation, by no more than the difference, and stands still only when they agree.", "quantifier": "every density, set of amplitudes and factors in [0,1]", "why_tests_cant": "an equivalence over all states", "anchors": ["openms/gwf/ga_sband.py:update_lambda"]}
{"id": "C229", "title": "The one-body matrix of the Hubbard ring is the nearest-neighbour ring", "statement": "Entries are -1 exactly between neighbours of the ring, the matrix is symmetric and invariant under translation, and every site has two bonds.", "quantifier": "every length of the ring", "why_tests_cant": "all lengths, including those where the two neighbours coincide", "anchors": ["openms/gwf/ga_sband.py:_hubbard_hamilts_pbc"]}
{"id": "C230", "title": "The optimised T1 and T2 equations are the plain ones", "statement": "The optimised residuals of T1 and T2, with their intermediates, equal the plain term by term equations.", "quantifier": "every number of orbitals and modes, every nfock1 and nfock2, all integrals, couplings and amplitudes with their symmetries", "why_tests_cant": "an identity between polynomials in all arrays", "anchors": ["openms/mqed/myqedcc_equations_opt.py:qedccsd_T1T2_opt", "openms/mqed/qedcc_equations.py:qedccsd_T1", "openms/mqed/qedcc_equations.py:qedccsd_T2"]}
{"id": "C231", "title": "Without coupling the equations are those of CCSD", "statement": "If the couplings to the photons vanish, the residuals of T1 and T2 are the textbook spin-orbital CCSD equations, whatever the photon amplitudes.", "quantifier": "every number of orbitals and modes, every nfock1 and nfock2, all integrals, couplings and amplitudes with their symmetries", "why_tests_cant": "an identity between polynomials in all arrays", "anchors": ["openms/mqed/myqedcc_equations_opt.py:qedccsd_T1T2_opt"]}
{"id": "C232", "title": "Residuals of double amplitudes are antisymmetric", "statement": "The residuals of T2, of the doubles with one photon and of the doubles with two photons change sign when two virtual or two occupied indices are exchanged.", "quantifier": "every number of orbitals and modes, every nfock1 and nfock2, all integrals, couplings and amplitudes with their symmetries", "why_tests_cant": "all index tuples and arrays", "anchors": ["openms/mqed/myqedcc_equations_opt.py:qedccsd_T1T2_opt", "openms/mqed/myqedcc_equations_opt.py:qedccsd_U2n_opt"]}
{"id": "C233", "title": "The photon residuals are the derivatives of the energy", "statement": "The residuals of the photon amplitudes are the photon energies times the amplitudes plus the derivative of the energy with respect to one or two photons, and zero for modes of zero frequency.", "quantifier": "every number of orbitals and modes, every nfock1 and nfock2, all integrals, couplings and amplitudes with their symmetries", "why_tests_cant": "derivatives of polynomials in all arrays", "anchors": ["openms/mqed/myqedcc_equations_opt.py:qedccsd_Sn"]}
{"id": "C234", "title": "The singles with one photon are the derivative of the T1 equation", "statement": "The residual of the singles with one photon is w U plus the derivative of the T1 equation along the photon amplitudes of the mode.", "quantifier": "every number of orbitals and modes, every nfock1 and nfock2, all integrals, couplings and amplitudes with their symmetries", "why_tests_cant": "derivatives of polynomials in all arrays", "anchors": ["openms/mqed/myqedcc_equations_opt.py:qedccsd_U1n_opt", "openms/mqed/myqedcc_equations_opt.py:qedccsd_T1T2_opt"]}
{"id": "C235", "title": "The doubles with one photon are the derivative of the T2 equation", "statement": "The residual of the doubles with one photon is w U plus the derivative of the T2 equation along the photon amplitudes of the mode, in the optimised and in the plain equations.", "quantifier": "every number of orbitals and modes, every nfock1 and nfock2, all integrals, couplings and amplitudes with their symmetries", "why_tests_cant": "derivatives of polynomials in all arrays; single-mode tests hide the mode indices", "anchors": ["openms/mqed/myqedcc_equations_opt.py:qedccsd_U2n_opt", "openms/mqed/qedcc_equations.py:qedccsd_U2n"]}
{"id": "C236", "title": "The singles with two photons are the second derivative of the T1 equation", "statement": "The residual of the singles with two photons is (w_I + w_J) U plus the second derivative of the T1 equation, in the optimised, plain and single-mode equations.", "quantifier": "every number of orbitals and modes, every nfock1 and nfock2, all integrals, couplings and amplitudes with their symmetries", "why_tests_cant": "derivatives of polynomials in all arrays", "anchors": ["openms/mqed/myqedcc_equations_opt.py:qedccsd_U1n_opt", "openms/mqed/qedcc_equations.py:qedccsd_U1n", "openms/mqed/qedcc_equations.py:single_qedccsd_U1n"]}
{"id": "C237", "title": "The doubles with two photons are the second derivative of the T2 equation", "statement": "The residual of the doubles with two photons is (w_I + w_J) U plus the second derivative of the T2 equation.", "quantifier": "every number of orbitals and modes, every nfock1 and nfock2, all integrals, couplings and amplitudes with their symmetries", "why_tests_cant": "derivatives of polynomials in all arrays", "anchors": ["openms/mqed/myqedcc_equations_opt.py:qedccsd_U2n_opt"]}
{"id": "C238", "title": "Several modes: the singles with two photons", "statement": "The residual with photons in modes I and J is symmetric in the modes and is the second derivative of the T1 equation.", "quantifier": "every number of orbitals and modes, every nfock1 and nfock2, all integrals, couplings and amplitudes with their symmetries", "why_tests_cant": "tests have one mode", "anchors": ["openms/mqed/myqedcc_equations_opt.py:qedccsd_U1n_opt"]}
{"id": "C239", "title": "The single-mode equations are the general ones for one mode", "statement": "For one mode the functions single_qedccsd_U1n and single_qedccsd_U2n give the residuals of the general equations.", "quantifier": "every number of orbitals, one mode, all arrays", "why_tests_cant": "identities between polynomials in all arrays", "anchors": ["openms/mqed/qedcc_equations.py:single_qedccsd_U1n", "openms/mqed/qedcc_equations.py:single_qedccsd_U2n"]}
{"id": "C240", "title": "A call of the amplitude equations returns", "statement": "For all numbers of photon states, orbitals and modes a call uses only arrays that exist, with the right axes, and returns.", "quantifier": "every nfock1, nfock2 and numbers of orbitals and modes", "why_tests_cant": "all configurations; tests use one mode and few photons", "anchors": ["openms/mqed/myqedcc_equations_opt.py:Imds.build", "openms/mqed/myqedcc_equations_opt.py:qedccsd_U2n_opt", "openms/mqed/myqedcc_equations_opt.py:qedccsd_Sn"]}
{"id": "C241", "title": "A stationary point of the iteration solves the equation with one photon", "statement": "Amplitudes that one update leaves unchanged satisfy (e_o - e_v - w) U = derivative of the T1 equation.", "quantifier": "every number of orbitals and modes, all arrays", "why_tests_cant": "a statement about all stationary points", "anchors": ["openms/mqed/ccsd.py:kernel", "openms/mqed/myqedcc_equations_opt.py:qedccsd_U1n_opt"]}
{"id": "C242", "title": "The overlap with a multi-determinant trial sums over its determinants", "statement": "For a trial sum_I c_I |D_I> the overlap with a walker is the sum over I of the conjugate coefficient times the component of the walker along D_I.", "quantifier": "every number of basis functions and electrons, every expansion and walker", "why_tests_cant": "all expansions; tests only print the overlap", "anchors": ["openms/qmc/trial.py:calc_MSD_trial_walker_ovlp", "openms/qmc/trial.py:calc_MSD_trial_walker_ovlp_gf", "openms/qmc/trial.py:multiCI.build"]}
{"id": "C243", "title": "Trial orbitals are orthonormal mean-field orbitals in both bases", "statement": "The orbitals of a Hartree-Fock trial are orthonormal in the working basis and describe the occupied mean-field orbitals, in orthogonalised atomic orbitals as in molecular orbitals.", "quantifier": "every overlap matrix, orthonormal mean-field orbitals and numbers of electrons", "why_tests_cant": "all bases; tests use the default basis", "anchors": ["openms/qmc/trial.py:TrialHF.build"]}
{"id": "C244", "title": "Every trial class serves a run", "statement": "After half rotation each trial class answers the request for the overlap with <Psi_T|w> and the request for the force bias with Tr(L G).", "quantifier": "every trial class, trial, walker and Cholesky vector", "why_tests_cant": "all classes and walkers; tests run one class", "anchors": ["openms/qmc/trial.py:TrialHF.get_vbias", "openms/qmc/trial.py:multiCI.get_vbias", "openms/qmc/trial.py:TrialUHF.ovlp_with_walkers"]}
{"id": "C245", "title": "Numbers of alpha and beta electrons", "statement": "A trial is accepted with na alpha and nb beta electrons exactly when both are non-negative, na + nb is the number of electrons and na - nb the spin.", "quantifier": "every number of electrons and spin", "why_tests_cant": "all integers", "anchors": ["openms/qmc/trial.py:TrialWFBase.__init__"]}
{"id": "C246", "title": "The bosonic trial is a normalised product of coherent states", "statement": "The bosonic trial is normalised, lowering a mode multiplies its amplitudes by its displacement, and the displacement of a mode does not depend on the other modes.", "quantifier": "every list of displacements and Fock dimensions", "why_tests_cant": "all displacements and dimensions; tests use one mode", "anchors": ["openms/qmc/trial.py:initialize_boson_trial_with_z", "openms/qmc/trial.py:make_trial"]}
{"id": "C247", "title": "A run starts the bosons at the displacement of lowest energy", "statement": "The displacement with which a run of a closed shell sets up the bosonic trial minimises the energy w z^2 + 2 z <g> of the coherent state.", "quantifier": "every frequency, coupling and density", "why_tests_cant": "a minimum over all displacements", "anchors": ["openms/qmc/qmc.py:QMCbase.build"]}
{"id": "C248", "title": "Spin-orbital integrals handed to coupled cluster", "statement": "The two-electron integrals handed to coupled cluster are the antisymmetrised integrals of the molecule's repulsion and the dipole self-energy over spin orbitals, antisymmetric in each pair and Hermitian, cut into blocks that hold every spin orbital once.", "quantifier": "every basis size, orbitals, integrals, number of modes and occupation", "why_tests_cant": "all integrals and orbitals; tests compare one energy", "anchors": ["openms/lib/boson.py:get_I", "openms/lib/boson.py:g_fock"]}
{"id": "C249", "title": "Electrons of the reference in the correlated calculation", "statement": "The density set up for a correlated calculation holds the electrons of the mean-field reference in its occupied orbitals.", "quantifier": "every list of occupations and orthonormal orbitals", "why_tests_cant": "all occupations; tests use closed shells", "anchors": ["openms/lib/boson.py:get_mos"]}
{"id": "C250", "title": "Fock matrix and integrals describe the same Hamiltonian", "statement": "Every block of the Fock matrix is the one-electron matrix plus the mean field of the occupied orbitals with the same two-electron integrals that are handed over.", "quantifier": "every basis size, orbitals, integrals, coupling, block and choice of shift", "why_tests_cant": "all references; tests run one", "anchors": ["openms/lib/boson.py:fock", "openms/lib/boson.py:g_fock", "openms/lib/boson.py:get_I"]}
{"id": "C251", "title": "Displacing the photon modes changes nothing but the representation", "statement": "With the shift option the modes are displaced by the mean field: the coupling to deviations, the one-electron term and the constant together are the same Hamiltonian, and the constant is the change of the reference energy.", "quantifier": "every algebra of operators, number of modes, frequencies and couplings", "why_tests_cant": "an identity between operators", "anchors": ["openms/lib/boson.py:get_gmat_so", "openms/lib/boson.py:mfG", "openms/lib/boson.py:gint", "openms/lib/boson.py:g_fock"]}
{"id": "C252", "title": "Energy of the reference determinant", "statement": "The Hartree-Fock energy reported to a correlated calculation is the expectation of its Hamiltonian in the reference determinant, at every call.", "quantifier": "every basis size, orbitals, integrals and number of calls", "why_tests_cant": "all references and call histories", "anchors": ["openms/lib/boson.py:hf_energy", "openms/lib/boson.py:fock", "openms/mqed/scqedhf.py:get_hcore"]}
{"id": "C253", "title": "Integrals for configuration interaction", "statement": "The integrals for configuration interaction describe the molecule with half the square of the coupling operators, the coupling of each mode scaled with its own frequency, and a starting density with all electrons.", "quantifier": "every basis, overlap, number of modes and frequencies", "why_tests_cant": "all numbers of modes and basis functions; tests use one mode", "anchors": ["openms/lib/boson.py:get_integrals4fci", "openms/lib/boson.py:transform_ao2mo"]}
{"id": "C254", "title": "Dipole integrals hold the dipole of all charges", "statement": "With nuclei included the expectation of the dipole integrals is the dipole of electrons and nuclei, and the origin shift acts as a displacement of the molecule.", "quantifier": "every molecule, density and shift", "why_tests_cant": "all molecules and densities", "anchors": ["openms/lib/boson.py:get_dipole_ao"]}
{"id": "C255", "title": "Plasmon frequencies from density and mass", "statement": "A metal set up with a density and masses has for each mass the plasma frequency of that density, and with these frequencies its conductivity can be computed.", "quantifier": "every density, list of masses and values of the constants", "why_tests_cant": "all densities and masses; no test exists", "anchors": ["openms/maxwell/hyperbolic.py:__init__"]}
{"id": "C256", "title": "Conductivity of an anisotropic metal", "statement": "At each frequency and for each direction the conductivity is the Drude term with weight proportional to the density plus the interband term, whose absorption starts at the transition frequency of that direction; it never amplifies, and the dielectric function follows from it.", "quantifier": "every list of frequencies, directions, strengths and damping", "why_tests_cant": "all frequencies and any number of directions; no test exists", "anchors": ["openms/maxwell/hyperbolic.py:get_conductivity", "openms/maxwell/hyperbolic.py:get_dielectric"]}
{"id": "C257", "title": "Zero-field splitting of a spin", "statement": "The tensor made from the longitudinal and transverse splitting gives the Hamiltonian D (Sz^2 - S^2/3) + E (Sx^2 - Sy^2), is symmetric and traceless, and does not split a spin one half.", "quantifier": "every pair of splittings and all spin operators", "why_tests_cant": "an identity between operators of any spin", "anchors": ["openms/spindy/spin.py:zfs_tensor"]}
{"id": "C258", "title": "Coupling of a spin to a magnetic field", "statement": "The g-factor may be one number, one for each axis or a tensor, and the coupling to the field is the documented B.g.S in each case.", "quantifier": "every g-factor, field and spin operators", "why_tests_cant": "an identity between operators of any spin", "anchors": ["openms/spindy/spin.py:set_gfactor", "openms/spindy/spin.py:check_gfactor"]}
{"id": "C259", "title": "A spin object describes the spins it was made from", "statement": "The object carries the splittings, tensors and dimension of its arguments, and a system of spins holds the spins it was given.", "quantifier": "every half-integer spin, splittings, g-factor and list of spins", "why_tests_cant": "all arguments; no test reads the attributes", "anchors": ["openms/spindy/spin.py:Spin.__init__", "openms/spindy/spin.py:SpinSystem.__init__"]}
{"id": "C260", "title": "Averages of variational Monte Carlo", "statement": "The mean of the local energies is the energy of the wave function, the vector handed to the optimiser is half its gradient, the matrix is the covariance of the logarithmic derivatives, and an eigenstate gives its energy and no gradient from any samples.", "quantifier": "every finite set of configurations, Hamiltonian, wave function and samples", "why_tests_cant": "identities between averages and derivatives for all wave functions", "anchors": ["openms/qmc/vmc.py:VMCBase.kernel"]}
{"id": "C261", "title": "A run of variational Monte Carlo", "statement": "A run started with an ansatz, a Hamiltonian, a sampler and an optimiser makes the requested number of updates, each with samples of the current parameters, and reports the energy and the number of steps.", "quantifier": "every ansatz, sampler, optimiser and number of iterations", "why_tests_cant": "all runs; no test exists", "anchors": ["openms/qmc/vmc.py:VMCBase.__init__", "openms/qmc/vmc.py:VMCBase.kernel", "openms/qmc/vmc.py:VMCBase.energy"]}
