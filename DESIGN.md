# Design

Formal model of selected parts of OpenMS (python, C and C++ sources under
/repo/openms) in Coq 8.16.1.  Nothing in /repo is executed; each definition of the model cites
the file and lines it models.

## Method

* Shallow model: every modelled function is a Gallina function that follows the
  source branch by branch.  Exceptions are values (`Err IndexError`, ...), random
  numbers and external library calls (argsort, QR, exp, eigensolvers) are
  arguments of the function or `Section` variables whose assumed behaviour is a
  hypothesis visible in the theorem.
* Number domains: rationals `Q` (or an arbitrary mathcomp field) where only
  field operations and comparisons matter, Coq reals `R` where square roots,
  exponentials or derivatives matter, mathcomp matrices for linear algebra.
  Floating-point rounding, NaN propagation and overflow are not modelled
  except where a property is about them.
* Layout of `rocq/theories`: `<Area>Model.v` holds the model only,
  `<Area>Proofs.v` the lemmas, `<Area>Props.v` the property theorems
  (each closed by `exact lemma`, followed by `Print Assumptions`) together with an
  `Example` showing that the hypotheses are met by a non-trivial case.
* A property that the code violates is kept in full in `properties.jsonl`;
  the model then carries a theorem `..._refuted` with a concrete witness and, where
  useful, a `..._partial` theorem with the strongest statement that does hold.

## Plan per property

| id | area | title | modelling and proof idea |
|----|------|-------|--------------------------|
| C01 | Pop | Pair branching conserves population and total weight | lists of (payload, rational weight); argsort as an oracle returning any sorting permutation; while-loop as structural recursion over a two-ended window; random draws as an oracle stream. Induction on the window. |
| C02 | Pop | Pair branching is unbiased | outcome tree of the same loop with exact branch probabilities; expectation by induction on the window. |
| C03 | Pop | Pair branching keeps the signed total weight | refuted by a witness with a negative weight; true for non-negative weights. |
| C04 | Pop2, Pop | Constant-population pair branching conserves total weight | refuted by a witness; count conservation proved. |
| C05 | Pop | Reconfiguration returns exactly N equally weighted walkers without overrunning | two-pointer loop with explicit fuel and IndexError value; no-overrun, fuel sufficiency, weights by induction. |
| C06 | Pop | Reconfiguration and comb copy each walker floor or ceiling of its share | copy counts as a counting function of marker positions; floor/ceil bounds. |
| C07 | Pop | Comb resampling and reconfiguration select the same walkers | binary search specified by its result (first index with cum >= marker); refinement between both algorithms. |
| C08 | Pop | Reconfiguration is unbiased over the offset | exact expectation over an equidistant offset grid / Riemann integral of the counting step function. |
| C09 | Pop | Unrestricted branching keeps weight bookkeeping | per-walker branch function; sum and expectation lemmas. |
| C10 | Pop | Inter-node rebalancing plan is conservative and sufficient | plan generator over Z counts, invariant by induction over receivers. |
| C11 | Walk | Weight control normalises the global weight and never changes ratios | rank-indexed weight lists, allreduce as sum over ranks; step function of weight_control. |
| C12 | Walk | Weights stay within ten percent of the recorded total | invariant of clip; history induction. |
| C13 | Walk | Walkers are partitioned over ranks evenly, completely and contiguously | nat arithmetic, induction over ranks. |
| C14 | Walk | Packing and unpacking walkers is lossless | four pack/unpack branches over abstract payloads; round trip and resampling law. |
| C15 | Walk | Per-walker data stay attached to their walker under population control | population state with overlap/energy side arrays; refuted by witness. |
| C16 | Walk | Simulations do not share walker options | heap of option dictionaries with aliasing; refuted by a two-construction history; partial for copies. |
| C17 | Walk | A walker count passed in walker_options is honoured | same heap model; refuted. |
| C18 | Sched | QMC run records energies on schedule | event-trace model of the main loop; trace characterised by induction on nsteps. |
| C19 | Sched | The energy shift is the weight-averaged hybrid energy of the last window | accumulator state machine over rationals; window invariant. |
| C20 | Lin | Orthogonalisation keeps the walker's physical state | mathcomp matrices over a field; QR as hypothesis W = Q R. |
| C21 | Chol | Pivoted Cholesky reproduces the integrals within the threshold | pivoted Cholesky over real symmetric PSD forms; residual PSD invariant; Cauchy-Schwarz for the 2x2 minors. |
| C22 | Chol | Pivoted Cholesky terminates with at most rank-many vectors | pivot set strictly grows; residual vanishes on pivots. |
| C23 | Ints | FCIDUMP integrals carry the full permutational symmetry | finite map model of the integral table written record by record; four-fold invariants proved, eight-fold refuted. |
| C24 | Ints | Shell lookup inverts the shell offsets | searchsorted (right) specified on sorted lists. |
| C25 | Chol | Blocked tensor plan covers every Cholesky vector exactly once | nat arithmetic of the plan loop. |
| C26 | Lin | Bilinear decoupling reproduces the electron-photon Hamiltonian | ring identity per mode over an abstract commutative ring with a square root of two and of -1. |
| C27 | Lin | Mixed Green's function is a projector with the right particle number | mathcomp matrices over a field. |
| C28 | Lin | Half-rotated energy equals the full Green's-function energy | trace cyclicity. |
| C29 | Lin | Closed-shell energy path equals the unrestricted path | spin sums. |
| C30 | Phase | Chunked exchange equals unchunked exchange | list chunking; fold law. |
| C31 | Lin | Compiled Coulomb kernel equals the array implementation | refuted by a witness. |
| C32 | EB | Electron-boson energy accumulates over every mode | offset bookkeeping model; refuted for two modes, proved for one. |
| C33 | Phase | Walker weights stay non-negative and bounded | Coq reals with exp/cos; invariant over steps. |
| C34 | Phase | Force bias is bounded after rescaling | Coq reals, complex as pairs; max(1,bound) proved, bound refuted. |
| C35 | Lin | Taylor propagation applies the truncated exponential | loop invariant of the Taylor recursion over matrices. |
| C36 | Lin | Mean-field background subtraction leaves the Hamiltonian unchanged | ring identity in a matrix algebra. |
| C37 | Stats | Tail averages use exactly the last fraction of the data | list model. |
| C38 | Stats | Outlier removal keeps all inliers and bounds what it drops | squared z-score form over rationals; Chebyshev counting. |
| C39 | Stats | Block analysis partitions the series | list chunking. |
| C40 | Stats | Automatic window picks the first self-consistent window | argmin over booleans as in numpy; refuted when no window qualifies. |
| C41 | Boson | Packed symmetric storage is lossless | nat index arithmetic, exact division-free formulas; double-sum induction. |
| C42 | Boson | Displacement factor derivative is the derivative of the displacement factor | Coquelicot derivatives; refuted at an explicit density matrix, proved for densities without first off-diagonals. |
| C43 | Boson | Dressing factor is symmetric so dressed integrals are Hermitian | odd-parity terms; refuted by witness, proved for even-parity densities. |
| C44 | Boson | Bosonic Hamiltonian is symmetric, block diagonal and has the right spectrum limits | index-level model of the block matrix. |
| C45 | Cav | Constructing a cavity does not alter its inputs | heap model with the caller's array; refuted. |
| C46 | Qhf | Duplicate interaction-matrix routines agree | two formulations of the contraction proved equal. |
| C47 | Qhf | Incremental and full Fock builds agree | linearity of the two-electron and dipole self-energy maps; induction over the SCF history. |
| C48 | Qhf | Coherent-state QED-HF energy is origin invariant | mathcomp matrices over a field, traces. |
| C49 | Scf | SCF convergence flag is truthful and iteration count bounded | SCF loop as a fold over an oracle of energies and gradients. |
| C50 | Qhf | Coulomb/exchange build terminates when integrals are not held in memory | call-graph model with fuel; refuted (diverges for every fuel). |
| C51 | Boson | Photon number distribution of a coherent state is Poissonian | factor sequence model; refuted. |
| C52 | Scf | Variational parameters survive packing and unpacking | flat vector model with segment sizes; round trip proved where it holds, refuted otherwise. |
| C53 | Scf | Every degenerate dipole block is resolved | list scan model; refuted for a trailing block, proved for others. |
| C54 | Fci | Truncated boson ladder operators are adjoint and have the right commutator | tensors as functions on multi-indices over reals. |
| C55 | Fci | Bosonic FCI energy operator counts quanta in every mode | same; broadcasting model; refuted for two modes, proved for one. |
| C56 | Fci | Absorbing the one-electron term into the two-electron operator preserves the Hamiltonian | operator algebra over matrices. |
| C57 | Cc | Coupled-cluster denominators use the photon energy of each photon index | tensor recursion; closed form by induction. |
| C58 | Cc | Coupled-cluster amplitude vector round-trips | flat vector model. |
| C59 | Hop | Lattice hopping matrix is the adjacency of the chain | chain adjacency; case analysis on boundary. |
| C60 | Hub | Hubbard mean-field energy equals the textbook expression | bigop identities. |
| C61 | Hop | Surface-hopping Hamiltonian carries the adiabatic energies on its diagonal | loop model of get_H; refuted. |
| C62 | Lin | Runge-Kutta step is fourth-order exact for linear systems | matrix algebra / module identities. |
| C63 | Inf | Log messages are gated by verbosity and never fail | table model of the logger functions. |
| C64 | Inf | Serial communicator stand-in behaves like a one-rank communicator | value-typed model of the stand-in communicator. |
| C65 | Inf | Backend selection accepts exactly the documented names | string model of the name parser. |
| C66 | Tb | Harmonic trial has zero-variance energy | real/rational algebra. |
| C67 | Ints | Determinant reordering sign is the permutation parity | list sorting model with swap count; parity of inversions. |
| C68 | Ints | Occupied-virtual block slicing partitions the integrals | index partition. |
| C69 | Lin | DIIS error vector vanishes exactly at self-consistency | Hermitian matrices over numClosedFieldType. |
| C70 | Inf | Decorated functions keep their results | higher-order model; refuted for the timer, proved for the deprecation wrapper. |
| C71 | EB, Walk | Bosonic renormalisation keeps the walker up to a scalar | refuted by a sign witness. |
| C72 | Lin | Decoupling scheme 3 reproduces the coupling without self-energy | refuted by witness. |
| C73 | Lin | Bosonic bilinear propagation applies the truncated exponential | loop model; refuted at order two. |
| C74 | Stats | Outlier removal never empties the data | constant data gives 0/0; refuted. |
| C75 | Cc | Mixed electron-photon denominators use each photon index | refuted for two modes, proved for one. |
| C76 | Cc | Extrapolated coupled-cluster vector reaches every amplitude | refuted. |
| C77 | Cc | Requested amplitudes are returned by the coupled-cluster driver | argument binding model; refuted. |
| C78 | Sched | Random streams are reproducible and rank specific | seed-state model; refuted. |
| C79 | Phase | Electron-boson energy is globally reduced consistently | rank model; refuted. |
| C80 | Hop | Hubbard-Holstein reference orbitals depend on U | branch model; refuted. |
| C81 | PopFloat, Pop | Reconfiguration never overruns in double precision | partial. the full statement is false of the code; witness in the _refuted theorem |
| C82 | Pop | Pair branching leaves only in-range walkers untouched | proved. no restriction beyond the conventions below |
| C83 | Walk | A balanced population is not clipped | partial. the full statement is false of the code; witness in the _refuted theorem |
| C84 | Lin | Stored overlap after orthogonalisation is the overlap of the new walker | partial. false: closed-shell walkers are divided once although the overlap is squared, and the sign of det R is dropped; proved for open shell with positive diagonal |
| C85 | Phase | Hybrid phaseless factor uses the overlap phase | partial. false in the hybrid scheme: clipping in place drops the imaginary part, so the overlap phase never reaches the cosine; the local scheme uses it |
| C86 | Lin | Decoupled mean-field shift leaves the coupling unchanged | partial. false: the cross term le*b + lb*e is missing; C86_defect_partial gives the exact defect. The sampled operator is assembled from several code lines |
| C87 | Lin | Force-bias factor is the Gaussian density ratio | proved. no restriction beyond the conventions below |
| C88 | Lin | Shared fields have one force bias | partial. false when a shared field has both biases; proved when the biases have disjoint support |
| C89 | Lin | Force bias cancels the first-order fluctuation of the weight | proved. no restriction beyond the conventions below |
| C90 | Lin | Green's function is the one-body response of the overlap | proved. no restriction beyond the conventions below |
| C91 | Lin | All Green's function implementations agree | proved. no restriction beyond the conventions below |
| C92 | Lin | Orthonormal DIIS error is the transformed error | proved. no restriction beyond the conventions below |
| C93 | Phase | Default options select a valid energy scheme | partial. false: energy_scheme=None is passed explicitly and update_weight raises ValueError; proved when a valid scheme is named |
| C94 | Chol | Reaching the Cholesky vector limit returns the vectors found | partial. false: the break cannot be reached, an IndexError comes first |
| C95 | EB | Matrix of the bosonic displacement | proved. no restriction beyond the conventions below |
| C96 | EB | Bosonic energy for any Fock dimensions | partial. false for unequal dimensions, where asarray raises; proved for equal ones |
| C97 | EB | Bosonic Green's function is a rank-one projector | proved. no restriction beyond the conventions below |
| C98 | Chol | Cholesky columns include every coupling vector | partial. false: with two or more vectors the reshape raises; proved for one vector |
| C99 | EB | Bosonic energy is additive over modes | partial. false: modes are concatenated, not tensored; proved for one mode |
| C100 | EB | Averaged density has the electron number as trace | proved. no restriction beyond the conventions below |
| C101 | EB | Displacement does not depend on the walker's scale | partial. false: the density of each walker is not divided by its norm; proved for factors of modulus one |
| C102 | Phase | Walkers orthogonal to the trial are removed | partial. false in both schemes: the hybrid energy is clipped, and angle(0)=0 in the local scheme |
| C103 | Chol | Rotating Cholesky vectors rotates the integrals | proved. no restriction beyond the conventions below |
| C104 | Chol | Stochastic resolution of the identity is unbiased | proved. no restriction beyond the conventions below |
| C105 | Chol | The bandwidth covers all large elements | partial. false: a vector without an element at or above the threshold makes it raise; otherwise covers and is least |
| C106 | Ints | Frozen-core extension gives determinants of all electrons | partial. false when the numbers of alpha and beta core orbitals differ: beta gets alpha's core; right when they are equal |
| C107 | Ints | Reading FCIDUMP returns the listed values | partial. without a constant record the function fails on an unbound name; otherwise the listed values are read; read_fcidump has no caller in the repository |
| C108 | Pop2 | Residual branching returns N equal walkers | partial. the function uses an undefined name and always raises; the count is proved as if the name were bound |
| C109 | Pop2 | Dynamic branching keeps size and total weight | partial. size and membership hold, the total weight is not conserved |
| C110 | Pop2 | The energy offset drives the average weight to its target | partial. the sign is wrong: above the target the average grows further; the routines have no callers |
| C111 | Stats | Quartile outlier removal keeps the samples between the widened quartiles | partial. The kept samples are characterised for all data.  Not emptying is refuted for two samples with threshold below 1/2 and proved for any other number of samples. |
| C112 | Acf | The autocorrelation function is the documented average | partial. The FFT value equals the lagged sum of products for every lag (zero padding suffices).  The documented 1/(N-k) average is refuted: the code differs from it by (N-k)/N. |
| C113 | Boson | Both evaluations of the displacement factor agree | proved. no restriction beyond the conventions below |
| C114 | Boson | The displacement factor is the expectation value of the displacement operator | partial. The operator D is characterised by its differential equation and initial value.  Refuted for states that mix parities, because the lower triangle is doubled instead of adding the transposed elements. |
| C115 | Boson | The eta derivative of the dressing factor is its derivative | partial. Refuted for mdim > 1: the chain-rule factor e^F/omega is missing. |
| C116 | Boson | The squeezing and displacement derivatives of the dressing factor are its derivatives | partial. Refuted for states that mix parities (consequence of C42); the squeezing routine is used with the reversed difference. |
| C117 | Boson | Without displacement the dressing factor is 1 | partial. Refuted for two modes: FC_factor reads column idx (the mode's offset) of the eigenvectors of the whole photon Hamiltonian.  The eigensolver is any orthonormal ascending eigendecomposition. |
| C118 | Boson | Photon energy and its squeezing gradient are consistent with the photon Hamiltonian | proved. no restriction beyond the conventions below |
| C119 | Cav | A single mode may be given as a number | partial. Refuted: a python float has no .size (AttributeError); a numpy.float64 gives a zero-dimensional array that cannot be indexed. |
| C120 | Cav | Stored polarisation vectors are normalised | partial. Refuted for integer arrays (in-place assignment truncates).  Vectors shorter than 1e-15 are left as they are. |
| C121 | Cav | The attributes of a cavity object are consistent | proved. Frequencies assumed non-negative where a square root is taken (numpy returns nan otherwise). |
| C122 | Qhf | Both dipole-self-energy Coulomb/exchange routines agree | partial. Refuted for residue=True without dipole self energy. |
| C123 | Qhf | The QED-HF photon energy is the dipole fluctuation | proved. Empty cavity. |
| C124 | Qhf | The QED-HF Fock matrix is the gradient of the QED-HF energy | proved. Empty cavity. |
| C125 | Qhf | The bilinear coupling energy uses the displaced dipole | partial. Refuted: the shift z multiplies the overlap matrix without division by the electron number, so it enters N times.  Partial: the exact energy produced. |
| C126 | Qhf | get_jk honours with_j and with_k | partial. Refuted when the dipole self energy is on (None += array). |
| C127 | Qhf | Both treatments of the squared dipole agree in a complete basis | proved. no restriction beyond the conventions below |
| C128 | Qhf | The variational-parameter gradients are derivatives | partial. Refuted for several modes (one matrix summed over modes) and without residue (name unbound).  Partial: the derivative along a common change of all parameters, hence each derivative for one mode. |
| C129 | Qhf | get_fock without a density uses the stored density | partial. Refuted: without a density get_hcore returns the bare core Hamiltonian; the h1e argument is overwritten in any case. |
| C130 | Qhf | Level shift and damping can be switched on | partial. Refuted: the functions damping and level_shift are not defined in qedhf.py (noted as TODO in the source). |
| C132 | Scq | The gradient of the displacements | partial. One mode, dipole basis.  Exact for the vacuum factor, and for normalised states of definite parity when exp F = omega; refuted otherwise because the chain-rule factor exp F / omega is missing in the branch with several photon states. |
| C133 | Scq | The strong-coupling potential | proved. One mode, dipole basis (the change back to atomic orbitals is not modelled); vacuum or normalised parity states. |
| C134 | Scf | The extra SCF cycle verifies convergence | partial. Refuted: the flag can only be set, never cleared, in the extra cycle (unless check_convergence is given). |
| C135 | Hub | Lattice reference densities hold N electrons | partial. Hubbard1D proved; HHModel loses one electron when N is odd (N // 2 for both spins). |
| C136 | Hub | Generalised and unrestricted Fock matrices agree | proved. no restriction beyond the conventions below |
| C137 | Hub | The Hubbard-Holstein Fock matrix is the gradient of the mean-field energy | proved. Coupling matrices assumed symmetric, as the constructor makes them. |
| C138 | Hub | Lattice two-electron integrals are antisymmetric | proved. no restriction beyond the conventions below |
| C139 | Hop | Surface-hopping propagation conserves population | partial. Refuted: get_H builds a real antisymmetric matrix, for which -i H is not anti-Hermitian. |
| C140 | Tb | First-quantised trial gradients and laplacians are the derivatives of the trial | proved. no restriction beyond the conventions below |
| C141 | Tb | Coherent-state coefficients are those of a coherent state | proved. Real amplitudes. |
| C142 | Inf | More severe messages are shown whenever less severe ones are | partial. CRITICAL is proved first; at the default verbosity INFO is shown and ERROR is not (refuted). |
| C143 | Inf | Task titles have a fixed width and are centred | proved. no restriction beyond the conventions below |
| C144 | Inf | A failed backend selection changes nothing | partial. Proved for every failure other than an unknown float type, which leaves the new class installed (refuted). |
| C145 | Tb | Fock-space trials hold each basis state at its own place and are normalised up to truncation | partial. Proved with amplitudes given; without them the coefficients exp(-sum n) have norm above one (refuted). |
| C146 | Cc | Coupled-cluster iterations stop at the first converged cycle and within max_cycle | proved. no restriction beyond the conventions below |
| C147 | Cc | A converged coupled-cluster run is recorded as converged | partial. Refuted: the attribute is set to False by the constructor and never assigned. |
| C148 | Cc | Amplitude mixing interpolates and damps more with a larger factor | partial. Monotonicity refuted at damp = 1, which switches mixing off. |
| C149 | Fci | The electron-boson FCI Hamiltonian is symmetric | proved. For a vector of frequencies (the matrix path is C55).  Link tables enter through the adjoint property. |
| C150 | Fci | The FCI one-particle density matrix is the expectation value of E_pq | proved. no restriction beyond the conventions below |
| C151 | Fci | make_rdm12e agrees with make_rdm1e and reproduces the two-electron energy | proved. pyscf's reorder_rdm is part of the model. |
| C152 | Fci | The documented options of the FCI kernel work | partial. Lists of cutoffs proved; coherent_state reaches la.solve with no la imported, and an integer cutoff is indexed in make_hdiag (both refuted). |
| C153 | Fci | The bosonic part of the FCI diagonal is the bosonic energy | partial. Refuted: each mode contributes at least 1/2, also with zero quanta.  The vector is only used as a preconditioner. |
| C154 | Scq | The gradient in the transformation parameter f | partial. The code divides every derivative by f as if displacements scaled with f: exact for joint scaling, refuted at fixed displacements although both are independent optimiser variables. |
| C155 | Scq | The gradient in the squeezing parameter | proved. The photon-energy part e_boson_grad_r added afterwards is not included. |
| C156 | Scq | The strong-coupling energy is the expectation value of the transformed Hamiltonian | proved. One mode; vacuum factor or a normalised state of definite parity. |
| C157 | Scq | Cholesky and four-index paths of the gradients agree | partial. grad_var_params_together is defined but the line that would select it is commented out; it is refuted. |
| C158 | Scf | Strong-coupling SCF reports the energy of what it returns | partial. One mode, dipole basis; DIIS an arbitrary function. Energy and gradient use parameters before the last update; refuted in general with default tolerances, starting from displacements given by init_params. |
| C159 | Scf | mqed.HF builds a solver | partial. Refuted for every argument: the factory passes one positional argument too many. |
| C160 | Scf | Damping and level shift are usable | partial. Refuted: damping and level_shift are undefined names. The exception is the model's reading of the name lookup. |
| C161 | Math | Full Cholesky orthogonalisation orthonormalises the basis | proved. LAPACK's dpstrf is an argument with its documented contract (dpstrf_ok); exact arithmetic. |
| C162 | Math | Initial-guess orbitals of strong-coupling HF are orthonormal | partial. With P and L in their documented places the statement holds. get_cholesky unpacks (L, P) as (P, L): wrong electron number (witness: two orbitals with overlap 3/5) and ValueError for every linearly dependent basis. scipy's eigh is an argument with its contract. |
| C163 | Math | Linear-dependence treatment follows the condition number | partial. Selection proved below debug verbosity with a photon object; without one the function raises UnboundLocalError, at debug verbosity TypeError. Condition numbers are arguments, NaN excluded. |
| C164 | Math | The subspace Hamiltonian is the projection of the operator | proved. The routine is only called from the first, shadowed davidson1. |
| C165 | Math | The Davidson and Lanczos solvers return eigenpairs | partial. Refuted: the second definition of davidson1 has an empty body, so davidson subscripts None; lanczos returns None. |
| C166 | Math | Transformations between AO and dipole basis preserve expectation values | proved. Real matrices. |
| C167 | Math | The phase convention makes eigenvectors unique | proved. Columns must be non-zero for uniqueness; ties of magnitude resolve to the first row as in numpy.argmax. |
| C168 | Math | The diagonal preconditioner never divides by zero | proved. Division by the clipped value only; the sign of a small denominator is lost, as the code does. |
| C169 | Md | The nuclear integrator is velocity Verlet | partial. Proved for surface 0 with the missing method next_velocity read as next_velocity_many_molecule and molecules shared with the driver. Refuted for other surfaces (init_state is never used) and for separate molecule objects (the copied attribute is never read). Exact arithmetic. |
| C170 | Md | The BOMD kernel runs its steps | partial. Refuted: next_velocity does not exist, a list has no reset_bo, Molecule has no get_etot. Directory handling is reduced to whether the old directory exists. |
| C171 | Md | Initial velocities given to a Molecule are used | partial. Refuted: __init__ sets veloc to None and build drops the keyword; velocities are always zero. |
| C172 | Md | Positions move in the dimensions of the molecule | partial. Proved for three dimensions. One dimension moves all three components, any other raises ValueError. |
| C173 | Md | Kinetic energy and temperature | partial. Kinetic energy proved; temperature_many_molecule raises for every argument. |
| C174 | Md | Surface-hopping propagation follows the moving Hamiltonian | partial. Proved once the stored Hamiltonian belongs to the stored coordinates. The first step uses the uninitialised np.empty matrix, and no MQC object can be constructed because __init__ reads self.dt before it is set. The driver is an argument; get_H is covered by C61. |
| C175 | Sh | Hopping probabilities are fewest-switches probabilities | partial. Refuted: range(self.states) raises for every molecule. Read with range(self.nstates), the entry is divided by the population of the target instead of the current state, and uses the real part of the density where the code's own equation of motion moves population through the imaginary part. Entries of the table for vanishing populations (division by zero) are not covered. |
| C176 | Sh | At most one hop per step, with the given probability | partial. The end state, its distribution for independent random numbers and the stay probability are given exactly; they are not the requested ones, and several hops can happen in one step. The step from uniform random numbers to independent events is informal. argsort is an argument with its contract. |
| C177 | Sh | Velocity change at a hop | partial. Acceptance rule and velocity change proved. Energy conservation refuted (uphill hops along the motion gain energy), momentum only for equal masses, a hop there and back changes the velocity twice. One-dimensional array energies; broadcasting left out. |
| C178 | Sh | Decoherence reset is the unit vector of the state | proved. no restriction beyond the conventions below |
| C179 | Nn | Network forces are minus the energy gradient in atomic units | partial. Forces proved once self.Z exists; nothing calls get_Z, so a new driver raises. States from nstates on keep their old forces. The network and autograd are arguments, autograd with the contract that it returns existing partial derivatives. |
| C180 | Nn | Dipole gradients are in atomic units | partial. The returned gradient is with respect to the network's length unit; the factor is missing. |
| C181 | Nn | Couplings of the network driver | proved. Exact arithmetic; degenerate pairs (division by zero) excluded. |
| C182 | Nn | The network driver serves surface hopping | partial. Refuted: get_energies takes no argument, and there are n(n-1)/2 couplings where get_H reads n(n+1)/2. |
| C183 | Agg | Absorption spectra are sums of Lorentzians | partial. linear_spec proved over an arbitrary real field. tdes refuted: it uses sys, which is not imported. |
| C184 | Agg | The aggregate is diagonalised and obeys the sum rule | partial. Refuted for an imported class: bd is the module openms.lib.backend, which has no zeros; the rest is for the class as run in its own file, where bd is the backend object. Eigensolver, argsort and random draws are arguments; the eigensolver's contract is asked only for the chain at hand. Rounding is not modelled. |
| C185 | Agg | A disorder average uses the dipoles of each sample | partial. Right for the first spectrum. Refuted for every later sample (the dipoles are cached and kernel does not clear them) and for the default selection, which holds the lowest Nexc states and can miss the bright one. |
| C186 | Agg | The choice of local states is sound | proved. For a new object, before any earlier selection; later selections use the cached order and dipoles (as C185). Rounding is not modelled. |
| C187 | Kern | Compiled propagation kernels agree with the Python ones | partial. Complex kernels and the step proved over an arbitrary field with BLAS reference semantics. Refuted: the in-place auxiliary-field call leaves a real or non-contiguous array unchanged (the step is safe because the one-body kernel returns a new array), and the real kernel divides the k-th power by k instead of k!. Rounding and aliasing of views are not modelled. |
| C188 | Kern | Compiled overlaps and Green's functions are right | proved. Square overlaps; the inverse is an argument asked to be right on invertible matrices only (C188_inverse shows one exists). Rounding is not modelled. |
| C189 | Kern | Compiled exchange and Coulomb energies are right | partial. Two spins: right for equally many alpha and beta electrons, refuted otherwise (the alpha length is used for the beta arrays). Rounding is not modelled. |
| C190 | Kern | Compiled tensor contraction is right | proved. BLAS-free loop over an arbitrary field; rounding is not modelled. |
| C191 | Disp | The compiled displacement matrix agrees with the Python one | partial. Right when the caller packs the density matrix; refuted for the square matrix the Python routine takes, whose first entries are read as if packed. GSL's Laguerre polynomial is its formula; rounding is not modelled. |
| C192 | Disp | Compiled Gaussian factors are the Franck-Condon factors | partial. Right unless a displacement equals -1, the mark of a missing argument; refuted there. |
| C193 | Yee | A field update solves Maxwell's equations on the staggered grid | proved. Real-field update of propagate. Exact field arithmetic: single-precision rounding is not modelled. No periodic boundary or parity. |
| C194 | Yee | Charges are conserved by the update | proved. The cell and the neighbours the divergence reads have to be visited. Exact field arithmetic: single-precision rounding is not modelled. No periodic boundary or parity. |
| C195 | Yee | The field energy changes only by Joule heat | proved. Energy with H at the two half steps around E. Molecular and layer cells are excluded. Exact field arithmetic: single-precision rounding is not modelled. No periodic boundary or parity. |
| C196 | Yee | The fields stay bounded | partial. Bounded under the Courant condition (c dt)^2 (1/dx^2+1/dy^2+1/dz^2) < min eps on a uniform grid; refuted without a condition (one cell, c dt = 2 spacings: growth 2^n). Exact field arithmetic: single-precision rounding is not modelled. No periodic boundary or parity. |
| C197 | Yee | The absorbing layer solves the uniaxial layer equations | proved. sigma.c's profiles are parameters. Exact field arithmetic: single-precision rounding is not modelled. No periodic boundary or parity. |
| C198 | Yee | Metal cells follow the Drude model | proved. Exact field arithmetic: single-precision rounding is not modelled. No periodic boundary or parity. |
| C199 | Ybc | Periodic boundaries of a rectangular lattice are exact | proved. Proved for all sizes, phases with cos^2 + sin^2 = 1, and states. cos and sin enter as numbers; exact arithmetic. Cells with molecules are excluded for the imaginary fields (C201). |
| C200 | Ybc | Periodic boundaries of a triangular lattice are exact | partial. Proved for an even number of cells in x; refuted for an odd one (0.5 * isize is cut off, one column of the upper row is never written). |
| C201 | Ybc | Superposition | partial. Superposition proved for real coefficients without molecules. Refuted: the imaginary loop has no molecular branch and treats such cells as a metal with eps = 100. |
| C202 | Ybc | Mirror planes reproduce the mirrored half of the box | proved. Proved for one mirror plane at a time in any direction, even and odd, real fields. The components in the plane are shown to solve their equations in vacuum cells. |
| C203 | Ybc | No access outside the arrays | partial. Proved for the order box, mirror planes, periodic boundaries; refuted for the other order, where Hz_parity takes back the enlarged size of a periodic box. |
| C204 | Ybc | Grid spacings and the Courant parameter | partial. Spacings, division by zero and the Courant condition proved; refuted for layers whose resolution does not divide the common multiple (integer division). |
| C205 | Src | Graded absorbing layers | partial. Proved for layers of at least one cell that do not overlap, with positive orders; pi is exact (the code has 3.141592), real arithmetic. A layer of no cells is accepted by pml_size and is refuted: the first (or last) cell divides by zero. |
| C206 | Src | The layers never amplify | partial. Proved for layers of at least one cell; refuted for layers of none (not a number). |
| C207 | Src | Convolutional layers | partial. Proved for the x direction; refuted for the others, since cpmlbx and cpmlax read isize and use_periodic_x whatever the direction. The calls that would use these coefficients are commented out in propagate. |
| C208 | Src | Real and imaginary sources form a phasor | partial. Gaussian pulses proved; Lorentzian ones proved for a non-zero decay time and refuted for decay time 0 (continuous source), whose imaginary part is always 0. |
| C209 | Src | Pulses without a static part | partial. The purpose of the two helpers is not documented in the repository; the statement is what Gaussian_phase achieves. Proved for the Gaussian pulse, refuted for the Lorentzian one, whose helper suits a cosine while the source is a sine. |
| C210 | Src | Sources deposit what they claim | partial. Point sources proved for all names with pi exact. Plane waves proved for the pair Ex, Hy. Phase consistent with the boundary proved for a box of one lattice constant and refuted for larger ones (the boundary phase counts boxes, the source lattice constants). Imaginary part proved except for Hy in beams and lines, where sqrt(eo/uo) enters twice (refuted). external_planewave compares the first name only, so Hy is never driven (refuted). |
| C211 | Src | Random dipoles are independent and keep being renewed | partial. Independence proved for all draws, with the start of the clock at 0 or later and the same number of dipoles in every update; a dipole that joins later reads behind the arrays (refuted). Renewal proved for waiting times of at least one; the code truncates the absolute value of a Gaussian to an integer, and with 0 the dipole is never renewed again (refuted). |
| C212 | Mon | Output of a mirrored box shows the whole box | partial. Proved for any combination of mirror planes when each mirrored size is even (the plane is then at the node where the update puts it); refuted for odd sizes, where the image is taken one node off. |
| C213 | Mon | Copies of a periodic box carry the Bloch phase | partial. Copies in x and in y proved, pi exact; with copies in both directions proved for the first row only, and refuted in general (the factor 2 pi of the second wave vector is missing). Each copy prints one column less than the period (refuted). |
| C214 | Mon | The flux monitor encloses a volume | partial. Proved for layers of non-negative thickness, equal layers in y and a vertical resolution that 5 divides; refuted without either of the last two (the upper y face uses the thickness of the lower layer; rounding differs between a start value and a bound). The three parts count the strips at the two planes twice (identity proved, refuted as a partition). |
| C215 | Mon | Electric energy in a metal | partial. The two parts are proved to add up to the derivative; eps_m is proved to be the mean of permittivity and derivative and so to differ from their sum (refuted), and both can be negative (refuted). |
| C216 | Mon | Far field map | partial. Azimuth and bilinear values proved for all sizes outside the pixels with polar angle below 0.02, which show the centre value; range proved for an odd number of samples and refuted for an even one (reads behind the array). |
| C217 | Mon | Place of the largest energy density | proved. Values in real arithmetic; the loop over the block is a list of cells. |
| C218 | Grd | Heights and grid points of a non-uniform grid | partial. Proved in rational arithmetic for any number of disjoint layers whose ends lie on grid points of both sides; refuted for other layers (the base index is truncated while indices are rounded): the index is not recovered and is not monotone in the height. |
| C219 | Grd | Layers are sorted by height | partial. Rearrangement proved for all arrays; order and memory safety proved for starts that are whole numbers and refuted for others, since the pivot is an int: (-0.2, -0.5) stays unsorted, (0.2, 0.5) reads entry -1. |
| C220 | Ebs | Averaged over the fields a walker's weight decays at the rate of its local energy | proved. Proved for all systems over any numeric field; expm and exp enter by the first terms of their series; the constant is half the sum of the squared mean-field values, which the code leaves out of the propagation. The phaseless cosine and the clipping of the hybrid energy are not part of this statement (area Phase). |
| C221 | Ebs | The coupled electron-boson step decays at the local energy of the coupled system | partial. The rate is proved for all systems in the product treatment: electronic energy with the displaced one-body matrix, free bosons (none in first quantisation) and the bosonic coupling operator. Hence the coupling is counted twice: refuted by a walker equal to a normalised trial. Bosons off: equal to the electronic step. Missing: the decoupled treatment of the coupling. |
| C222 | Gwf | Gutzwiller amplitudes stay normalised and describe the right number of electrons | partial. Proved over any real closed field; eigh enters only by the orthonormality of its columns. Start: normalised for n in [0,1], NaN otherwise. Electron number refuted: the density matrix counts both spins, the amplitudes hold twice as many electrons, and above half filling every run raises (a NaN reaches eigh). |
| C223 | Gwf | Renormalisation factors are the documented trace formula and lie between zero and one | proved. Proved. The value for an uncorrelated site is n(1-n)/(n(1-n)+EPS) for the square of the factor. |
| C224 | Gwf | Quasiparticle Hamiltonian and hybridisation are the documented ones | partial. Hamiltonian proved. The hybridisation is the documented one for uniform factors; refuted otherwise: the site's own factor is used instead of the neighbours'. |
| C225 | Gwf | The embedding Hamiltonian has the documented expectation values and its ground state is taken | partial. The expectation value is proved for all amplitudes, with EPS added to the quotient rather than under the root. Refuted that the ground state is taken: c[0] is the first row of the eigenvector matrix, not the first column. |
| C226 | Gwf | The Gutzwiller driver reports convergence of its last cycle and the energy of its state | partial. The flag is proved to mean that some cycle met the test; refuted for the last cycle. The energy is always zero: refuted against the energy of the state, for every eigensolver. A site with occupation 0 or 1 in the density, hence a uniform half-filled system, makes the run raise. |
| C227 | Gwf | Occupations, density matrix and orbital signs of the Gutzwiller code | partial. Proved with 2*min(N/2,n) electrons; for odd N one electron is lost: refuted. argsort and argmax are arguments. |
| C228 | Gwf | The multipliers of the Gutzwiller code stand still exactly when the occupations agree | proved. Proved. |
| C229 | Gwf | The one-body matrix of the Hubbard ring is the nearest-neighbour ring | partial. Proved with two bonds per site for three sites and more; refuted for two sites, where the second bond overwrites the first. |
| C230 | Qcc | The optimised T1 and T2 equations are the plain ones | partial. Proved for nfock1, nfock2 > 0 and G = 0, which is what the driver passes; refuted for G != 0. |
| C231 | Qcc | Without coupling the equations are those of CCSD | proved. Proved for nfock1, nfock2 > 0. |
| C232 | Qcc | Residuals of double amplitudes are antisymmetric | proved. Proved for nfock1, nfock2 > 0 (two for the doubles with two photons). |
| C233 | Qcc | The photon residuals are the derivatives of the energy | proved. Proved for G = 0, with the rows that the code sets to zero. |
| C234 | Qcc | The singles with one photon are the derivative of the T1 equation | proved. Proved for G = 0; the derivative is unique. |
| C235 | Qcc | The doubles with one photon are the derivative of the T2 equation | partial. Optimised equations proved for nfock2 = 1, and for one mode; refuted for two modes with nfock2 = 2. The plain equations are proved for all modes. |
| C236 | Qcc | The singles with two photons are the second derivative of the T1 equation | partial. Optimised equations: for one mode without coupled doubles exactly one term is wrong (half of <kl//cd> T2 U is missing), so refuted. Plain equations proved without coupled doubles, refuted with them. Single-mode equations proved. |
| C237 | Qcc | The doubles with two photons are the second derivative of the T2 equation | partial. Refuted, already for one mode. |
| C238 | Qcc | Several modes: the singles with two photons | partial. Both refuted with two modes. |
| C239 | Qcc | The single-mode equations are the general ones for one mode | partial. Singles with one and (C236) two photons proved; refuted for the doubles with one photon, and the doubles with two photons differ from the plain equations. |
| C240 | Qcc | A call of the amplitude equations returns | partial. With nfock1, nfock2 > 0 a call returns exactly if the lengths of eps_vir and w can be broadcast, always for one mode. Refuted for two modes and three virtual orbitals, and for nfock1 = 0. |
| C241 | Qcc | A stationary point of the iteration solves the equation with one photon | partial. The update divides a residual that already holds w U by a denominator that holds -w: stationary points satisfy the equation with 2w, refuted with w. |
| C242 | Mdt | The overlap with a multi-determinant trial sums over its determinants | partial. The code returns the component along the first determinant whatever the coefficients are: proved for one determinant with coefficient one, refuted for two; a walker equal to another determinant has overlap zero. |
| C243 | Mdt | Trial orbitals are orthonormal mean-field orbitals in both bases | partial. Proved in orthogonalised atomic orbitals for any orthonormalising matrix; in molecular orbitals the build always raises IndexError, because a column number is used in place of a slice: refuted. |
| C244 | Mdt | Every trial class serves a run | partial. Proved for TrialHF; multiCI and TrialUHF inherit an empty half rotation and raise AttributeError: refuted. |
| C245 | Tbs | Numbers of alpha and beta electrons | proved. Proved. |
| C246 | Tbs | The bosonic trial is a normalised product of coherent states | partial. Norm and coherence proved; the modes are laid side by side in one vector of norm one, so two equal modes have half the displacement each: refuted. |
| C247 | Tbs | A run starts the bosons at the displacement of lowest energy | partial. The start has the wrong sign, one spin and no division by the frequency: it is the minimum exactly when the coupling vanishes, and otherwise lies above the vacuum: refuted. |
| C248 | Pcc | Spin-orbital integrals handed to coupled cluster | proved. Proved for any real orbitals and integrals over any field. |
| C249 | Pcc | Electrons of the reference in the correlated calculation | partial. Unrestricted references and restricted ones with an even number of electrons keep their electrons; an odd number loses one, and the occupied orbitals are taken to be the first ones: refuted. |
| C250 | Pcc | Fock matrix and integrals describe the same Hamiltonian | partial. Proved when the reference has the dipole self-energy in its Coulomb and exchange matrices; otherwise get_I still includes it: refuted. |
| C251 | Pcc | Displacing the photon modes changes nothing but the representation | proved. Proved. |
| C252 | Pcc | Energy of the reference determinant | partial. Right with the shift, and at the first call for a reference that keeps its core Hamiltonian. Otherwise half of the one-electron part of the dipole self-energy is lost, and a kept core Hamiltonian grows at each call: refuted. |
| C253 | Pcc | Integrals for configuration interaction | partial. The dipole self-energy is right for all modes. The factor of the frequency is right for one mode; with more it raises or scales columns. The starting density keeps its electrons only if the overlap is the identity: refuted. |
| C254 | Pcc | Dipole integrals hold the dipole of all charges | partial. Right for neutral molecules without shift, invariant under translation, and for electrons alone with shift. Ions and shifted neutral molecules get a wrong dipole: refuted. |
| C255 | Hyp | Plasmon frequencies from density and mass | partial. Right for an array of masses. One mass gives a number for which the conductivity raises TypeError: refuted. |
| C256 | Hyp | Conductivity of an anisotropic metal | partial. Shape, imaginary part and passivity are proved. The Drude weight is the plasmon frequency rather than its square, the step sits at the plasmon frequencies and is added to all directions, and the dielectric function is not returned: refuted. |
| C257 | Spn | Zero-field splitting of a spin | proved. Proved over any field in which three is not zero. |
| C258 | Spn | Coupling of a spin to a magnetic field | proved. Proved; stacks of tensors are not modelled. |
| C259 | SpnDim, Spn | A spin object describes the spins it was made from | partial. Tensors and dimension are right. The attributes D and E stay zero, and a system always holds one spin one half: refuted. |
| C260 | Vmc | Averages of variational Monte Carlo | partial. Proved for real wave functions. For complex ones the gradient lacks a conjugation: right for real logarithmic derivatives, refuted otherwise. |
| C261 | Vmc | A run of variational Monte Carlo | partial. Right when a subclass sets sampler, psi and opt. The class itself does not, so every run raises AttributeError, and the reported energy and step count stay zero: refuted. |

## Trusted base

* Coq's kernel (8.16.1) and the definitions of the standard library, mathcomp and
  Coquelicot that the theorems mention.
* The axioms listed under *Print Assumptions*.  All of them belong to the standard
  library.  This development adds none, and uses no axiom of another library.
* The reading of the source: the model is tied to the code only by the citations
  in the comments.  Nothing is extracted or executed.
* The contracts of external routines (numpy, scipy, pyscf, LAPACK, BLAS, Eigen,
  GSL, torch).  They are hypotheses of the theorems, or definitions named in the
  comment of the model, and are listed under *Modelled and not modelled*.

### Print Assumptions

Every theorem is followed by `Print Assumptions` in its file.  The names are those
of the standard library:

* `sig_forall_dec`, `sig_not_dec` (`ClassicalDedekindReals`): the real numbers;
* `functional_extensionality_dep` (`FunctionalExtensionality`): the real numbers and
  functions compared as values;
* `classic` (`Classical_Prop`): Coquelicot's and the standard library's analysis.

"closed" stands for *Closed under the global context*.

<!-- begin axioms -->
| file | theorems by axioms used |
|------|---|
| AcfProps.v | 3 closed |
| AggProps.v | 25 closed |
| BosonProps.v | 3 closed; 4 functional_extensionality_dep + sig_forall_dec; 28 functional_extensionality_dep + sig_forall_dec + sig_not_dec; 1 sig_forall_dec |
| CavProps.v | 14 functional_extensionality_dep + sig_forall_dec + sig_not_dec |
| CcProps.v | 25 closed |
| CholProps.v | 19 closed |
| DispProps.v | 1 classic + functional_extensionality_dep + sig_forall_dec + sig_not_dec; 5 functional_extensionality_dep + sig_forall_dec + sig_not_dec |
| EBProps.v | 17 closed |
| EbsProps.v | 10 closed |
| FciProps.v | 25 closed |
| GrdProps.v | 10 closed |
| GwfProps.v | 29 closed |
| HopProps.v | 19 closed |
| HubProps.v | 8 closed |
| HypProps.v | 7 classic + functional_extensionality_dep + sig_forall_dec + sig_not_dec; 2 functional_extensionality_dep + sig_forall_dec + sig_not_dec; 1 sig_forall_dec |
| InfProps.v | 29 closed |
| IntsProps.v | 15 closed |
| KernProps.v | 19 closed |
| LinProps.v | 36 closed |
| MathProps.v | 28 closed |
| MdProps.v | 26 closed |
| MdtProps.v | 12 closed |
| MonProps.v | 2 closed; 4 classic + functional_extensionality_dep + sig_forall_dec + sig_not_dec; 19 functional_extensionality_dep + sig_forall_dec; 3 functional_extensionality_dep + sig_forall_dec + sig_not_dec |
| NnProps.v | 6 closed; 5 functional_extensionality_dep + sig_forall_dec |
| PccProps.v | 26 closed |
| PhaseProps.v | 1 closed; 10 classic + functional_extensionality_dep + sig_forall_dec + sig_not_dec; 4 functional_extensionality_dep + sig_forall_dec; 9 functional_extensionality_dep + sig_forall_dec + sig_not_dec; 1 sig_forall_dec |
| Pop2Props.v | 5 closed; 3 classic + functional_extensionality_dep + sig_forall_dec + sig_not_dec |
| PopFloatProps.v | 2 closed |
| PopProps.v | 21 closed |
| QccProps.v | 33 closed |
| QhfProps.v | 26 closed |
| ScfProps.v | 3 closed; 13 functional_extensionality_dep + sig_forall_dec; 3 functional_extensionality_dep + sig_forall_dec + sig_not_dec |
| SchedProps.v | 4 closed |
| ScqProps.v | 4 functional_extensionality_dep + sig_forall_dec; 10 functional_extensionality_dep + sig_forall_dec + sig_not_dec |
| ShProps.v | 24 closed |
| SpnDimProps.v | 2 closed |
| SpnProps.v | 6 closed |
| SrcProps.v | 1 closed; 11 classic + functional_extensionality_dep + sig_forall_dec + sig_not_dec; 2 functional_extensionality_dep + sig_forall_dec; 17 functional_extensionality_dep + sig_forall_dec + sig_not_dec; 4 sig_forall_dec |
| StatsProps.v | 6 functional_extensionality_dep + sig_forall_dec; 12 functional_extensionality_dep + sig_forall_dec + sig_not_dec |
| TbProps.v | 4 functional_extensionality_dep + sig_forall_dec; 14 functional_extensionality_dep + sig_forall_dec + sig_not_dec |
| TbsProps.v | 1 closed; 3 functional_extensionality_dep + sig_forall_dec; 4 functional_extensionality_dep + sig_forall_dec + sig_not_dec |
| VmcProps.v | 11 functional_extensionality_dep + sig_forall_dec |
| WalkProps.v | 18 closed |
| YbcProps.v | 15 closed |
| YeeProps.v | 18 closed |
<!-- end axioms -->

`coqchk -o` lists further constants under "Axioms" for files that import mathcomp,
such as fields of the sealed modules of `ssreflect`, `bigop`, `matrix` and the
interface modules of the standard library's reals.  They are constants whose body is
hidden behind a module type.  The bodies exist and were checked when those
libraries were compiled; `Print Assumptions` sees through the sealing and does not
list them.

## Modelled and not modelled

Conventions that hold everywhere:

* Arithmetic is exact (rationals, reals, an arbitrary field) unless a theorem is
  about floating point (`PopFloat*`, on `SpecFloat` doubles).  Rounding, overflow and
  NaN are otherwise not modelled.
* Printing, logging, timing, plotting and checkpoint files are left out.
* Array shapes are fixed by the types where the code does not depend on them.
  numpy's broadcasting is modelled only where a property is about it.
* A name that python cannot resolve, or an attribute that does not exist, is modelled
  as the exception python would raise.  This is a reading of the source, not a proof
  about an interpreter.

By area:

| area | source | simplifications and what is left out |
|------|--------|--------------------------------------|
| Pop, PopFloat, Pop2 | qmc/population_control.py | argsort is any sorting permutation.  C02, C09: the outcome tree of the coin flips is tied to the draws by a comment only.  C08: average over an equidistant grid of offsets.  The routines of C108 to C110 have no caller. |
| Walk | qmc/generic_walkers.py, qmc/qmc.py | ranks as lists, MPI reductions as sums.  The MPI transport itself is not modelled. |
| Sched | qmc/qmc.py, qmc/propagators.py | propagation and estimators are oracles. |
| Lin, Phase | qmc/propagators.py, estimators.py, trial.py, qmc.py, mqed/diis.py | QR, inverse and exponential are arguments with contracts.  `stack` with frequency 0 is not faithful.  `decoupled_field` joins several lines.  C26 assumes that inactive modes have zero coupling.  C73's call is commented out in the source. |
| EB | qmc/propagators.py, estimators.py, trial.py | real or field-valued coefficients. |
| Chol, Ints | qmc/tools.py, lib/ov_blocks.py, qmc/trial.py | integrals as functions; file parsing starts from records. |
| Stats, Acf | qmc/tools.py | the FFT is an argument with the convolution theorem proved from a primitive root; the real-valued routine is the direct sum. |
| Boson, Cav | lib/boson.py, mqed/scqedhf.py | scipy's `genlaguerre` is the textbook formula; broadcasting dropped; real coefficients; non-negative frequencies. |
| Qhf | mqed/qedhf.py | the photon operator `ph` and the switch `sw` are abstract; C48, C123 and C124 assume an empty cavity (`ph` = 0). |
| Scq | mqed/scqedhf.py, vtqedhf.py | one mode, dipole basis, real symmetric density matrices. |
| Scf | mqed/qedhf.py, scqedhf.py, diis.py | callback, logging and checkpoint left out; DIIS is any function. |
| Math | lib/mathlib.py, lib/scipy_helper.py, solvers/linalg.py | real arrays; `dpstrf` and `eigh` are arguments with contracts. |
| Fci | mqed/qedfci.py | pyscf's link tables are arguments; the constant 1e-100 is ignored. |
| Cc | mqed/ccsd.py | the driver only: the amplitude equations are an oracle here (area Qcc has them); `nfock2` = 0 is not faithful. |
| Hub | models/hubbard.py, hh_model.py | arbitrary hopping matrix; C137 assumes symmetric couplings. |
| Hop, Sh, Md | qmd/sh.py, mqc.py, bomd.py, propagator.py | one-dimensional energies; the electronic driver is an argument; a bare `Exception` is read as RuntimeError; for C169 the missing `next_velocity` is read as `next_velocity_many_molecule`; `reset_bo` left out; uniform draws and independent events are linked informally. |
| Nn | lib/hippynn_es_driver.py | network and automatic differentiation are arguments with a contract; import guards left out. |
| Agg | models/aggregates.py | Gaussian draws, `eig` and `argsort` are arguments; division by zero excluded. |
| Tb | qmc/trial_boson.py | shifts as lists, real amplitudes. |
| Inf | lib/logger.py, lib/misc.py, lib/backend.py, __mpi__.py | strings and tables only. |
| Kern | lib/qmclibs/src (trial, propagator, linalg, estimators) | reference semantics of BLAS and Eigen's inverse trusted; checks of `ndim` left out; square overlaps; aliasing of `phiw` not modelled; `ecoul` and the tensordot kernels are compared to a direct sum. |
| Disp | lib/qedlibs/qed.cpp, lib/qmclibs/src/qedhf.cpp | GSL's Laguerre function as a formula; arrays as index functions. |
| Yee | lib/fdtd/timeupdate.c, memory.c, sigma.c, parameter.c | sources not included; the layer profiles of sigma.c are parameters; imaginary fields use the same formulas; no periodic or mirror boundary in this area. |
| Ybc | lib/fdtd/timeupdate.c, parameter.c | cosine and sine of the Bloch phases are numbers with c^2 + s^2 = 1; one mirror plane at a time and real fields for C202; real coefficients and no molecular cells for C201; accesses outside the arrays are excluded by C203 only. |
| Src | lib/fdtd/sigma.c, source.c, incoherent.c, timeupdate.c (coefficients) | real arithmetic, pi exact (the code has 3.141592); a division by zero, or a power that is not finite, is None; of the source routines the Gaussian dipole, beam and plane wave and the Lorentzian amplitudes are modelled, not the line sources and focused beams; draws of the random dipoles are arguments. |
| Mon | lib/fdtd/output.c (reading of fields, periodic copies, metal weights), energy.c (fluxes, maximum), transmap.c | real arithmetic, pi exact; a float index becomes an int by dropping the fraction; the files written, the accumulation in time and the Fourier transforms are not modelled; 0.2 * n is taken as n / 5; of the flux monitors Poynting_block and the half sphere are left out. |
| Grd | lib/fdtd/parameter.c (non-uniform grid in z) | rational arithmetic; the arrays base_z and base_grid are arguments of a recursion over the layers; an array is a function with a checked range, a read outside it is an outcome. |
| Ebs | qmc/propagators.py (one whole step, electronic and coupled) | any numeric field; sqrt(dt) is the variable s; the matrix and scalar exponentials are arguments with a contract on the first terms of their series; averages over the fields are linear functionals with the first two moments; phaseless cosine, clipping and the decoupled treatment are left out. |
| Gwf | gwf/ga_sband.py (kernel, eig, get_occ and the methods of GASCF) | any real closed field; numpy's NaN is None; eigh, argsort, argmax and the diagonalisation of the quasiparticle Hamiltonian are arguments; printing, check files and the unused update_eb_ham are left out; ga_local.py, ga_dft.py and gpbc.py are stubs and not modelled. |
| Qcc | mqed/qedcc_equations.py, mqed/myqedcc_equations_opt.py (Imds, T1T2_opt, Sn, U1n_opt, U2n_opt) and the update of ccsd.py | each function is a list of statements of a small array language, generated line by line from the source by a script and kept as text; entries in any field, no rounding; the meaning of einsum, transpose and += is given once; the unused non-optimised copies in the optimised module, its energy routine and the functions of myqedcc_equations.py are left out; U2n[1] beyond its entry (0,0) stays zero as in the code. |
| Mdt | qmc/trial.py (multiCI, TrialHF.build, the methods of the three trial classes) | any field with a conjugation; the CASSCF expansion, the Lowdin matrix and the mean-field orbitals are arguments; one walker at a time. |
| Tbs | qmc/trial.py (electron numbers, initialize_boson_trial_with_z, make_trial), the start of the bosons in qmc.py | integers and the real numbers, no rounding; real displacements. |
| Pcc | lib/boson.py (get_mos, fock, hf_energy, g_fock, get_I, mfG, gint, get_gmat_so, get_integrals4fci, get_dipole_ao), the Coulomb and exchange matrices of qedhf.py | any field; real orbitals, as many orbitals as basis functions; the integral library, pyscf's splitting of block-diagonal densities and the value of add_oei_ao are arguments; two or more basis functions for the factor of the frequency. |

Not modelled at all: the other files of lib/fdtd (farfield.c, input.c,
metalobj.c, ...), lib/tensor++, qcsolvers, oqs, and the routines of the
files above that no comment cites.

## Mutation log

`seeded/LOG.jsonl` holds one line per attempt: the definition edited, the edit, the
claim it breaks and the theorems that failed.  A theorem counts as failed when its
proof, or the proof of a lemma it uses, no longer compiles after the edit.  The
harness replaces a broken lemma by an axiom in the scratch copy, goes on, and reports
every theorem that depends on such a lemma.  A lemma can therefore fail only because
its proof script is brittle.  The field on tightened theorems names those that were
strengthened after a mutant survived.
