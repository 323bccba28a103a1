(** Properties of the photon-mode routines: C41-C44, C51, C113-C118. *)
From Coq Require Import Reals Lra.
From Verif Require Import Base BosonModel BosonSpec BosonProofs.
Open Scope R_scope.

(** C41.  Packing a symmetric matrix and unpacking it gives it back; with
    doubled off-diagonal elements and factor 2 as well. *)
Theorem C41_round_trip : forall n M, symmetric n M -> exists A U,
  pack_symmetric n n M = Ok A /\ List.length A = (n * (n + 1) / 2)%nat /\
  unpack_symmetric A n 1 = Ok U /\ forall i j, (i < n)%nat -> (j < n)%nat -> U i j = M i j.
Proof. exact round_trip. Qed.
Print Assumptions C41_round_trip.
Theorem C41_round_trip_doubled : forall n M, symmetric n M -> exists A U,
  pack_symmetric n n (fun i j => if (i =? j)%nat then M i j else 2 * M i j) = Ok A /\
  unpack_symmetric A n 2 = Ok U /\ forall i j, (i < n)%nat -> (j < n)%nat -> U i j = M i j.
Proof. exact round_trip2. Qed.
Print Assumptions C41_round_trip_doubled.
(** The packed index is symmetric and a bijection between the pairs j <= i < n
    and the numbers below n(n+1)/2. *)
Theorem C41_index : forall n i j, (i < n)%nat -> (j < n)%nat ->
  packed_index i j = packed_index j i /\ (packed_index i j < n * (n + 1) / 2)%nat.
Proof. exact (fun n i j Hi Hj => conj (packed_sym i j) (packed_bound n i j Hi Hj)). Qed.
Print Assumptions C41_index.
Theorem C41_bijection : forall n k, (k < n * (n + 1) / 2)%nat -> exists i j, (j <= i < n)%nat /\
  packed_index i j = k /\ forall i' j', (j' <= i')%nat -> packed_index i' j' = k -> i' = i /\ j' = j.
Proof. exact packed_onto. Qed.
Print Assumptions C41_bijection.
(** The element (i,j) is stored at its packed index. *)
Theorem C41_stored : forall n M i j, (j <= i < n)%nat -> exists A,
  pack_symmetric n n M = Ok A /\ nth_error A (packed_index i j) = Some (M i j).
Proof. exact pack_stored. Qed.
Print Assumptions C41_stored.
Theorem C41_dot : forall n M N, symmetric n M -> symmetric n N -> exists A B,
  pack_symmetric n n M = Ok A /\
  pack_symmetric n n (fun i j => if (i =? j)%nat then N i j else 2 * N i j) = Ok B /\ dot A B = full_dot n M N.
Proof. exact packed_dot. Qed.
Print Assumptions C41_dot.
(** A packed array that is too short is an IndexError, a non-square matrix an
    AssertionError. *)
Theorem C41_short : forall A n fac, (List.length A < n * (n + 1) / 2)%nat -> unpack_symmetric A n fac = Err IndexError.
Proof. exact unpack_short. Qed.
Print Assumptions C41_short.
Theorem C41_rectangular : forall r c M, r <> c -> pack_symmetric r c M = Err AssertionError.
Proof. exact pack_rect. Qed.
Print Assumptions C41_rectangular.
Example C41_ex : pack_symmetric 2 2 (fun i j => INR (i + j)) = Ok [INR 0; INR 1; INR 2] /\ packed_index 2 1 = 4%nat /\ packed_index 1 2 = 4%nat.
Proof. repeat split. Qed.

(** C42.  The derivative of the displacement factor is the value of the
    derivative routine minus a sum over neighbouring number states ... *)
Theorem C42_derivative_partial : forall mdim A pdm,
  derivable_pt_lim (fun A => displacement_exp_val mdim A pdm true) A
    (displacement_deriv_kernel mdim A pdm
     - exp (- (1/2) * A ^ 2) * sum_below (mdim - 1) (fun n => 2 * pdm (S n) n / sqrt (INR (S n)) * genlaguerre n 1 (A ^ 2))).
Proof. exact near_derivative. Qed.
Print Assumptions C42_derivative_partial.
(** ... so it is right when the density matrix does not couple neighbouring
    states ... *)
Theorem C42_parity_partial : forall mdim A pdm, (forall n, (S n < mdim)%nat -> pdm (S n) n = 0) ->
  derivable_pt_lim (fun A => displacement_exp_val mdim A pdm true) A (displacement_deriv_kernel mdim A pdm).
Proof. exact kernel_ok. Qed.
Print Assumptions C42_parity_partial.
(** ... and wrong in general. *)
Theorem C42_derivative_refuted : exists mdim A pdm, symmetric mdim pdm /\
  ~ derivable_pt_lim (fun A => displacement_exp_val mdim A pdm true) A (displacement_deriv_kernel mdim A pdm).
Proof. exact deriv_bad. Qed.
Print Assumptions C42_derivative_refuted.
Example C42_ex : displacement_deriv_kernel 2 1 (fun i j => if (i =? j)%nat then / 2 else 0) = - (3/2) * exp (- (1/2) * 1 ^ 2).
Proof. rewrite kernel2. cbn [Nat.eqb]. f_equal. lra. Qed.

(** C43.  The dressing factor is the same for (p,q) and (q,p) in the vacuum
    and for photon states of definite parity ... *)
Theorem C43_symmetric_partial : forall mdim ci F om eta p q, (mdim <= 1)%nat \/ parity mdim ci ->
  FC_factor mdim ci F om (diff1 eta 0 p q) = FC_factor mdim ci F om (diff1 eta 0 q p).
Proof. exact fc_sym. Qed.
Print Assumptions C43_symmetric_partial.
(** ... the two-body factor always under exchange of the electrons ... *)
Theorem C43_two_body_partial : forall mdim ci F om eta p q r s,
  FC_factor mdim ci F om (diff2 eta p q r s) = FC_factor mdim ci F om (diff2 eta r s p q) /\
  ((mdim <= 1)%nat \/ parity mdim ci ->
   FC_factor mdim ci F om (diff2 eta p q r s) = FC_factor mdim ci F om (diff2 eta q p s r)).
Proof. exact fc_sym2. Qed.
Print Assumptions C43_two_body_partial.
(** ... but not for general normalised amplitudes. *)
Theorem C43_symmetric_refuted : exists mdim ci F om eta p q, 0 < om /\ sum_below mdim (fun m => ci m ^ 2) = 1 /\
  FC_factor mdim ci F om (diff1 eta 0 p q) <> FC_factor mdim ci F om (diff1 eta 0 q p).
Proof. exact fc_bad. Qed.
Print Assumptions C43_symmetric_refuted.
Example C43_ex : exists ci, parity 3 ci /\ sum_below 3 (fun m => ci m ^ 2) = 1 /\ ci 0%nat <> 0 /\ ci 2%nat <> 0.
Proof.
  exists (fun m => match m with 0%nat => 3/5 | 2%nat => 4/5 | _ => 0 end). split; [|cbn; lra].
  intros m n H [k O]. destruct m as [|[|[|]]], n as [|[|[|]]]; try lia; try lra.
Qed.

(** C44.  The photon Hamiltonian is built, has the Hamiltonian of each mode on
    its diagonal blocks, nothing between modes, and is symmetric. *)
Theorem C44_blocks : forall nboson omega za Fa,
  List.length omega = List.length nboson -> List.length za = List.length nboson -> List.length Fa = List.length nboson ->
  exists H, get_bosonic_Ham (List.length nboson) nboson omega za Fa = Ok H /\
  (forall a b i j, (a < List.length nboson)%nat -> (b < List.length nboson)%nat -> (i < nth a nboson 0)%nat -> (j < nth b nboson 0)%nat ->
     H (offset nboson a + i)%nat (offset nboson b + j)%nat =
     if (a =? b)%nat then mode_hamiltonian (nth a omega 0) (nth a za 0) (nth a Fa 0) i j else 0) /\
  forall i j, H i j = H j i.
Proof. exact ham_ok. Qed.
Print Assumptions C44_blocks.
(** Without displacement and squeezing a block is diagonal with entries n omega. *)
Theorem C44_bare : forall om i j, mode_hamiltonian om 0 0 i j = if (i =? j)%nat then INR i * om else 0.
Proof. exact mode_plain. Qed.
Print Assumptions C44_bare.
(** More modes than Fock dimensions are an IndexError. *)
Theorem C44_short : forall k nboson omega za Fa, (List.length nboson < k)%nat ->
  get_bosonic_Ham k nboson omega za Fa = Err IndexError.
Proof. exact ham_short. Qed.
Print Assumptions C44_short.
Example C44_ex : exists H, get_bosonic_Ham 2 [2; 2]%nat [1; 2] [0; 0] [0; 0] = Ok H /\
  forall i j, (i < 4)%nat -> (j < 4)%nat -> H i j = if (i =? j)%nat then nth i [0; 1; 0; 2] 0 else 0.
Proof. exact ham_two. Qed.

(** C51.  The diagonal is z^{2m} m! up to normalisation (the factorials of the
    amplitudes multiply instead of divide) ... *)
Theorem C51_diagonal_partial : forall tr z nfock m, tr <> 0 -> (0 < nfock)%nat ->
  rho_b tr z nfock m m = z ^ (2 * m) * INR (fact m) / sum_below nfock (fun k => z ^ (2 * k) * INR (fact k)).
Proof. exact rho_b_diag. Qed.
Print Assumptions C51_diagonal_partial.
(** ... which is the Poisson distribution for at most two number states ... *)
Theorem C51_two_states_partial : forall tr z nfock m, tr <> 0 -> (0 < nfock <= 2)%nat -> (m < nfock)%nat ->
  rho_b tr z nfock m m = truncated_poisson z nfock m.
Proof. exact poisson_small. Qed.
Print Assumptions C51_two_states_partial.
(** ... and not beyond. *)
Theorem C51_poisson_refuted : exists tr z nfock m, 0 < tr /\ (m < nfock)%nat /\
  rho_b tr z nfock m m <> truncated_poisson z nfock m.
Proof. exact poisson_bad. Qed.
Print Assumptions C51_poisson_refuted.
Example C51_ex : rho_b 2 1 2 1 1 = 1/2.
Proof. rewrite rho_b_diag by (lra || lia). cbn. lra. Qed.

(** C113.  The packed and the direct evaluation of the displacement factor agree. *)
Theorem C113_agree : forall mdim A pdm scale, displacement_matrix mdim A pdm scale = Ok (displacement_exp_val mdim A pdm scale).
Proof. exact matrix_eq. Qed.
Print Assumptions C113_agree.
Example C113_ex : displacement_matrix 2 1 (fun i j => if (i =? j)%nat then INR (1 - i) else 0) true = Ok (exp (- (1/2) * 1 ^ 2)).
Proof. rewrite matrix_eq, exp_val_eq, plain2. unfold gauss. cbn [Nat.eqb Nat.sub INR]. f_equal. lra. Qed.

(** C114.  The matrix D(z) with elements [disp_op] is the displacement
    operator ... *)
Theorem C114_operator_partial : displacement_operator disp_op.
Proof. exact disp_op_ok. Qed.
Print Assumptions C114_operator_partial.
(** ... the routine sums 2 rho_mn D(-A)_mn over m > n, so its mean over A and
    -A is the expectation value of D(A) ... *)
Theorem C114_mean_partial : forall mdim A rho, symmetric mdim rho ->
  (displacement_exp_val mdim A rho true + displacement_exp_val mdim (- A) rho true) / 2 = expectation mdim rho (disp_op A).
Proof. exact exp_val_mean. Qed.
Print Assumptions C114_mean_partial.
(** ... and it is that expectation value for states of definite parity ... *)
Theorem C114_expectation_partial : forall mdim A rho, symmetric mdim rho -> no_odd mdim rho ->
  displacement_exp_val mdim A rho true = expectation mdim rho (disp_op A).
Proof. exact even_expectation. Qed.
Print Assumptions C114_expectation_partial.
(** ... but not in general. *)
Theorem C114_expectation_refuted : exists mdim A rho, symmetric mdim rho /\
  displacement_exp_val mdim A rho true <> expectation mdim rho (disp_op A).
Proof. exact expectation_bad. Qed.
Print Assumptions C114_expectation_refuted.
Example C114_ex : disp_op 1 1 0 = exp (- (1/2) * 1 ^ 2).
Proof. unfold disp_op. change (INR (fact 1)) with 1. change (INR (fact 0)) with 1. rewrite Rmult_1_l, sqrt_1. cbn [normal Nat.sub INR]. lra. Qed.

(** C115.  The eta derivative of the dressing factor is right in the vacuum ... *)
Theorem C115_vacuum_partial : forall mdim ci F om, (mdim <= 1)%nat -> exists G,
  (forall x, FC_factor mdim ci F om x = Ok (G x)) /\
  forall d, derivable_pt_lim G d (gaussian_derivative_vectorized mdim ci F om d).
Proof. exact fc_vac_deriv'. Qed.
Print Assumptions C115_vacuum_partial.
(** ... with several number states the factor e^F/omega is missing ... *)
Theorem C115_scaled_partial : forall mdim ci F om, (1 < mdim)%nat -> parity mdim ci -> exists G,
  (forall x, FC_factor mdim ci F om x = Ok (G x)) /\
  forall d, derivable_pt_lim G d (exp F / om * gaussian_derivative_vectorized mdim ci F om d).
Proof. exact fc_scaled_deriv'. Qed.
Print Assumptions C115_scaled_partial.
(** ... so that the derivative is wrong. *)
Theorem C115_derivative_refuted : exists mdim ci F om d, 0 < om /\ sum_below mdim (fun m => ci m ^ 2) = 1 /\ parity mdim ci /\
  exists G, (forall x, FC_factor mdim ci F om x = Ok (G x)) /\
  ~ derivable_pt_lim G d (gaussian_derivative_vectorized mdim ci F om d).
Proof. exact fc_grad_bad. Qed.
Print Assumptions C115_derivative_refuted.
Example C115_ex : gaussian_derivative_vectorized 1 (fun _ => 1) 0 1 1 = - exp (- (1/2) * 1 ^ 2).
Proof. unfold gaussian_derivative_vectorized. cbn [Nat.ltb Nat.leb]. rewrite exp_0. replace (1/1 * 1) with 1 by lra. lra. Qed.

(** C116.  The derivatives with respect to the squeezing parameter and to the
    displacement parameter f (eta = f x) are right in the vacuum and for
    states of definite parity; the squeezing routine uses the reversed
    difference of eta. *)
Theorem C116_squeezing_partial : forall mdim ci om d, (mdim <= 1)%nat \/ parity mdim ci -> exists G,
  (forall F, FC_factor mdim ci F om d = Ok (G F)) /\
  forall F, derivable_pt_lim G F (gaussian_derivative_sq mdim ci F om (- d)).
Proof. exact fc_sq_deriv'. Qed.
Print Assumptions C116_squeezing_partial.
Theorem C116_displacement_partial : forall mdim ci F om x, (mdim <= 1)%nat \/ parity mdim ci -> exists G,
  (forall f, FC_factor mdim ci F om (f * x) = Ok (G f)) /\
  forall f, f <> 0 -> derivable_pt_lim G f (gaussian_derivative_f mdim ci F om f (f * x)).
Proof. exact fc_f_deriv'. Qed.
Print Assumptions C116_displacement_partial.
Theorem C116_squeezing_refuted : exists mdim ci om d F, 0 < om /\ sum_below mdim (fun m => ci m ^ 2) = 1 /\
  exists G, (forall F, FC_factor mdim ci F om d = Ok (G F)) /\
  ~ derivable_pt_lim G F (gaussian_derivative_sq mdim ci F om (- d)).
Proof. exact fc_sq_bad. Qed.
Print Assumptions C116_squeezing_refuted.
Example C116_ex : gaussian_derivative_sq 1 (fun _ => 1) 0 1 2 = - 4 * exp (- (1/2) * 2 ^ 2).
Proof. unfold gaussian_derivative_sq. cbn [Nat.ltb Nat.leb]. rewrite exp_0. replace (1/1 * 2) with 2 by lra. lra. Qed.

(** C117.  Without displacement the dressing factor is the norm of the
    amplitudes read for the mode (1 for the vacuum) ... *)
Theorem C117_norm_partial : forall mdim ci F om,
  FC_factor mdim ci F om 0 = Ok (if (1 <? mdim)%nat then sum_below mdim (fun m => ci m ^ 2) else 1).
Proof. exact fc_at_zero. Qed.
Print Assumptions C117_norm_partial.
(** ... which is 1 for a single mode ... *)
Theorem C117_one_mode_partial : forall n H e c F om, (1 < n)%nat -> is_eigh n H e c ->
  FC_factor n (mode_coeff [n] c 0) F om 0 = Ok 1.
Proof. exact one_mode. Qed.
Print Assumptions C117_one_mode_partial.
(** ... but with two modes the amplitudes are read from a column that does not
    belong to the second mode, and its factor vanishes for every displacement. *)
Theorem C117_two_modes_refuted : exists nboson omega za Fa H, get_bosonic_Ham 2 nboson omega za Fa = Ok H /\
  forall e c, is_eigh 4 H e c -> forall d, FC_factor 2 (mode_coeff nboson c 1) 0 2 d = Ok 0.
Proof. exact second_mode. Qed.
Print Assumptions C117_two_modes_refuted.
(** Such an eigendecomposition exists. *)
Example C117_ex : exists e c, is_eigh 4 (fun i j => if (i =? j)%nat then nth i [0; 1; 0; 2] 0 else 0) e c.
Proof. exact two_mode_eigh. Qed.

(** C118.  The photon energy is the expectation value of the diagonal of the
    photon Hamiltonian ... *)
Theorem C118_energy : forall c modes za H, List.length za = List.length modes ->
  get_bosonic_Ham (List.length modes) (map (fun m => fst (fst m)) modes) (map (fun m => snd (fst m)) modes) za (map snd modes) = Ok H ->
  photon_energy c 0 modes =
  sum_below (offset (map (fun m => fst (fst m)) modes) (List.length modes)) (fun i => c i ^ 2 * H i i).
Proof. exact energy_modes. Qed.
Print Assumptions C118_energy.
(** ... and the squeezing gradient is its gradient. *)
Theorem C118_gradient : forall c l1 mdim om F l2,
  derivable_pt_lim (fun F => photon_energy c 0 (l1 ++ (mdim, om, F) :: l2)) F
    (nth (List.length l1) (photon_grad c 0 (l1 ++ (mdim, om, F) :: l2)) 0).
Proof. exact (fun c l1 mdim om F l2 => grad_modes c mdim om F l1 l2 0). Qed.
Print Assumptions C118_gradient.
Example C118_ex : photon_energy (fun i => nth i [0; 1; 1; 0] 0) 0 [(2%nat, 1, 0); (2%nat, 2, 0)] = 1.
Proof. cbn [photon_energy]. unfold mode_energy. rewrite !sumn_below, Rmult_0_r, cosh_0. cbn. lra. Qed.
