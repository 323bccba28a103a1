(** Properties of the bosonic trial wave functions: C66, C140, C141, C145. *)
From Coq Require Import Reals Lra List ZArith.
From Verif Require Import Base TbModel TbSpec TbProofs.
Import ListNotations.
Open Scope R_scope.

(** C66.  The undisplaced oscillator ground state has local energy zero at
    every configuration, in both representations. *)
Theorem C66_coordinate : forall m w Q, m <> 0 -> q_local_energy m w (repeat 0 (length Q)) Q = 0.
Proof. exact q_energy_zero. Qed.
Print Assumptions C66_coordinate.
Theorem C66_momentum : forall m w P, m <> 0 -> w <> 0 -> p_local_energy m w (repeat 0 (length P)) P = 0.
Proof. exact p_energy_zero. Qed.
Print Assumptions C66_momentum.
(** For any displacement the local energy is this linear function. *)
Theorem C66_displaced : forall m w s Q, m <> 0 -> length Q = length s ->
  q_local_energy m w s Q = m * w ^ 2 * rsum (zip (fun q c => c * (q - c / 2)) Q s).
Proof. exact q_energy_shift. Qed.
Print Assumptions C66_displaced.
Theorem C66_displaced_momentum : forall m w s P, m <> 0 -> w <> 0 -> length P = length s ->
  p_local_energy m w s P = / m * rsum (zip (fun q c => c * (q - c / 2)) P s).
Proof. exact p_energy_shift. Qed.
Print Assumptions C66_displaced_momentum.
Example C66_ex : q_local_energy 2 3 [1] [2] = 27.
Proof. rewrite C66_displaced by (lra || reflexivity). unfold rsum; cbn. lra. Qed.

(** C140.  gradient and laplacian are the logarithmic derivatives of the wave
    function, and the local energy times the wave function is the oscillator
    Hamiltonian applied to it. *)
Theorem C140_gradient : forall m w s Q i, length Q = length s -> (i < length Q)%nat ->
  partial (q_value m w s) Q i (nth i (q_gradient m w s Q) 0 * q_value m w s Q).
Proof. exact q_gradient_ok. Qed.
Print Assumptions C140_gradient.
Theorem C140_laplacian : forall m w s Q i, length Q = length s -> (i < length Q)%nat ->
  partial2 (q_value m w s) Q i (nth i (q_laplacian m w s Q) 0 * q_value m w s Q).
Proof. exact q_laplacian_ok. Qed.
Print Assumptions C140_laplacian.
Theorem C140_energy : forall m w s Q, m <> 0 -> length Q = length s ->
  exists L, length L = length Q /\ (forall i, (i < length Q)%nat -> partial2 (q_value m w s) Q i (nth i L 0)) /\
    q_local_energy m w s Q * q_value m w s Q =
      - (1 / (2 * m)) * rsum L + (1 / 2 * m * w ^ 2 * rsum (map (fun q => q * q) Q) - 1 / 2 * w * INR (length Q)) * q_value m w s Q.
Proof. exact q_energy_H. Qed.
Print Assumptions C140_energy.
Theorem C140_gradient_momentum : forall m w s P i, length P = length s -> (i < length P)%nat ->
  partial (p_value m w s) P i (nth i (p_gradient m w s P) 0 * p_value m w s P).
Proof. exact p_gradient_ok. Qed.
Print Assumptions C140_gradient_momentum.
Theorem C140_laplacian_momentum : forall m w s P i, length P = length s -> (i < length P)%nat ->
  partial2 (p_value m w s) P i (nth i (p_laplacian m w s P) 0 * p_value m w s P).
Proof. exact p_laplacian_ok. Qed.
Print Assumptions C140_laplacian_momentum.
Theorem C140_energy_momentum : forall m w s P, m <> 0 -> length P = length s ->
  exists L, length L = length P /\ (forall i, (i < length P)%nat -> partial2 (p_value m w s) P i (nth i L 0)) /\
    p_local_energy m w s P * p_value m w s P =
      - (m * w ^ 2 / 2) * rsum L + (1 / (2 * m) * rsum (map (fun q => q * q) P) - 1 / 2 * w * INR (length P)) * p_value m w s P.
Proof. exact p_energy_H. Qed.
Print Assumptions C140_energy_momentum.
Example C140_ex : q_gradient 2 3 [1; 0] [2; 5] = [-(2 * 3) * (2 - 1); -(2 * 3) * (5 - 0)].
Proof. reflexivity. Qed.

(** C141.  The coefficients are those of the eigenstate of the annihilation
    operator, with unit norm. *)
Theorem C141_eigenstate : forall n a, sqrt (INR (S n)) * coherent_state_coeff (S n) a = a * coherent_state_coeff n a.
Proof. exact coherent_eigen. Qed.
Print Assumptions C141_eigenstate.
Theorem C141_vacuum : forall a, coherent_state_coeff 0 a = exp (- (a * a) / 2).
Proof. exact coherent_zero. Qed.
Print Assumptions C141_vacuum.
Theorem C141_norm : forall a, infinite_sum (fun n => coherent_state_coeff n a * coherent_state_coeff n a) 1.
Proof. exact coherent_norm. Qed.
Print Assumptions C141_norm.
Example C141_ex : coherent_state_coeff 0 0 = 1.
Proof. rewrite C141_vacuum. replace (- (0 * 0) / 2) with 0 by lra. apply exp_0. Qed.

(** C145.  The Fock-space trial built from amplitudes: each basis state is
    stored at its own position as a product of coherent-state coefficients, the
    final assertion holds, and the norm does not exceed one. *)
Theorem C145_entry : forall n al nv psi, (length nv <= length al)%nat -> Forall (fun i => (i < n)%nat) nv ->
  fock_build (length nv) n (Some al) = Ok psi ->
  length psi = (n ^ length nv)%nat /\
  nth (fock_pos n nv) psi 0 = rprod (map (fun x => coherent_state_coeff (fst x) (snd x)) (combine nv al)).
Proof. exact fock_entry. Qed.
Print Assumptions C145_entry.
Theorem C145_succeeds : forall k n al, (k <= length al)%nat -> exists psi, fock_build k n (Some al) = Ok psi.
Proof. exact (fun k n al L => ex_intro _ _ (fock_build_ok k n al L)). Qed.
Print Assumptions C145_succeeds.
Theorem C145_norm_partial : forall n k al psi, fock_build k n (Some al) = Ok psi -> (k <= length al)%nat -> norm2 psi <= 1.
Proof. exact fock_norm_le. Qed.
Print Assumptions C145_norm_partial.
Theorem C145_short : forall k n al, (length al < k)%nat -> (0 < n)%nat -> fock_build k n (Some al) = Err IndexError.
Proof. exact fock_build_short. Qed.
Print Assumptions C145_short.
(** Without amplitudes the norm exceeds one. *)
Theorem C145_norm_refuted : exists k n psi, fock_build k n None = Ok psi /\ norm2 psi > 1.
Proof. exact fock_none_norm. Qed.
Print Assumptions C145_norm_refuted.
Example C145_ex : fock_pos 3 [1; 2]%nat = 5%nat /\ ndindex 2 2 = [[0; 0]; [0; 1]; [1; 0]; [1; 1]]%nat.
Proof. split; reflexivity. Qed.
