(** What the photon-mode routines should compute. *)
From Coq Require Import Reals.
From Verif Require Import Base.
Open Scope R_scope.

Fixpoint sum_below (n : nat) (f : nat -> R) : R := match n with O => 0 | S k => sum_below k f + f k end.
Definition symmetric (n : nat) (M : nat -> nat -> R) : Prop :=
  forall i j, (i < n)%nat -> (j < n)%nat -> M i j = M j i.
Definition full_dot (n : nat) (M N : nat -> nat -> R) : R :=
  sum_below n (fun i => sum_below n (fun j => M i j * N i j)).

(** D(z) is the displacement operator exp(z (b^+ - b)) in the number basis:
    it is the identity at 0 and its derivative is (b^+ - b) D(z). *)
Definition displacement_operator (D : R -> nat -> nat -> R) : Prop :=
  (forall m n, D 0 m n = if (m =? n)%nat then 1 else 0) /\
  (forall z m n, derivable_pt_lim (fun z => D z m n) z
    (sqrt (INR m) * D z (m - 1)%nat n - sqrt (INR (S m)) * D z (S m) n)).
(** Its matrix elements exp(-z^2/2) <m| exp(z b^+) exp(-z b) |n>; [normal]
    is sqrt(m! n!) <m| exp(z b^+) exp(-z b) |n>, by the commutation rule
    b exp(z b^+) = exp(z b^+) (b + z). *)
Fixpoint normal (m n : nat) (z : R) : R :=
  match m with
  | O => (- z) ^ n
  | S k => z * normal k n z + INR n * normal k (n - 1) z
  end.
Definition disp_op (z : R) (m n : nat) : R :=
  exp (- (1/2) * z ^ 2) * normal m n z / sqrt (INR (fact m) * INR (fact n)).
Definition expectation (mdim : nat) (rho : nat -> nat -> R) (D : nat -> nat -> R) : R := full_dot mdim rho D.

(** density matrices without elements between states of different parity, and
    amplitudes of a state of definite parity *)
Definition no_odd (mdim : nat) (rho : nat -> nat -> R) : Prop :=
  forall m n, (n < m < mdim)%nat -> Nat.Odd (m - n) -> rho m n = 0.
Definition parity (mdim : nat) (ci : nat -> R) : Prop :=
  forall m n, (n < m < mdim)%nat -> Nat.Odd (m - n) -> ci m * ci n = 0.

(** number of states before mode a *)
Fixpoint offset (dims : list nat) (a : nat) : nat :=
  match a, dims with S k, d :: r => (d + offset r k)%nat | _, _ => 0%nat end.

(** what scipy.linalg.eigh returns: an orthogonal matrix of eigenvectors and
    ascending eigenvalues *)
Definition is_eigh (n : nat) (H : nat -> nat -> R) (e : nat -> R) (c : nat -> nat -> R) : Prop :=
  (forall i k, (i < n)%nat -> (k < n)%nat -> sum_below n (fun j => H i j * c j k) = e k * c i k) /\
  (forall k l, (k < n)%nat -> (l < n)%nat -> sum_below n (fun i => c i k * c i l) = if (k =? l)%nat then 1 else 0) /\
  (forall i j, (i < n)%nat -> (j < n)%nat -> sum_below n (fun k => c i k * c j k) = if (i =? j)%nat then 1 else 0) /\
  (forall k l, (k <= l)%nat -> (l < n)%nat -> e k <= e l).

(** probability of m photons in a coherent state of amplitude z, cut at n *)
Definition poisson (z : R) (m : nat) : R := exp (- z ^ 2) * z ^ (2 * m) / INR (fact m).
Definition truncated_poisson (z : R) (n m : nat) : R := poisson z m / sum_below n (poisson z).

(** one mode of the mean-field photon Hamiltonian
    om (cosh 2F n + sinh^2 F) + z (b^+ + b) in the number basis *)
Definition mode_hamiltonian (om z F : R) (i j : nat) : R :=
  if (i =? j)%nat then om * (INR i * cosh (2 * F) + sinh F ^ 2)
  else if (j =? S i)%nat then z * sqrt (INR (S i)) else if (i =? S j)%nat then z * sqrt (INR (S j)) else 0.
