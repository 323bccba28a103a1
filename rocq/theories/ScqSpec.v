(** Vocabulary for the strong-coupling QED-HF energy. *)
From Coq Require Import Reals.
From Verif Require Import Base BosonSpec.
Open Scope R_scope.

Definition sum2 (n : nat) (f : nat -> nat -> R) : R := sum_below n (fun p => sum_below n (fun q => f p q)).
Definition sum4 (n : nat) (f : nat -> nat -> nat -> nat -> R) : R :=
  sum2 n (fun p q => sum2 n (fun r s => f p q r s)).

(** permutational symmetry of real two-electron integrals *)
Definition eri_sym (eri : nat -> nat -> nat -> nat -> R) : Prop :=
  forall p q r s, eri p q r s = eri r s p q /\ eri p q r s = eri q p r s.
Definition sym (M : nat -> nat -> R) : Prop := forall p q, M p q = M q p.
Definition even (G : R -> R) : Prop := forall x, G (- x) = G x.
(** dG is the derivative of G *)
Definition deriv (G dG : R -> R) : Prop := forall x, derivable_pt_lim G x (dG x).

(** energy of the transformed Hamiltonian in a closed-shell determinant with
    density D: one-electron part, dipole self-energy of g - eta, and Coulomb
    minus half exchange with the factor of eta_p - eta_q + eta_r - eta_s *)
Definition expected_energy (n : nat) (D h : nat -> nat -> R) (eri : nat -> nat -> nat -> nat -> R) (om : R)
    (G : R -> R) (g eta : nat -> R) : R :=
  let d := fun p => g p - eta p in
  sum2 n (fun p q => h p q * G (eta p - eta q) * D p q)
  + (sum_below n (fun p => d p ^ 2 * D p p)
     + sum2 n (fun p q => d p * d q * (D p p * D q q - 1/2 * D p q ^ 2))) / om
  + 1/2 * sum4 n (fun p q r s => (eri p q r s - 1/2 * eri p s r q) * G (eta p - eta q + eta r - eta s) * D p q * D r s).

(** replace entry p *)
Definition set_at (eta : nat -> R) (p : nat) (x : R) : nat -> R := fun k => if (k =? p)%nat then x else eta k.

(** photon states for which the dressing factors are even: the vacuum alone, or
    a normalised state of definite parity *)
Definition good_state (mdim : nat) (ci : nat -> R) : Prop :=
  (mdim <= 1)%nat \/ (parity mdim ci /\ sum_below mdim (fun m => ci m ^ 2) = 1).
