(** What the QED-HF mean field should compute. *)
From mathcomp Require Import all_ssreflect all_algebra.
From Verif Require Import QhfModel.
Set Implicit Arguments.
Unset Strict Implicit.
Unset Printing Implicit Defensive.
Import GRing.Theory Num.Theory.
Local Open Scope ring_scope.

Section QhfSpec.
Variables (F : realFieldType) (n m : nat).
Local Notation M := 'M[F]_n.
Definition sym (a : M) : Prop := a^T = a.
(** expectation values in a closed-shell determinant with density matrix D
    (Wick's theorem): of the one-electron operator g and of its square, whose
    one-electron part has the matrix q *)
Definition mean (D g : M) : F := \tr (D *m g).
Definition second_moment (D g q : M) : F := \tr (D *m q) + mean D g ^+ 2 - 2%:R^-1 * \tr (D *m g *m D *m g).
Definition fluctuation (D g q : M) : F := 2%:R^-1 * (second_moment D g q - mean D g ^+ 2).
(** closed-shell density with N electrons in a basis with overlap S *)
Definition closed_shell (S : M) (N : F) (D : M) : Prop := [/\ sym D, D *m S *m D = 2%:R *: D & \tr (S *m D) = N].
(** the matrix of the squared dipole used by the code *)
Definition square_matrix (q : qed F n m) (sinv : M) (a : 'I_m) : M :=
  if complete_basis q then - q_lambda q a else gmat q a *m sinv *m gmat q a.
(** the photon object after moving the origin: each coupling g becomes g + c S and
    the matrix of its square q becomes q + 2 c g + c^2 S *)
Definition moved (S : M) (c : 'I_m -> F) (q : qed F n m) : qed F n m :=
  Qed_ (fun a => gmat q a + c a *: S)
       (fun a => q_lambda q a - ((2%:R * c a) *: gmat q a + c a ^+ 2 *: S))
       (z_alpha q) (couplings_var q) (couplings_res q) (add_dse q) (complete_basis q) (use_cs q) (e_boson q) (sw q) (ph q).
(** additive Coulomb/exchange builder *)
Definition additive (f : M -> M * M) : Prop := forall a b, (f (a - b)).1 = (f a).1 - (f b).1 /\ (f (a - b)).2 = (f a).2 - (f b).2.
(** the photon object with <b + b^+> = 0 in every mode *)
Definition without_photons (q : qed F n m) : qed F n m :=
  Qed_ (gmat q) (q_lambda q) (z_alpha q) (couplings_var q) (couplings_res q) (add_dse q) (complete_basis q)
       (use_cs q) (e_boson q) (sw q) (fun _ => 0).
(** the photon object at another value of the variational parameter *)
Definition with_f (q : qed F n m) (f : 'I_m -> F) : qed F n m :=
  Qed_ (gmat q) (q_lambda q) (z_alpha q) f (fun a => 1 - f a) (add_dse q) (complete_basis q) (use_cs q) (e_boson q) (sw q) (ph q).
(** the photon object with the other treatment of the squared dipole *)
Definition with_basis (q : qed F n m) (b : bool) : qed F n m :=
  Qed_ (gmat q) (q_lambda q) (z_alpha q) (couplings_var q) (couplings_res q) (add_dse q) b (use_cs q) (e_boson q) (sw q) (ph q).
(** Coulomb, exchange and effective potential of a density: the electronic
    part plus, with the dipole self energy, (g.D) g and g D g of each mode *)
Definition want_j (bare : M -> M * M) (q : qed F n m) (D : M) : M :=
  (bare D).1 + (if add_dse q then \sum_a mean D (gmat q a) *: gmat q a else 0).
Definition want_k (bare : M -> M * M) (q : qed F n m) (D : M) : M :=
  (bare D).2 + (if add_dse q then \sum_a gmat q a *m D *m gmat q a else 0).
Definition want_veff (bare : M -> M * M) (q : qed F n m) (D : M) : M :=
  want_j bare q D - 2%:R^-1 *: want_k bare q D.
End QhfSpec.
