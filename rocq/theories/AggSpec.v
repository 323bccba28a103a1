(** Vocabulary for the aggregate model: the exciton chain, what numpy's
    eigensolver and argsort return, spectra. *)
From mathcomp Require Import all_ssreflect all_algebra.
Set Implicit Arguments.
Unset Strict Implicit.
Unset Printing Implicit Defensive.
Import GRing.Theory Num.Theory.
Local Open Scope ring_scope.

Section Spec.
Variable F : realFieldType.

(** Hamiltonian of a chain with site energies [e] and hopping [t] *)
Definition chain (e : nat -> F) (t : F) (i j : nat) : F :=
  if i == j then e i else if (j == i.+1) || (i == j.+1) then t else 0.

(** zero except on the diagonal and next to it *)
Definition clean (n : nat) (a : nat -> nat -> F) : Prop :=
  forall p q, (p < n)%N -> (q < n)%N -> p != q -> q != p.+1 -> p != q.+1 -> a p q = 0.

(** np.linalg.eig on an n x n matrix: eigenvectors in the columns, normalised
    and linearly independent *)
Definition eig_ok (n : nat) (a : nat -> nat -> F) (wv : (nat -> F) * (nat -> nat -> F)) : Prop :=
  [/\ forall i u, (i < n)%N -> (u < n)%N -> \sum_(k < n) a i k * wv.2 k u = wv.1 u * wv.2 i u,
      forall u, (u < n)%N -> \sum_(k < n) wv.2 k u ^+ 2 = 1 &
      (\matrix_(i < n, j < n) wv.2 i j) \in unitmx].
(** argsort of the first n values *)
Definition argsort_ok (n : nat) (f : nat -> F) (s : seq nat) : Prop :=
  perm_eq s (iota 0 n) /\ sorted (fun i j => f i <= f j) s.

Definition delta (i j : nat) : F := (i == j)%:R.
(** eigenpairs of the chain, in increasing order, with orthonormal vectors *)
Definition solves (n : nat) (e : nat -> F) (t : F) (w : nat -> F) (v : nat -> nat -> F) : Prop :=
  [/\ forall i u, (i < n)%N -> (u < n)%N -> \sum_(k < n) chain e t i k * v k u = w u * v i u,
      forall u u', (u <= u')%N -> (u' < n)%N -> w u <= w u' &
      (forall u u', (u < n)%N -> (u' < n)%N -> \sum_(k < n) v k u * v k u' = delta u u') /\
      (forall i j, (i < n)%N -> (j < n)%N -> \sum_(u < n) v i u * v j u = delta i j)].

(** transition dipole of state u for unit dipoles on all sites *)
Definition strength (n : nat) (v : nat -> nat -> F) (u : nat) : F := (\sum_(j < n) v j u) ^+ 2.
(** Lorentzian line *)
Definition lorentz (gamma x : F) : F := gamma / (x ^+ 2 + gamma ^+ 2).
End Spec.
