(** Vocabulary for the lattice and surface-hopping properties. *)
From Verif Require Import Base HopModel.
Open Scope Z_scope.

(** sites i and j of a chain of L sites are joined by a bond *)
Definition bonded (bc : bcond) (L i j : nat) : Prop :=
  (j = i + 1 \/ i = j + 1 \/ (bc = Periodic /\ L <> 1 /\ ((i = 0 /\ j = L - 1) \/ (j = 0 /\ i = L - 1))))%nat.
(** t is v on the bonds of the chain and 0 elsewhere *)
Definition hopping (bc : bcond) (L : nat) (v : Z) (t : mat) : Prop :=
  forall i j, (i < L)%nat -> (j < L)%nat ->
    (bonded bc L i j -> t i j = v) /\ (~ bonded bc L i j -> t i j = 0).
Definition symmetric (L : nat) (t : mat) : Prop :=
  forall i j, (i < L)%nat -> (j < L)%nat -> t i j = t j i.
Definition same (L : nat) (s t : mat) : Prop :=
  forall i j, (i < L)%nat -> (j < L)%nat -> s i j = t i j.

(** the repulsion U acts between two electrons on one of the L sites *)
Definition onsite (L : nat) (U : Q) (v : nat -> nat -> nat -> nat -> Q) : Prop :=
  forall i j k l, (i < L)%nat -> (j < L)%nat -> (k < L)%nat -> (l < L)%nat ->
    v i j k l = if (Nat.eqb i j && Nat.eqb j k && Nat.eqb k l)%bool then U else 0%Q.

(** adiabatic Hamiltonian: energies on the diagonal, couplings antisymmetric *)
Definition diag_ok (n : nat) (e : list Q) (h : hmat) : Prop :=
  forall j, (j < n)%nat -> nth_error e j = Some (h j j).
Definition antisym (n : nat) (h : hmat) : Prop :=
  forall j k, (j < n)%nat -> (k < n)%nat -> j <> k -> (h k j == - h j k)%Q.
(** rate of change of the population sum_j |c_j|^2 *)
Definition norm_rate (n : nat) (c dc : nat -> cplx) : Q :=
  (2 * qsum (map (fun j => fst (c j) * fst (dc j) + snd (c j) * snd (dc j)) (seq 0 n)))%Q.
