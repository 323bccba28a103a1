(** What the non-uniform grid is expected to do. *)
From Coq Require Import QArith Qabs ZArith List Permutation.
From Verif Require Import GrdModel.
Import ListNotations.
Local Open Scope Q_scope.

(** layers in order, each boundary on a grid point of the parts on both sides *)
Fixpoint aligned (lz : Z) (bz : Q) (l : list layer) : Prop :=
  match l with
  | [] => True
  | L :: r => (0 < lattice_nz L)%Z /\
      (exists n1 n2, (0 <= n1)%Z /\ (0 < n2)%Z /\
         (nz_start L - bz) * inject_Z lz == inject_Z n1 /\
         (nz_end L - nz_start L) * inject_Z (lattice_nz L) == inject_Z n2) /\
      aligned lz (nz_end L) r
  end.
(** the same without the boundaries on grid points *)
Fixpoint ordered (bz : Q) (l : list layer) : Prop :=
  match l with
  | [] => True
  | L :: r => (0 < lattice_nz L)%Z /\ bz <= nz_start L /\ nz_start L < nz_end L /\ ordered (nz_end L) r
  end.

Definition sorted (n : Z) (a : array) : Prop := forall p q, (0 <= p)%Z -> (p <= q)%Z -> (q < n)%Z -> start a p <= start a q.
Definition entries (n : Z) : list Z := map Z.of_nat (seq 0 (Z.to_nat n)).
Definition same_entries (n : Z) (a b : array) : Prop := Permutation (map a (entries n)) (map b (entries n)).
Definition whole_starts (n : Z) (a : array) : Prop := forall p, (0 <= p < n)%Z -> exists m, start a p == inject_Z m.
