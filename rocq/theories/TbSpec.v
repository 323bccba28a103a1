(** Vocabulary for the properties of the bosonic trial wave functions. *)
From Coq Require Import Reals List ZArith.
From Verif Require Import Base TbModel.
Import ListNotations.
Open Scope R_scope.

(** [l] is the partial derivative of [psi] in coordinate [i] at [Q] *)
Definition partial (psi : list R -> R) (Q : list R) (i : nat) (l : R) : Prop :=
  derivable_pt_lim (fun t => psi (upd Q i t)) (nth i Q 0) l.
(** [l] is its second partial derivative *)
Definition partial2 (psi : list R -> R) (Q : list R) (i : nat) (l : R) : Prop :=
  exists d, (forall t, derivable_pt_lim (fun u => psi (upd Q i u)) t (d t)) /\
    derivable_pt_lim d (nth i Q 0) l.

(** position of an occupation vector in the Fock basis: the number with these
    digits in base nfock *)
Definition fock_pos (nfock : nat) (nv : list nat) : nat :=
  fold_left (fun a n => (a * nfock + n)%nat) nv 0%nat.

Definition norm2 (v : list R) : R := rsum (map (fun x => x * x) v).
