(** Vocabulary for the neural-network driver. *)
From Coq Require Import Reals.
From Verif Require Import Base.
Open Scope R_scope.

(** move component k of a geometry by h *)
Definition bump (x : nat -> R) (k : nat) (h : R) : nat -> R :=
  fun k' => if Nat.eqb k' k then x k' + h else x k'.
(** move component k of molecule m of a batch by h *)
Definition bump_batch (r : nat -> nat -> R) (m k : nat) (h : R) : nat -> nat -> R :=
  fun m' => if Nat.eqb m' m then bump (r m') k h else r m'.
(** f gives the partial derivatives wherever they exist *)
Definition differentiates (ag : ((nat -> nat -> R) -> R) -> (nat -> nat -> R) -> nat -> nat -> R) : Prop :=
  forall g r m k l, derivable_pt_lim (fun h => g (bump_batch r m k h)) 0 l -> ag g r m k = l.
(** a quantity the network gives at a geometry in its own length unit [c] and
    in its own unit [u], as a function of the geometry in bohr *)
Definition in_bohr (q : (nat -> R) -> R) (c u : R) (x : nat -> R) : R := q (fun k => x k / c) * u.
