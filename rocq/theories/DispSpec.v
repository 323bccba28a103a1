(** Vocabulary for the compiled dressing factors. *)
From Coq Require Import Reals.
Open Scope R_scope.
(** the lower triangle of a matrix, row by row *)
Definition packed (mdim : nat) (m : nat -> nat -> R) (s : nat -> R) : Prop :=
  forall i j, (j <= i < mdim)%nat -> s (i * (i + 1) / 2 + j)%nat = m i j.
