(** Specification vocabulary for the schedule properties. *)
From Verif Require Import Base SchedModel.
Open Scope Q_scope.

Definition is_ortho (e : event) := match e with Ortho => true | _ => false end.
Definition is_prop (e : event) := match e with Propagate _ => true | _ => false end.
Definition is_rec (e : event) := match e with Record_ _ => true | _ => false end.

(** Sum over a window of steps and over the ranks. *)
Definition window (hist : list (list row)) : row := rowsum (map rowsum hist).

