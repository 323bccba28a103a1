(** What the weight update, the force-bias bound and the reductions should do. *)
From Coq Require Import Reals List.
Import ListNotations.
Open Scope R_scope.

(** Projection of a complex number (x,y) on the disc of radius b. *)
Definition is_projection (b x y x' y' : R) : Prop :=
  (x * x + y * y <= b * b -> x' = x /\ y' = y) /\
  (b * b < x * x + y * y ->
   x' * x' + y' * y' = b * b /\ exists k, 0 < k /\ x' = k * x /\ y' = k * y).

(** Weighted mean over the walkers of all ranks: numerator and denominator. *)
Definition total {X : Type} (f : X -> R) (ranks : list (list X)) : R :=
  fold_right Rplus 0 (map f (concat ranks)).
