(** Model of openms/spindy/spin.py: the dimension of a spin and the list of spins of
    a system.  Rational numbers, no rounding. *)
From Coq Require Import QArith Qround ZArith List.
Import ListNotations.
Local Open Scope Q_scope.

(** spin.py 154: int(spin * 2 + 1 + 1e-8); [int] cuts towards zero *)
Definition ndim (spin : Q) : Z :=
  let x := spin * (2 # 1) + (1 # 1) + (1 # 100000000) in
  if Qle_bool 0 x then Qfloor x else Qceiling x.
(** spin.py 205-221: [spin] is an argument of the constructor and never reaches the
    attribute, which stays as it was set at 211; the result is spins and size *)
Definition new_system (spin : option (list Q)) : list Q * nat :=
  let at_spin := [1 # 2] in (at_spin, length at_spin).
