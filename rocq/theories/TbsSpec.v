(** What the bosonic trial should be, stated without the code's formulas. *)
From Coq Require Import Reals List.
Import ListNotations.
Local Open Scope R_scope.

(** <v|v> and <v|b + b^T|v> for amplitudes of the Fock states k, k+1, ... *)
Fixpoint length2 (v : list R) : R :=
  match v with [] => 0 | c :: r => c * c + length2 r end.
Fixpoint displacement (k : nat) (v : list R) : R :=
  match v with
  | c :: ((c' :: _) as r) => 2 * (sqrt (INR (S k)) * c * c') + displacement (S k) r
  | _ => 0
  end.

(** Energy of a mode of frequency [w] in the coherent state of amplitude [z]
    coupled by [g (b^dagger + b)]. *)
Definition mode_energy (w g z : R) : R := w * (z * z) + g * (2 * z).

(** Expectation value of a one-body operator for two spins. *)
Fixpoint total (n : nat) (f : nat -> R) : R :=
  match n with O => 0 | S m => f m + total m f end.
Definition expectation (d : nat) (h Gup Gdn : nat -> nat -> R) : R :=
  total d (fun p => total d (fun q => h p q * (Gup p q + Gdn p q))).
