(** The conductivity as the file documents it (openms/maxwell/hyperbolic.py 13-21, 41-49 and 111-115). *)
From Coq Require Import Reals List.
Import ListNotations.
Local Open Scope R_scope.

Definition cadd (a b : R * R) : R * R := (fst a + fst b, snd a + snd b).
Definition cmul (a b : R * R) : R * R := (fst a * fst b - snd a * snd b, fst a * snd b + snd a * fst b).
(** [z] is weight * i / (w + i eta) *)
Definition is_drude (weight eta w : R) (z : R * R) : Prop := cmul z (w, eta) = (0, weight).
(** absorption above the transition frequency only *)
Definition theta (x : R) : R := if Rlt_dec 0 x then 1 else 0.
Definition interband (s w0 w : R) : R * R := (s * theta (w - w0), s * (ln (Rabs ((w - w0) / (w + w0))) / PI)).
(** squared angular frequency of the plasma: n e^2 / (epsilon0 m), SI units *)
Definition plasma2 (n e epsilon0 m : R) : R := n * e ^ 2 / (epsilon0 * m).
(** frequencies off the transitions *)
Definition off (w w0 : R) : Prop := w <> w0 /\ w <> - w0.
