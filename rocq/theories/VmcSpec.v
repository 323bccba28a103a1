(** Expectations in a real wave function on finitely many configurations. *)
From Coq Require Import Reals List.
Import ListNotations.
Local Open Scope R_scope.

Section spec.
Context {conf : Type}.
Fixpoint total (l : list conf) (f : conf -> R) : R := match l with [] => 0 | c :: r => f c + total r f end.
(** <psi|psi> and <psi|H|psi> *)
Definition norm (all : list conf) (psi : conf -> R) : R := total all (fun c => psi c * psi c).
Definition ham (all : list conf) (H : conf -> conf -> R) (psi : conf -> R) : R :=
  total all (fun c => total all (fun d => psi c * H c d * psi d)).
Definition energy (all : list conf) (H : conf -> conf -> R) (psi : conf -> R) : R := ham all H psi / norm all psi.
(** samples without statistical error: every configuration as often as its probability *)
Definition faithful (all : list conf) (psi : conf -> R) (cs : list conf) : Prop :=
  exists k, 0 < k /\ forall f, total cs f = k * total all (fun c => psi c * psi c * f c).
(** <c|H|psi> / <c|psi> *)
Definition local_energy (all : list conf) (H : conf -> conf -> R) (psi : conf -> R) (c : conf) : R :=
  total all (fun d => H c d * psi d) / psi c.
End spec.
(** sums over parameters *)
Fixpoint psum (n : nat) (f : nat -> R) : R := match n with O => 0 | S m => psum m f + f m end.
(** gradient of the energy of a complex wave function with a real parameter,
    2 Re (<E O*> - <E><O*>), from the averages of the samples *)
Definition average {conf} (cs : list conf) (f : conf -> R) : R := total cs f / INR (length cs).
Definition complex_gradient {conf} (E O : conf -> R * R) (cs : list conf) : R :=
  2 * (average cs (fun c => fst (E c) * fst (O c) + snd (E c) * snd (O c))
       - (average cs (fun c => fst (E c)) * average cs (fun c => fst (O c))
          + average cs (fun c => snd (E c)) * average cs (fun c => snd (O c)))).
