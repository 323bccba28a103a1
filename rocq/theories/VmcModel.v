(** Model of openms/qmc/vmc.py: one iteration of variational Monte Carlo and its
    loop.  Real wave functions with an array of parameters; the ansatz, the
    Hamiltonian, the sampler and the optimiser are arguments, as in the code.
    Printing and the further observables are left out. *)
From Coq Require Import Reals List.
From Verif Require Import Base.
Import ListNotations.
Local Open Scope R_scope.

Definition rsum (l : list R) : R := fold_right Rplus 0 l.
(** numpy.mean *)
Definition mean (l : list R) : R := rsum l / INR (length l).

Section iteration.
Context {conf : Type}.
(** vmc.py 169-176: local energy and gradient of each configuration *)
Variables (eloc : conf -> R) (grad : conf -> nat -> R).
(** vmc.py 184 *)
Definition e_mean (cs : list conf) : R := mean (map eloc cs).
(** vmc.py 185 *)
Definition ok_mean (cs : list conf) (k : nat) : R := mean (map (fun c => grad c k) cs).
(** vmc.py 188: numpy.cov with bias=True divides by the number of samples *)
Definition s_mat (cs : list conf) (k l : nat) : R :=
  mean (map (fun c => (grad c k - ok_mean cs k) * (grad c l - ok_mean cs l)) cs).
(** vmc.py 189 *)
Definition g_vec (cs : list conf) (k : nat) : R :=
  mean (map (fun c => eloc c * grad c k) cs) - e_mean cs * ok_mean cs k.
(** vmc.py 184-189 for complex local energies and gradients, one parameter: real and
    imaginary part of mean(E O) - mean(E) mean(O), without conjugation *)
Definition g_complex (E O : conf -> R * R) (cs : list conf) : R * R :=
  (mean (map (fun c => fst (E c) * fst (O c) - snd (E c) * snd (O c)) cs)
   - (mean (map (fun c => fst (E c)) cs) * mean (map (fun c => fst (O c)) cs)
      - mean (map (fun c => snd (E c)) cs) * mean (map (fun c => snd (O c)) cs)),
   mean (map (fun c => fst (E c) * snd (O c) + snd (E c) * fst (O c)) cs)
   - (mean (map (fun c => fst (E c)) cs) * mean (map (fun c => snd (O c)) cs)
      + mean (map (fun c => snd (E c)) cs) * mean (map (fun c => fst (O c)) cs))).
End iteration.

(** The attributes which the loop reads: sampler, psi and opt *)
Record attrs := Attrs { has_sampler : bool; has_psi : bool; has_opt : bool }.
(** vmc.py 104-126: the constructor sets _ansatz, _sampler and _optimizer; there are
    properties ansatz and optimizer *)
Definition base_attrs : attrs := Attrs false false false.

Section loop.
Context {conf theta : Type}.
Variables (eloc : theta -> conf -> R) (grad : theta -> conf -> nat -> R).
(** samples drawn with the current parameters in iteration number [it] *)
Variable sample : nat -> theta -> list conf.
(** the optimiser's update *)
Variable step : theta -> (nat -> nat -> R) -> (nat -> R) -> theta.
(** vmc.py 162-192 *)
Definition iteration (a : attrs) (it : nat) (t : theta) : res theta :=
  if negb (has_sampler a) then Err AttributeError
  else if negb (has_psi a) then Err AttributeError
  else if negb (has_opt a) then Err AttributeError
  else Ok (step t (s_mat (grad t) (sample it t)) (g_vec (eloc t) (grad t) (sample it t))).
(** vmc.py 156-199: parameters after the loop; nothing is returned to the caller *)
Fixpoint kernel_from (a : attrs) (it n : nat) (t : theta) : res theta :=
  match n with
  | O => Ok t
  | S m => match iteration a it t with Ok t' => kernel_from a (S it) m t' | Err e => Err e end
  end.
Definition kernel (a : attrs) (n_iter : nat) (t : theta) : res theta := kernel_from a 0 n_iter t.
End loop.
(** vmc.py 134-137: the energy offered to the caller, a constant *)
Definition energy_property (history : list R) : R := 0.
(** vmc.py 109 and 125-128: the counter is set in the constructor and by nothing else *)
Definition step_count (n_iter : nat) : nat := 0.
