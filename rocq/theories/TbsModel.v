(** Model of the numbers of electrons (openms/qmc/trial.py:622-690), of the
    bosonic part of the trial (trial.py:606-620 and 1320-1336) and of the
    displacement with which a run sets it up (openms/qmc/qmc.py:454-458).
    Real displacements; the lists of displacements and of Fock dimensions
    have the same length. *)
From Coq Require Import Reals List ZArith.
From Verif Require Base.
Import ListNotations.
Local Open Scope R_scope.

(** trial.py:659-675; [N] the number of electrons, [s] is [mol.spin] *)
Definition electrons (N s : Z) : Base.res (Z * Z) :=
  let nalpha := ((N + s) / 2)%Z in
  let nbeta := (nalpha - s)%Z in
  if ((0 <=? nalpha) && (0 <=? nbeta))%Z%bool
  then if (nalpha + nbeta =? N)%Z then Base.Ok (nalpha, nbeta) else Base.Err Base.RuntimeError
  else Base.Err Base.AssertionError.

(** trial.py:615-616 *)
Definition coeff (alpha : R) (n : nat) : R :=
  exp (- Rabs alpha ^ 2 / 2) * alpha ^ n / sqrt (INR (fact n)).
(** 612-617: the modes one after the other *)
Definition raw (zs : list R) (ns : list nat) : list R :=
  flat_map (fun zn => map (coeff (fst zn)) (seq 0 (snd zn))) (combine zs ns).
(** 619-620 *)
Definition norm (l : list R) : R := sqrt (fold_right (fun c s => Rabs c ^ 2 + s) 0 l).
Definition normalise (l : list R) : list R := map (fun c => c / norm l) l.
Definition boson_psi (zs : list R) (ns : list nat) : list R := normalise (raw zs ns).

(** 1332-1334, the trial of [make_trial] *)
Definition default_psi (ns : list nat) : list R :=
  normalise (flat_map (fun n => map (fun k => exp (- INR k)) (seq 0 n)) ns).

(** generic_walkers.py:313-320: the entries of mode [m] *)
Definition block (ns : list nat) (m : nat) (l : list R) : list R :=
  firstn (nth m ns 0%nat) (skipn (fold_right Nat.add 0%nat (firstn m ns)) l).

(** qmc.py:455 [einsum("Xpq, pq->X", geb, Gf[0])], one mode, [d] basis functions *)
Fixpoint rsum (k : nat) (f : nat -> R) : R :=
  match k with O => 0 | S j => rsum j f + f j end.
Definition zalpha (d : nat) (geb Gup : nat -> nat -> R) : R :=
  rsum d (fun p => rsum d (fun q => geb p q * Gup p q)).
