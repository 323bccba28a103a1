(** Model of the bosonic trial wave functions, openms/qmc/trial_boson.py.
    Real numbers; a configuration is a list of coordinates.  The shift is a
    list of the same length: the scalar default of the constructors (246, 299)
    is the constant list (numpy broadcasting is not modelled).  Coherent-state
    amplitudes are real: TrivialFock.build stores them in a real array (177). *)
From Coq Require Import Reals List ZArith.
From Verif Require Import Base.
Import ListNotations.
Open Scope R_scope.

Definition rsum (l : list R) : R := fold_right Rplus 0 l.
Definition rprod (l : list R) : R := fold_right Rmult 1 l.
(** elementwise operation on two arrays of equal length *)
Fixpoint zip (f : R -> R -> R) (a b : list R) : list R :=
  match a, b with x :: a', y :: b' => f x y :: zip f a' b' | _, _ => [] end.

(** * TrialQ (239-289); [m] mass, [w] freq, mw = m * w (247) *)
Definition q_gradient (m w : R) (s Q : list R) : list R :=
  zip (fun q c => - (m * w) * (q - c)) Q s.                             (* 253-255 *)
Definition q_value (m w : R) (s Q : list R) : R :=
  rprod (zip (fun q c => exp (- (1 / 2) * (m * w) * (q - c) * (q - c))) Q s).   (* 257-259 *)
Definition q_laplacian (m w : R) (s Q : list R) : list R :=
  zip (fun q c => (m * w * (q - c)) ^ 2 - m * w) Q s.                   (* 261-268 *)
Definition q_local_energy (m w : R) (s Q : list R) : R :=               (* 270-289 *)
  let kin := - (1 / 2) * rsum (q_laplacian m w s Q) / m in
  let pot := (1 / 2) * (m * w) * w * rsum (map (fun q => q * q) Q) in
  kin + pot - (1 / 2) * w * INR (length Q).

(** * TrialP (292-335) *)
Definition p_gradient (m w : R) (s P : list R) : list R :=
  zip (fun p c => - 1 / (m * w) * (p - c)) P s.                         (* 303-304 *)
Definition p_value (m w : R) (s P : list R) : R :=
  rprod (zip (fun p c => exp (- (1 / 2) / (m * w) * (p - c) * (p - c))) P s).   (* 306-311 *)
Definition p_laplacian (m w : R) (s P : list R) : list R :=
  zip (fun p c => ((p - c) / (m * w)) ^ 2 - 1 / (m * w)) P s.           (* 313-320 *)
Definition p_local_energy (m w : R) (s P : list R) : R :=               (* 322-335 *)
  let kin := (1 / 2) / m * rsum (map (fun p => p * p) P) in
  let pot := - (1 / 2) * (m * w) * w * rsum (p_laplacian m w s P) in
  kin + pot - (1 / 2) * w * INR (length P).

(** * coherent_state_coeff (94-97) *)
Definition coherent_state_coeff (n : nat) (alpha : R) : R :=
  exp (- (Rabs alpha ^ 2) / 2) * alpha ^ n / sqrt (INR (fact n)).

(** * TrivialFock (158-187) *)
(** np.ndindex of [k] axes of length [n]: last index fastest (178) *)
Fixpoint ndindex (n k : nat) : list (list nat) :=
  match k with
  | O => [[]]
  | S k' => flat_map (fun i => map (cons i) (ndindex n k')) (seq 0 n)
  end.
(** coefficient of one occupation vector (179-184): alpha[i] raises when
    there are fewer amplitudes than modes *)
Fixpoint coeffs (alpha : list R) (nv : list nat) : res R :=
  match nv, alpha with
  | [], _ => Ok 1
  | _ :: _, [] => Err IndexError
  | n :: nv', a :: al' => rbind (coeffs al' nv') (fun c => Ok (coherent_state_coeff n a * c))
  end.
Definition fock_coeff (alpha : option (list R)) (nv : list nat) : res R :=
  match alpha with
  | Some al => coeffs al nv
  | None => Ok (exp (- INR (fold_right plus 0%nat nv)))
  end.
(** the loop stores one coefficient per occupation vector into an array of
    nfock ** nmodes entries (a store past the end raises) and asserts the
    count (176-187) *)
Definition fock_build (nmodes nfock : nat) (alpha : option (list R)) : res (list R) :=
  rbind (rmapM (fock_coeff alpha) (ndindex nfock nmodes)) (fun cs =>
    if Nat.ltb (nfock ^ nmodes) (length cs) then Err IndexError
    else if Nat.eqb (length cs) (nfock ^ nmodes) then Ok cs else Err AssertionError).
