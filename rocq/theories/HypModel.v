(** Model of openms/maxwell/hyperbolic.py: plasmon frequencies and the optical
    conductivity of an anisotropic metal.  Numbers are real, complex numbers
    pairs (real part, imaginary part); rounding and printing are left out.  At
    the transition frequencies numpy's logarithm is infinite; the theorems
    exclude them. *)
From Coq Require Import Reals List.
From Verif Require Import Base.
Import ListNotations.
Local Open Scope R_scope.

(** what a caller may leave in [plasmon_freqs]: nothing, one number, an array *)
Inductive freqs := NoFreq | Scalar (x : R) | Array (l : list R).

(** hyperbolic.py 78-79: density per cubic nanometre, one mass; the constants are arguments *)
Definition plasmon (hbar e_SI epsilon0 e_mass density mass : R) : R :=
  hbar * e_SI * sqrt (density * 10 ^ 27 / (epsilon0 * mass * e_mass)).
(** hyperbolic.py 65-85: [mass] a number or an array *)
Definition init (hbar e_SI epsilon0 e_mass : R) (given : freqs) (density : option R) (mass : freqs) : res freqs :=
  match density with
  | None => Ok given
  | Some n => match mass with
              | NoFreq => Err TypeError
              | Scalar m => Ok (Scalar (plasmon hbar e_SI epsilon0 e_mass n m))
              | Array ms => Ok (Array (map (plasmon hbar e_SI epsilon0 e_mass n) ms))
              end
  end.

(** hyperbolic.py 95: i wp / (w + i eta) *)
Definition drude (wp eta w : R) : R * R :=
  (wp * eta / (w * w + eta * eta), wp * w / (w * w + eta * eta)).
(** hyperbolic.py 96-97, the imaginary part *)
Definition inter_im (w0 w : R) : R := / PI * ln (Rabs ((w - w0) / (w + w0))).
(** hyperbolic.py 98-100: the loop adds 1 to every component for each plasmon frequency below [w] *)
Definition steps (wps : list R) (w : R) : R :=
  fold_left (fun t wp => if Rlt_dec wp w then t + 1 else t) wps 0.
(** hyperbolic.py 95-101, one component *)
Definition sigma1 (wps : list R) (eta w : R) (c : R * (R * R)) : R * R :=
  let '(wp, (w0, s)) := c in
  (fst (drude wp eta w) + steps wps w * s, snd (drude wp eta w) + inter_im w0 w * s).
(** hyperbolic.py 88-105: rows of the result; [inter] and [strengths] are arrays as long as the
    plasmon frequencies.  [len] of nothing or of one number raises *)
Definition get_conductivity (f : freqs) (inter strengths : list R) (eta : R) (wlist : list R) : res (list (list (R * R))) :=
  match f with
  | Array wps => Ok (map (fun w => map (sigma1 wps eta w) (combine wps (combine inter strengths))) wlist)
  | _ => Err TypeError
  end.

(** hyperbolic.py 108-120: sets two local variables and returns nothing *)
Definition get_dielectric (wlist : list R) : option (list (R * R)) := None.
