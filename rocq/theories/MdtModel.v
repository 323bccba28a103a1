(** Model of the trial wave functions of openms/qmc/trial.py: the
    multi-determinant trial [multiCI], the orbitals of [TrialHF.build] and the
    methods which the three trial classes offer to a run.  Matrices over a
    field with a field automorphism [conj] for complex conjugation, one walker
    at a time.  Not modelled: the CASSCF calculation of [get_ci] (the
    expansion is an input), printing, and the unfinished functions
    [calc_ovlp_iexc] and [compute_MSD_ovlp], which nothing calls. *)
From mathcomp Require Import all_ssreflect all_algebra.
From Verif Require Base.
From Verif Require Import LinModel.
Set Implicit Arguments.
Unset Strict Implicit.
Unset Printing Implicit Defensive.
Import GRing.Theory.
Local Open Scope ring_scope.

Section Multi.
Variables (F : fieldType) (conj : {rmorphism F -> F}).
Variables (p na nb : nat).

(** trial.py:1168-1175: one entry of [coeffs], [occa], [occb] *)
Record det := Det { coef : F; occ_a : 'I_na -> 'I_p; occ_b : 'I_nb -> 'I_p }.
(** A trial keeps at least one determinant (line 1213 reads entry 0). *)
Definition expansion : Type := (det * seq det)%type.

(** 1212-1216: [Imat[:, occ]] *)
Definition columns n (occ : 'I_n -> 'I_p) : 'M[F]_(p, n) := \matrix_(a, i) (a == occ i)%:R.
Definition psia (t : expansion) : 'M[F]_(p, na) := columns (occ_a t.1).
Definition psib (t : expansion) : 'M[F]_(p, nb) := columns (occ_b t.1).

(** 516-541 and 544-558: the overlap returned to the caller; the lines after
    the first [return] are never executed *)
Definition msd_ovlp (t : expansion) (Wa : 'M[F]_(p, na)) (Wb : 'M[F]_(p, nb)) : F :=
  ovlp_spin conj Wa (psia t) * ovlp_spin conj Wb (psib t).
(** 418-421, 447-448: the Green's functions which that call leaves in the walker *)
Definition msd_Ga (t : expansion) (Wa : 'M[F]_(p, na)) : 'M[F]_p := gfull conj Wa (psia t).
Definition msd_Gb (t : expansion) (Wb : 'M[F]_(p, nb)) : 'M[F]_p := gfull conj Wb (psib t).
End Multi.

Section Orbitals.
Variables (F : fieldType) (p m : nat).

(** 762-770: [xinv.dot(mf.mo_coeff[:, :n])]; [X] is the result of [lo.orth.lowdin] *)
Definition oao_psi (X : 'M[F]_p) (C : 'M[F]_(p, m)) n (nm : (n <= m)%N) : 'M[F]_(p, n) :=
  \matrix_(i, j) \sum_k invmx X i k * C k (widen_ord nm j).

(** 772-777: [tmp = identity(nmo)[:, mo_occ > 0]] has [nocc] columns, and
    [tmp[:, k]] is the column number [k] of them *)
Definition mo_column (nocc k : nat) : Base.res nat :=
  if (k < nocc)%N then Base.Ok k else Base.Err Base.IndexError.
Definition build_mo (nocc nalpha nbeta : nat) : Base.res (nat * nat) :=
  Base.rbind (mo_column nocc nalpha)
    (fun a => Base.rbind (mo_column nocc nbeta) (fun b => Base.Ok (a, b))).
End Orbitals.

Section Services.
Variables (F : fieldType) (conj : {rmorphism F -> F}).
Variables (p na nb nchol : nat).

(** 743, 1000 and 1102: [TrialHF], [TrialUHF], [multiCI] *)
Inductive trial_class := HF | UHF | CI.

(** 801-829 sets the attributes [rltensora] and [rltensorb]; the other two
    classes inherit the empty method of 731-733 *)
Definition half_rotated (k : trial_class) (L : 'I_nchol -> 'M[F]_p)
   (Ta : 'M[F]_(p, na)) (Tb : 'M[F]_(p, nb)) :
   option (('I_nchol -> 'M[F]_(p, na)) * ('I_nchol -> 'M[F]_(p, nb))) :=
  match k with
  | HF => Some (rot_chol conj L Ta, rot_chol conj L Tb)
  | UHF | CI => None
  end.

(** 904-908 and 1248-1251 with two components; [TrialUHF] has no method of
    that name *)
Definition get_vbias (k : trial_class)
   (attr : option (('I_nchol -> 'M[F]_(p, na)) * ('I_nchol -> 'M[F]_(p, nb))))
   (Ga : 'M[F]_(p, na)) (Gb : 'M[F]_(p, nb)) (g : 'I_nchol) : Base.res F :=
  match k, attr with
  | UHF, _ => Base.Err Base.AttributeError
  | _, None => Base.Err Base.AttributeError
  | _, Some (rla, rlb) => Base.Ok (2%:R / 2%:R * lg (rla g) Ga + lg (rlb g) Gb)
  end.

(** qmc.py:448-449 followed by the call of the propagator (propagators.py) *)
Definition vbias_run (k : trial_class) (L : 'I_nchol -> 'M[F]_p)
   (Ta Wa : 'M[F]_(p, na)) (Tb Wb : 'M[F]_(p, nb)) (g : 'I_nchol) : Base.res F :=
  get_vbias k (half_rotated k L Ta Tb) (ghalf conj Wa Ta) (ghalf conj Wb Tb) g.

(** 840-857, 1033-1036, 1228-1232: the overlap method; [TrialUHF] calls the
    one of [TrialWFBase], which does not exist, and returns nothing *)
Definition ovlp_run (k : trial_class)
   (Ta Wa : 'M[F]_(p, na)) (Tb Wb : 'M[F]_(p, nb)) : Base.res F :=
  match k with
  | UHF => Base.Err Base.AttributeError
  | HF | CI => Base.Ok (ovlp_spin conj Wa Ta * ovlp_spin conj Wb Tb)
  end.
End Services.
