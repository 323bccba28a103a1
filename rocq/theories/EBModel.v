(** Model of the bosonic parts of openms/qmc: coupling and bosonic energies
    (estimators.py), the matrix of sum_a z_a (b_a^+ + b_a) (propagators.py), the
    bosonic Green's function (trial.py), renormalisation (qmc.py), the
    displacement expectation value (generic_walkers.py) and the averaged
    density (propagators.py).  Matrices in the Fock basis are functions of two
    indices, the modes are concatenated; [s n] stands for the square root of n.
    One walker at a time unless stated otherwise. *)
From mathcomp Require Import all_ssreflect all_algebra.
From Verif Require Base.
Set Implicit Arguments.
Unset Strict Implicit.
Unset Printing Implicit Defensive.
Import GRing.Theory Num.Theory.
Local Open Scope ring_scope.

Section EB.
Variables (F : fieldType) (conj : {rmorphism F -> F}) (s : nat -> F).
Definition fmat : Type := nat -> nat -> F.

(** [numpy.diag(sqrt(arange(1, mdim)), k=1)] and [a + a.T] *)
Definition lower (i j : nat) : F := if j == i.+1 then s i.+1 else 0.
Definition h_od (i j : nat) : F := lower i j + lower j i.
Definition inblk (idx d i : nat) : bool := (idx <= i)%N && (i < idx + d)%N.

(** estimators.py:672-677 ([local_eng_eboson]): the loop over modes; [idx] stays
    as it is.  A mode is given as (dimension, z). *)
Fixpoint eb_loop (idx : nat) (modes : seq (nat * F)) (Hb : fmat) : fmat :=
  match modes with
  | [::] => Hb
  | (d, z) :: r => eb_loop idx r (fun i j =>
      if inblk idx d i && inblk idx d j then Hb i j + h_od (i - idx) (j - idx) * z else Hb i j)
  end.
Definition msize (modes : seq (nat * F)) : nat := sumn (map fst modes).
(** estimators.py:641-679; [z] of each mode is the contraction of its coupling
    matrix with the fermionic Green's functions (666-668) *)
Definition local_eng_eboson (modes : seq (nat * F)) (Gb : fmat) : F :=
  \sum_(i < msize modes) \sum_(j < msize modes) eb_loop 0%N modes (fun _ _ => 0) i j * Gb i j.

(** propagators.py:50-61 ([boson_adag_plus_a]): assignment of blocks, [idx]
    advancing *)
Fixpoint adag_loop (idx : nat) (modes : seq (nat * F)) (Hb : fmat) : fmat :=
  match modes with
  | [::] => Hb
  | (d, z) :: r => adag_loop (idx + d) r (fun i j =>
      if inblk idx d i && inblk idx d j then h_od (i - idx) (j - idx) * z else Hb i j)
  end.
Definition boson_adag_plus_a (modes : seq (nat * F)) : fmat := adag_loop 0%N modes (fun _ _ => 0).

(** estimators.py:620-638 ([local_eng_boson_2nd]), modes as (dimension, omega):
    [asarray] of aranges of different lengths raises, and so does
    einsum on the empty list; the rows are flattened. *)
Definition local_eng_boson (modes : seq (nat * F)) (Gb : fmat) : Base.res F :=
  match modes with
  | [::] => Base.Err Base.ValueError
  | (d, _) :: _ =>
    if all (fun m => m.1 == d) modes
    then Base.Ok (\sum_(f < size modes * d)
           ((nth (0%N, 0) modes (f %/ d)).2 * (f %% d)%:R) * Gb f f)
    else Base.Err Base.ValueError
  end.

(** trial.py:860-866 and 431-438: bosonic overlap and Green's function *)
Definition boson_ovlp n (phi psi : 'I_n -> F) : F := \sum_k phi k * conj (psi k).
Definition boson_gf n (phi psi : 'I_n -> F) (i j : 'I_n) : F :=
  phi i * (boson_ovlp phi psi)^-1 * conj (psi j).
Definition ext n (G : 'I_n -> 'I_n -> F) : fmat := fun i j =>
  match insub i, insub j with Some a, Some b => G a b | _, _ => 0 end.

(** generic_walkers.py:332-358 ([get_boson_bdag_plus_b]), one mode: walkers are
    (weight, amplitudes) *)
Definition qalpha d (ws : seq (F * ('I_d -> F))) : F :=
  let tot := \sum_(w <- ws) w.1 in
  \sum_(i < d) \sum_(j < d) h_od i j * ((\sum_(w <- ws) w.1 * (w.2 i * conj (w.2 j))) / tot).

(** propagators.py:1756-1760 ([update_GF]): weighted average of the walkers'
    Green's functions; 1750 and 1753 give the total one per walker (sum of spins,
    or twice the single component) *)
Definition gf_total_uhf p (Ga Gb : 'M[F]_p) : 'M[F]_p := Ga + Gb.
Definition gf_total_rhf p (Ga : 'M[F]_p) : 'M[F]_p := 2%:R *: Ga.
Definition rho p (ws : seq (F * 'M[F]_p)) : 'M[F]_p :=
  (\sum_(w <- ws) w.1)^-1 *: (\sum_(w <- ws) w.1 *: w.2).
End EB.

(** qmc.py:735-739: the bosonic walker is divided by its norm and replaced by
    absolute values.  *)
Section Renorm.
Variables (F : numClosedFieldType).
Definition boson_norm n (phi : 'I_n -> F) : F := sqrtC (\sum_k phi k * (phi k)^*).
Definition boson_renorm n (phi : 'I_n -> F) : 'I_n -> F := fun k => `|phi k / boson_norm phi|.
End Renorm.
