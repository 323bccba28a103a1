(** Model of the integrals which openms/lib/boson.py hands to the coupled
    cluster and configuration interaction codes: [get_mos], [fock],
    [hf_energy], [g_fock], [get_I], [mfG], [gint], [get_gmat_so] (lines
    2034-2258), [get_integrals4fci] (355-408) and [get_dipole_ao] (215-259).
    Arrays are functions of natural numbers with explicit lengths, entries in
    any field.  The integral library is an argument: one- and two-electron
    integrals, the nuclear energy and the one-electron part of the dipole
    self-energy (add_oei_ao, modelled in QhfModel). *)
From mathcomp Require Import all_ssreflect all_algebra.
From Verif Require Base.
Set Implicit Arguments.
Unset Strict Implicit.
Unset Printing Implicit Defensive.
Import GRing.Theory.
Local Open Scope ring_scope.

Section Code.
Variable F : fieldType.
Definition arr := nat -> nat -> F.
Definition arr4 := nat -> nat -> nat -> nat -> F.

(** ov_blocks.py [block_diag]: blocks [A] (r x c) and [B] *)
Definition block_diag (r c : nat) (A B : arr) : arr := fun i j =>
  if (i < r)%N then (if (j < c)%N then A i j else 0)
  else (if (j < c)%N then 0 else B (i - r)%N (j - c)%N).

Variables (n : nat).          (* basis functions, and orbitals of one spin *)
Variables (ca cb : arr).      (* orbitals of the two spins, one per column *)
Variables (na nb : nat).      (* occupied orbitals *)

(** 2042-2050: numbers of electrons of a restricted and of an unrestricted reference *)
Definition mos_restricted (occ : seq nat) : nat * nat := ((sumn occ) %/ 2, (sumn occ) %/ 2)%N.
Definition mos_unrestricted (occa occb : seq nat) : nat * nat := (sumn occa, sumn occb).

(** 2051-2053 *)
Definition dens (c : arr) (k : nat) : arr := fun p q => \sum_(i < k) c p i * c q i.
Definition pa : arr := dens ca na.
Definition pb : arr := dens cb nb.
Definition ptot : arr := block_diag n n pa pb.

(** qedhf.py:576-595 with 549-567: Coulomb and exchange matrices of the
    integral library, and with [dse] those of the dipole self-energy for [m] modes *)
Variables (eri : arr4) (m : nat) (g : nat -> arr).
Definition get_j (dse : bool) (dm : arr) : arr := fun p q =>
  (\sum_(r < n) \sum_(s < n) eri p q r s * dm s r)
  + (if dse then \sum_(x < m) g x p q * (\sum_(r < n) \sum_(s < n) dm r s * g x r s) else 0).
Definition get_k (dse : bool) (dm : arr) : arr := fun p q =>
  (\sum_(r < n) \sum_(s < n) eri p r s q * dm r s)
  + (if dse then \sum_(x < m) \sum_(r < n) g x p r * (\sum_(s < n) g x q s * dm r s) else 0).

(** 2069-2091, pyscf's ghf.get_jk splitting a block-diagonal density; [h] is
    the core Hamiltonian, [oei] the value of add_oei_ao, [shift] the option *)
Definition h_used (shift : bool) (h oei : arr) : arr :=
  fun p q => if shift then h p q else h p q + oei p q.
Definition fock (dse shift : bool) (h oei : arr) : arr := fun p q =>
  block_diag n n (h_used shift h oei) (h_used shift h oei) p q
  + block_diag n n (fun p q => get_j dse pa p q + get_j dse pb p q)
      (fun p q => get_j dse pa p q + get_j dse pb p q) p q
  - block_diag n n (get_k dse pa) (get_k dse pb) p q.

(** 2076: [h1 += ...] changes the array that [get_hcore] returned.  The
    reference keeps that array (scqedhf.py:954-958, [kept]) or makes a new one
    at each call (qedhf.py:506-509): core Hamiltonian after one call *)
Definition h_after (kept shift : bool) (h oei : arr) : arr :=
  if kept then h_used shift h oei else h.
(** 2094-2106 *)
Definition trace2 (k : nat) (A B : arr) : F := \sum_(i < k) \sum_(j < k) A i j * B j i.
Definition hf_energy (dse shift kept : bool) (h oei : arr) (enuc const : F) : F :=
  let e := trace2 (n + n) ptot (fock dse shift h oei)
           + trace2 (n + n) ptot
               (block_diag n n (h_after kept shift h oei) (h_after kept shift h oei)) in
  2%:R^-1 * e + enuc + (if shift then const else 0).
(** [k] calls before this one *)
Definition h_calls (kept shift : bool) (h oei : arr) (k : nat) : arr :=
  iter k (fun h' => h_after kept shift h' oei) h.

(** 2229-2257: coupling with the factor sqrt(w/2), [f x] standing for it *)
Definition gmatso (f : nat -> F) (x : nat) : arr :=
  block_diag n n (fun p q => g x p q * f x) (fun p q => g x p q * f x).
Variables (f w : nat -> F).
Definition xi (x : nat) : F :=
  (\sum_(a < n + n) \sum_(b < n + n) gmatso f x a b * ptot a b) / w x.
Definition shift_const : F := - \sum_(x < m) w x * xi x ^+ 2.

(** 2109-2138 *)
Definition Co : arr := block_diag n na ca cb.
Definition Cv : arr :=
  block_diag n (n - na) (fun p i => ca p (na + i)%N) (fun p i => cb p (nb + i)%N).
Definition rot2 (A B : arr) (X : arr) : arr := fun i j =>
  \sum_(p < n + n) \sum_(q < n + n) A p i * X p q * B q j.
Definition g_fock (dse shift : bool) (h oei : arr) (A B : arr) : arr := fun i j =>
  rot2 A B (fock dse shift h oei) i j
  - (if shift then 2%:R * \sum_(x < m) xi x * rot2 A B (gmatso f x) i j else 0).

(** 2198-2208 *)
Definition mfG (shift : bool) (x : nat) : F :=
  if shift then 0 else \sum_(p < n + n) \sum_(q < n + n) gmatso f x p q * ptot q p.
(** 2211-2226 *)
Definition gint (A B : arr) (x : nat) : arr := rot2 A B (gmatso f x).

(** 2141-2166: [C] is [hstack((ca, cb))] *)
Definition hcols : arr := fun p a => if (a < n)%N then ca p a else cb p (a - n)%N.
Definition dse_eri : arr4 := fun p q r s => eri p q r s + \sum_(x < m) g x p q * g x r s.
Definition mo_eri : arr4 := fun a b c d =>
  \sum_(p < n) \sum_(q < n) \sum_(r < n) \sum_(s < n)
    dse_eri p q r s * (hcols p a * hcols q b * (hcols r c * hcols s d)).
(** 2162: mixed spins of a pair are set to zero *)
Definition spin_eri : arr4 := fun a b c d =>
  if ((a < n) == (b < n))%N && ((c < n) == (d < n))%N then mo_eri a b c d else 0.
(** 2164: [transpose(0, 2, 1, 3)] minus [transpose(0, 2, 3, 1)] *)
Definition get_I : arr4 := fun p q r s => spin_eri p r q s - spin_eri p s q r.
(** 2170-2172 *)
Definition oidx : seq nat := iota 0 na ++ iota n nb.
Definition vidx : seq nat := iota na (n - na) ++ iota (n + nb) (n - nb).
End Code.

Section Fci.
Variable F : fieldType.
Variables (n m : nat).

(** 375: [gmat * numpy.sqrt(cavity_freq/2.0)] for two or more basis functions:
    the frequencies meet the last axis; [f] holds the square roots *)
Definition gmat_bilinear (g : nat -> arr F) (f : nat -> F) : Base.res (nat -> arr F) :=
  if m == 1%N then Base.Ok (fun x p q => g x p q * f 0%N)
  else if m == n then Base.Ok (fun x p q => g x p q * f q)
  else Base.Err Base.ValueError.

Variables (C S : 'M[F]_n).
(** 343-352 with real [C] *)
Definition ao2mo (A : 'M[F]_n) : 'M[F]_n := C^T *m A *m C.
(** 394 and 397-398: [ovlp] is already transformed when [SC] is formed *)
Definition fci_dm0 (dm0 : 'M[F]_n) : 'M[F]_n :=
  let SC := ao2mo S *m C in SC^T *m dm0 *m SC.
(** 401-402: one-electron integrals with the dipole self-energy; 403 adds the
    products of [gmat_lo] to the two-electron integrals *)
Definition fci_hcore (h : 'M[F]_n) (g : 'I_m -> 'M[F]_n) : 'M[F]_n :=
  ao2mo h + 2%:R^-1 *: \sum_x (ao2mo (g x) *m ao2mo (g x)).
End Fci.

Section Dipole.
Variable F : fieldType.
Variables (n natom : nat).

(** 243-255, one Cartesian component: charges [Z], coordinates [R] *)
Definition charge_center (Z R : 'I_natom -> F) : F := (\sum_i Z i * R i) / \sum_i Z i.
Definition origin (nuc : bool) (Z R : 'I_natom -> F) (os : option F) : F :=
  (if nuc then charge_center Z R else 0) - (if os is Some s then s else 0).
(** 257-259: [-mol.intor_symmetric("int1e_r")] at that origin; [r] and [S] are
    the position and the overlap integrals *)
Definition dipole_ao (r S : 'M[F]_n) (nuc : bool) (Z R : 'I_natom -> F) (os : option F) : 'M[F]_n :=
  - (r - origin nuc Z R os *: S).
End Dipole.
