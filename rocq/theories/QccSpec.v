(** What the amplitude equations of QED-CCSD should satisfy, stated without the
    symbolic machinery of QccSym.v and QccNorm.v. *)
From Coq Require Import String Ascii.
From mathcomp Require Import all_ssreflect all_algebra.
From Verif Require Import QccModel.
Set Implicit Arguments.
Unset Strict Implicit.
Unset Printing Implicit Defensive.
Import GRing.Theory.
Local Open Scope ring_scope.
Open Scope string_scope.
Open Scope ring_scope.

(* ------------------------------------------------------------------ *)
(** ** The arrays passed in *)

(** The letter of a block name for an orbital kind. *)
Definition oletter (k : nat) : string := if k == 0%N then "o" else "v".
Definition blk4 (k1 k2 k3 k4 : nat) : string :=
  "I." ++ oletter k1 ++ oletter k2 ++ oletter k3 ++ oletter k4.

Section Contracts.
Variable F : fieldType.
Variable E : env F.

(** The sixteen blocks of integrals are cut out of one array <pq||rs> over the
    spin orbitals, antisymmetric in p,q and in r,s. *)
Definition integrals_ok : Prop :=
  exists A : var -> var -> var -> var -> F,
    [/\ forall p q r s, A p q r s = - A q p r s,
        forall p q r s, A p q r s = - A p q s r
      & forall k1 k2 k3 k4 p q r s,
          all (fun k => k < 2)%N [:: k1; k2; k3; k4] ->
          E (blk4 k1 k2 k3 k4) [:: p; q; r; s] = A (k1, p) (k2, q) (k3, r) (k4, s)].

(** Amplitudes of double excitations are antisymmetric in the two virtual and
    in the two occupied orbitals; amplitudes with two photons are symmetric in
    the two modes. *)
Definition doubles_ok : Prop :=
  [/\ forall a b i j, E "T2old" [:: a; b; i; j] = - E "T2old" [:: b; a; i; j],
      forall a b i j, E "T2old" [:: a; b; i; j] = - E "T2old" [:: a; b; j; i],
      forall x a b i j, E "U2nold[0]" [:: x; a; b; i; j] = - E "U2nold[0]" [:: x; b; a; i; j]
    & forall x a b i j, E "U2nold[0]" [:: x; a; b; i; j] = - E "U2nold[0]" [:: x; a; b; j; i]].
Definition photons_ok : Prop :=
  [/\ forall x y, E "Snold[1]" [:: x; y] = E "Snold[1]" [:: y; x],
      forall x y a i, E "U1nold[1]" [:: x; y; a; i] = E "U1nold[1]" [:: y; x; a; i],
      forall x y a b i j,
        E "U2nold[1]" [:: x; y; a; b; i; j] = E "U2nold[1]" [:: y; x; a; b; i; j],
      forall x y a b i j,
        E "U2nold[1]" [:: x; y; a; b; i; j] = - E "U2nold[1]" [:: x; y; b; a; i; j]
    & forall x y a b i j,
        E "U2nold[1]" [:: x; y; a; b; i; j] = - E "U2nold[1]" [:: x; y; a; b; j; i]].

(** [h] and [g] are the same blocks (/repo/openms/mqed/boson.py returns one
    object for both). *)
Definition couplings_ok : Prop :=
  forall k1 k2 x p q, (k1 < 2)%N -> (k2 < 2)%N ->
    E ("h." ++ oletter k1 ++ oletter k2) [:: x; p; q]
    = E ("g." ++ oletter k1 ++ oletter k2) [:: x; p; q].

Definition arrays_ok : Prop :=
  [/\ integrals_ok, doubles_ok, photons_ok & couplings_ok].

(** ccsd.py line 154: [G = H = numpy.zeros(np)]. *)
Definition G_zero : Prop := forall ix, E "G" ix = 0.

(** No coupling to the photons at all. *)
Definition uncoupled : Prop :=
  G_zero /\ forall k1 k2 ix, (k1 < 2)%N -> (k2 < 2)%N ->
    E ("g." ++ oletter k1 ++ oletter k2) ix = 0 /\
    E ("h." ++ oletter k1 ++ oletter k2) ix = 0.

End Contracts.

(* ------------------------------------------------------------------ *)
(** ** The equations of CCSD without photons *)

(** The spin-orbital equations of J. F. Stanton, J. Gauss, J. D. Watts and
    R. J. Bartlett, J. Chem. Phys. 94, 4334 (1991), intermediates as printed
    there; F is whatever Fock matrix is passed in (the caller removes the
    diagonal, which is in the denominators).  <mb||ej> is written -<mb||je>,
    and so on, because only some blocks are stored. *)
Local Close Scope ring_scope.
Local Open Scope nat_scope.
Definition sgbw : prog := [::
  (* tau~ and tau *)
  "tau~" :== At ("T2old", 0);
  "tau~" +== Sc 1 1 (Ein "ai,bj->abij" [:: ("T1old", 0); ("T1old", 0)]);
  "tau~" +== Sc (-1) 1 (Ein "bi,aj->abij" [:: ("T1old", 0); ("T1old", 0)]);
  "tau" :== At ("T2old", 0);
  "tau" +== Ein "ai,bj->abij" [:: ("T1old", 0); ("T1old", 0)];
  "tau" +== Sc (-1) 0 (Ein "bi,aj->abij" [:: ("T1old", 0); ("T1old", 0)]);
  (* one-body intermediates *)
  "Fae" :== At ("F.vv", 0);
  "Fae" +== Sc (-1) 1 (Ein "me,am->ae" [:: ("F.ov", 0); ("T1old", 0)]);
  "Fae" +== Ein "mafe,fm->ae" [:: ("I.ovvv", 0); ("T1old", 0)];
  "Fae" +== Sc (-1) 1 (Ein "mnef,afmn->ae" [:: ("I.oovv", 0); ("tau~", 0)]);
  "Fmi" :== At ("F.oo", 0);
  "Fmi" +== Sc 1 1 (Ein "me,ei->mi" [:: ("F.ov", 0); ("T1old", 0)]);
  "Fmi" +== Ein "mnie,en->mi" [:: ("I.ooov", 0); ("T1old", 0)];
  "Fmi" +== Sc 1 1 (Ein "mnef,efin->mi" [:: ("I.oovv", 0); ("tau~", 0)]);
  "Fme" :== At ("F.ov", 0);
  "Fme" +== Ein "mnef,fn->me" [:: ("I.oovv", 0); ("T1old", 0)];
  (* two-body intermediates *)
  "Wmnij" :== At ("I.oooo", 0);
  "Wmnij" +== Ein "mnie,ej->mnij" [:: ("I.ooov", 0); ("T1old", 0)];
  "Wmnij" +== Sc (-1) 0 (Ein "mnje,ei->mnij" [:: ("I.ooov", 0); ("T1old", 0)]);
  "Wmnij" +== Sc 1 2 (Ein "mnef,efij->mnij" [:: ("I.oovv", 0); ("tau", 0)]);
  "Wabef" :== At ("I.vvvv", 0);
  "Wabef" +== Ein "maef,bm->abef" [:: ("I.ovvv", 0); ("T1old", 0)];
  "Wabef" +== Sc (-1) 0 (Ein "mbef,am->abef" [:: ("I.ovvv", 0); ("T1old", 0)]);
  "Wabef" +== Sc 1 2 (Ein "mnef,abmn->abef" [:: ("I.oovv", 0); ("tau", 0)]);
  "Wmbej" :== Sc (-1) 0 (Ein "mbje->mbej" [:: ("I.ovov", 0)]);
  "Wmbej" +== Ein "mbef,fj->mbej" [:: ("I.ovvv", 0); ("T1old", 0)];
  "Wmbej" +== Ein "mnje,bn->mbej" [:: ("I.ooov", 0); ("T1old", 0)];
  "Wmbej" +== Sc (-1) 1 (Ein "mnef,fbjn->mbej" [:: ("I.oovv", 0); ("T2old", 0)]);
  "Wmbej" +== Sc (-1) 0 (Ein "mnef,fj,bn->mbej" [:: ("I.oovv", 0); ("T1old", 0); ("T1old", 0)]);
  (* singles *)
  "R1" :== At ("F.vo", 0);
  "R1" +== Ein "ae,ei->ai" [:: ("Fae", 0); ("T1old", 0)];
  "R1" +== Sc (-1) 0 (Ein "mi,am->ai" [:: ("Fmi", 0); ("T1old", 0)]);
  "R1" +== Ein "me,aeim->ai" [:: ("Fme", 0); ("T2old", 0)];
  "R1" +== Sc (-1) 0 (Ein "naif,fn->ai" [:: ("I.ovov", 0); ("T1old", 0)]);
  "R1" +== Sc (-1) 1 (Ein "maef,efim->ai" [:: ("I.ovvv", 0); ("T2old", 0)]);
  "R1" +== Sc 1 1 (Ein "nmie,aemn->ai" [:: ("I.ooov", 0); ("T2old", 0)]);
  (* doubles *)
  "Gbe" :== At ("Fae", 0);
  "Gbe" +== Sc (-1) 1 (Ein "me,bm->be" [:: ("Fme", 0); ("T1old", 0)]);
  "Gmj" :== At ("Fmi", 0);
  "Gmj" +== Sc 1 1 (Ein "me,ej->mj" [:: ("Fme", 0); ("T1old", 0)]);
  "X" :== Ein "be,aeij->abij" [:: ("Gbe", 0); ("T2old", 0)];
  "Y" :== Ein "mj,abim->abij" [:: ("Gmj", 0); ("T2old", 0)];
  "Z" :== Ein "mbej,aeim->abij" [:: ("Wmbej", 0); ("T2old", 0)];
  "Z" +== Ein "mbje,ei,am->abij" [:: ("I.ovov", 0); ("T1old", 0); ("T1old", 0)];
  "U" :== Sc (-1) 0 (Ein "abje,ei->abij" [:: ("I.vvov", 0); ("T1old", 0)]);
  "V" :== Ein "mbij,am->abij" [:: ("I.ovoo", 0); ("T1old", 0)];
  "R2" :== At ("I.vvoo", 0);
  (* + P_(ab) X *)
  "R2" +== At ("X", 0); "R2" +== Sc (-1) 0 (Tr [:: 1; 0; 2; 3] (At ("X", 0)));
  (* - P_(ij) Y *)
  "R2" +== Sc (-1) 0 (At ("Y", 0)); "R2" +== Tr [:: 0; 1; 3; 2] (At ("Y", 0));
  "R2" +== Sc 1 1 (Ein "abmn,mnij->abij" [:: ("tau", 0); ("Wmnij", 0)]);
  "R2" +== Sc 1 1 (Ein "efij,abef->abij" [:: ("tau", 0); ("Wabef", 0)]);
  (* + P_(ij) P_(ab) Z *)
  "R2" +== At ("Z", 0); "R2" +== Sc (-1) 0 (Tr [:: 1; 0; 2; 3] (At ("Z", 0)));
  "R2" +== Sc (-1) 0 (Tr [:: 0; 1; 3; 2] (At ("Z", 0)));
  "R2" +== Tr [:: 1; 0; 3; 2] (At ("Z", 0));
  (* + P_(ij) U - P_(ab) V *)
  "R2" +== At ("U", 0); "R2" +== Sc (-1) 0 (Tr [:: 0; 1; 3; 2] (At ("U", 0)));
  "R2" +== Sc (-1) 0 (At ("V", 0)); "R2" +== Tr [:: 1; 0; 2; 3] (At ("V", 0))].

(** The correlation energy with photons (/repo/openms/mqed/ccsd.py lines 40-52,
    [eph_energy] and [epcc_energy]; the first three lines are the energy of
    CCSD, which the source takes from the package cqcpy). *)
Definition energy : prog := [::
  "E" :== Ein "ia,ai->" [:: ("F.ov", 0); ("T1old", 0)];
  "E" +== Sc 1 2 (Ein "ijab,abij->" [:: ("I.oovv", 0); ("T2old", 0)]);
  "E" +== Sc 1 1 (Ein "ijab,ai,bj->" [:: ("I.oovv", 0); ("T1old", 0); ("T1old", 0)]);
  "E" +== Ein "I,I->" [:: ("G", 0); ("Snold[0]", 0)];
  "E" +== Ein "Iia,Iai->" [:: ("g.ov", 0); ("U1nold[0]", 0)];
  "E" +== Ein "Iia,ai,I->" [:: ("g.ov", 0); ("T1old", 0); ("Snold[0]", 0)]].

Local Close Scope nat_scope.
Local Open Scope ring_scope.

(* ------------------------------------------------------------------ *)
(** ** Photons as shifts of the amplitudes *)

(** In the exponential ansatz the cluster operator is a polynomial in the
    creation operators of the photons,
      T(b) = T + sum_x b_x U_x + (1/2) sum_xy b_x b_y U_xy,
    with the same for S.  On the vacuum of the photons an annihilation operator
    acts as the derivative of T, so the equations with one photon in mode y are
    the derivatives with respect to b_y of the equations without photons, plus
    w_y U_y from the energy of the photon; in sum_x g_x (b_x + b_x^+) the
    creation operator adds b_x to the derivative of S.  [shift c y e E] is the
    set of arrays with b_y = e, to first order in e. *)
Section Shift.
Variable F : fieldType.

Definition slope (c : cfg) (y : nat) (E : env F) : env F :=
  fun n ix =>
    if n == "T1old" then (if (0 < nf2 c)%N then E "U1nold[0]" (y :: ix) else 0)
    else if n == "T2old" then
      (if (0 < nf2 c)%N && u2 c then E "U2nold[0]" (y :: ix) else 0)
    else if n == "Snold[0]" then
      (ix == [:: y])%:R + (if (1 < nf1 c)%N then E "Snold[1]" (y :: ix) else 0)
    else if n == "U1nold[0]" then (if (1 < nf2 c)%N then E "U1nold[1]" (y :: ix) else 0)
    else if n == "U2nold[0]" then
      (if (1 < nf2 c)%N && u2 c then E "U2nold[1]" (y :: ix) else 0)
    else 0.
Definition shift (c : cfg) (y : nat) (e : F) (E : env F) : env F :=
  fun n ix => E n ix + e * slope c y E n ix.

(** [d] is the derivative at 0 of [f], a polynomial function. *)
Definition deriv0 (f : F -> F) (d : F) : Prop :=
  exists q : {poly F}, (forall e, f e = q.[e]) /\ q`_1 = d.

(** Derivative of the array [n] computed by the program [p], at [ix], with
    respect to the amplitude of mode [y]. *)
Definition one_photon (D : nat -> nat) (c : cfg) (p : prog) (n : string)
  (E : env F) (y : nat) (ix : seq nat) (d : F) : Prop :=
  deriv0 (fun e => run D c p (shift c y e E) n ix) d.

(** Mixed second derivative with respect to the amplitudes of y and z. *)
Definition two_photon (D : nat -> nat) (c : cfg) (p : prog) (n : string)
  (E : env F) (y z : nat) (ix : seq nat) (d : F) : Prop :=
  exists f : F -> F,
    (forall e, one_photon D c p n (shift c y e E) z ix (f e)) /\ deriv0 f d.

End Shift.
