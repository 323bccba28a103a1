(** Vocabulary for the properties of the electron-boson FCI operators. *)
From mathcomp Require Import all_ssreflect all_algebra.
From Verif Require Import FciModel.
Set Implicit Arguments.
Unset Strict Implicit.
Unset Printing Implicit Defensive.
Import GRing.Theory Num.Theory.
Local Open Scope ring_scope.

Section Spec.
Variables (R : rcfType) (norb na nbt m D : nat) (nb : 'I_m -> nat).
Notation civec := (@civec R na nbt m D).

(** scalar product over the entries that exist *)
Definition dot (u v : civec) : R := \sum_s \sum_t \sum_(c | inside nb c) u s t c * v s t c.
(** equality on the entries that exist *)
Definition same (u v : civec) : Prop := forall s t c, inside nb c -> u s t c = v s t c.

(** matrix element <s1| a^+ i |s0> encoded by a link table *)
Definition coef ns (tab : 'I_ns -> seq (link norb ns)) (a i : 'I_norb) (s1 s0 : 'I_ns) : R :=
  \sum_(l <- tab s0 | (la l == a) && (li l == i) && (lto l == s1)) lsign R l.
(** a^+ i is the adjoint of i^+ a *)
Definition adjoint_table ns (tab : 'I_ns -> seq (link norb ns)) : Prop :=
  forall a i s1 s0, coef tab a i s1 s0 = coef tab i a s0 s1.
(** every string holds [n] electrons *)
Definition number_table ns (tab : 'I_ns -> seq (link norb ns)) (n : nat) : Prop :=
  forall s1 s0, \sum_a coef tab a a s1 s0 = if s1 == s0 then n%:R else 0.

Variables (taba : 'I_na -> seq (link norb na)) (tabb : 'I_nbt -> seq (link norb nbt)).
(** the operator a^+ i summed over spin *)
Definition Eop (a i : 'I_norb) (v : civec) : civec := fun s t c =>
  \sum_s0 coef taba a i s s0 * v s0 t c + \sum_t0 coef tabb a i t t0 * v s t0 c.
(** sum_pq h_pq E_pq *)
Definition one_body (h : 'I_norb -> 'I_norb -> R) (v : civec) : civec := fun s t c =>
  \sum_p \sum_q h p q * Eop p q v s t c.
(** 1/2 sum_pqrs (pq|rs) (E_pq E_rs - delta_qr E_ps) *)
Definition two_body (eri : 'I_norb -> 'I_norb -> 'I_norb -> 'I_norb -> R) (v : civec) : civec := fun s t c =>
  (\sum_p \sum_q \sum_r \sum_x eri p q r x *
     (Eop p q (Eop r x v) s t c - (if q == r then Eop p x v s t c else 0))) / 2%:R.
(** energy of the bosons of a configuration *)
Definition boson_energy (w : 'I_m -> R) (c : cfg m D) : R := \sum_k w k * (c k)%:R.
(** full permutational symmetry of real integrals, as far as needed *)
Definition eri_symmetric (eri : 'I_norb -> 'I_norb -> 'I_norb -> 'I_norb -> R) : Prop :=
  forall p q r x, eri p q r x = eri x r q p.
End Spec.
