(** Properties of the Hubbard and Hubbard-Holstein mean field: C60, C135-C138. *)
From mathcomp Require Import all_ssreflect all_algebra.
From Verif Require Import HubModel HubSpec HubProofs.
Set Implicit Arguments.
Unset Strict Implicit.
Unset Printing Implicit Defensive.
Import GRing.Theory Num.Theory.
Local Open Scope ring_scope.

(** C60. *)
Theorem C60_hubbard : forall (F : realFieldType) (L : nat) (T : 'M[F]_L) U pa pb,
  hf_energy T U pa pb = kinetic T pa + kinetic T pb + repulsion U pa pb.
Proof. exact hub_energy_spec. Qed.
Print Assumptions C60_hubbard.
Example C60_ex : forall (F : realFieldType) (U : F), hf_energy 0 U (1%:M : 'M_1) 1%:M = U.
Proof. exact ones_ex. Qed.
Theorem C60_holstein : forall (F : realFieldType) (L : nat) (T : 'M[F]_L) U w g (shift : bool) pa pb, w != 0 ->
  hh_energy T U w (gmat0 g) shift pa pb =
  kinetic T pa + kinetic T pb + repulsion U pa pb - (if shift then polaron g w pa pb else 0).
Proof. exact hh_energy_spec. Qed.
Print Assumptions C60_holstein.

(** C135.  The Hubbard densities hold N electrons. *)
Theorem C135_hubbard : forall (F : realFieldType) (L : nat) (ca cb : 'M[F]_L) N,
  orthonormal ca -> orthonormal cb -> (hub_na N <= L)%N ->
  \tr (dens ca (hub_na N)) + \tr (dens cb (hub_nb N)) = N%:R.
Proof. exact hub_count. Qed.
Print Assumptions C135_hubbard.
(** The Hubbard-Holstein ones lose an electron when N is odd. *)
Theorem C135_holstein_partial : forall (F : realFieldType) (L : nat) (ca cb : 'M[F]_L) N,
  orthonormal ca -> orthonormal cb -> (N %/ 2 <= L)%N ->
  \tr (dens ca (hh_na N)) + \tr (dens cb (hh_nb N)) = (N - odd N)%:R.
Proof. exact hh_count. Qed.
Print Assumptions C135_holstein_partial.
Theorem C135_holstein_refuted : forall F : realFieldType, exists L N (ca cb : 'M[F]_L),
  orthonormal ca /\ orthonormal cb /\ (N <= 2 * L)%N /\
  \tr (dens ca (hh_na N)) + \tr (dens cb (hh_nb N)) != N%:R.
Proof. exact hh_odd_refuted. Qed.
Print Assumptions C135_holstein_refuted.
Example C135_ex : forall (F : realFieldType) L, orthonormal (1%:M : 'M[F]_L).
Proof. exact orth1. Qed.

(** C136. *)
Theorem C136_fock : forall (F : realFieldType) (L : nat) (T : 'M[F]_L) U ca cb na nb,
  g_fock T U ca cb na nb = block_mx (u_fock_a T U ca cb na nb) 0 0 (u_fock_b T U ca cb na nb).
Proof. exact g_fock_blocks. Qed.
Print Assumptions C136_fock.

(** C137. *)
Theorem C137_gradient : forall (F : realFieldType) (L : nat) (T : 'M[F]_L) U w (gm : 'I_L -> 'M[F]_(L + L))
  (shift : bool) pa pb da db, w != 0 -> (forall I, (gm I)^T = gm I) -> exists R, forall h,
  hh_energy T U w gm shift (pa + h *: da) (pb + h *: db) =
  hh_energy T U w gm shift pa pb + h * \tr (block_mx da 0 0 db *m hh_fock T U w gm shift pa pb) + h ^+ 2 * R.
Proof. exact hh_grad_spec. Qed.
Print Assumptions C137_gradient.
Example C137_ex : forall (F : realFieldType) L (g : F) (I : 'I_L), (gmat0 g I)^T = gmat0 g I.
Proof. exact gmat0_sym. Qed.

(** C138. *)
Theorem C138_antisymmetry : forall (F : realFieldType) (L : nat) (U : F) (ca cb : 'M[F]_L),
  antisymmetrised (ua_mo U ca cb).
Proof. exact ua_antisym. Qed.
Print Assumptions C138_antisymmetry.
