(** Textbook notions against which the dynamics is stated. *)
From mathcomp Require Import all_ssreflect all_algebra.
From Verif Require Import MdModel.
From Verif Require Base.
Set Implicit Arguments.
Unset Strict Implicit.
Unset Printing Implicit Defensive.
Import GRing.Theory Num.Theory.
Local Open Scope ring_scope.

Section Spec.
Variable F : realFieldType.
Notation vec := 'rV[F]_3.
Definition atom0 : atom F := Atom 0 0 0.
Definition mol0 : mol F := Mol [::] [::] None.
(** atom k of molecule i *)
Definition atom_of (ms : seq (mol F)) i k : atom F := nth atom0 (atoms (nth mol0 ms i)) k.
Definition natoms (ms : seq (mol F)) i : nat := size (atoms (nth mol0 ms i)).

(** The driver returns one force per atom. *)
Definition driver_shaped (qm : driver F) : Prop :=
  forall x i s, (i < size x)%N -> size (qm x i s) = size (nth [::] x i).
(** The stored forces are those of the current positions, for ns > 0 states. *)
Definition fresh (ns : nat) (qm : driver F) (ms : seq (mol F)) : Prop :=
  (0 < ns)%N /\ forall i, (i < size ms)%N ->
  size (sforces (nth mol0 ms i)) = ns /\
  forall s, (s < ns)%N -> nth None (sforces (nth mol0 ms i)) s = Some (qm (positions ms) i s).

(** acceleration on the surface s *)
Definition accel (s : nat) (qm : driver F) (ms : seq (mol F)) i k : vec :=
  (amass (atom_of ms i k))^-1 *: nth 0 (qm (positions ms) i s) k.
(** velocity Verlet on the surface s *)
Definition verlet (s : nat) (dt : F) (qm : driver F) (ms ms' : seq (mol F)) : Prop :=
  size ms' = size ms /\ forall i, (i < size ms)%N -> natoms ms' i = natoms ms i /\
  forall k, (k < natoms ms i)%N ->
  let a := atom_of ms i k in let a' := atom_of ms' i k in
  [/\ amass a' = amass a,
      apos a' = apos a + dt *: avel a + (dt ^+ 2 / 2%:R) *: accel s qm ms i k &
      avel a' = avel a + (dt / 2%:R) *: (accel s qm ms i k + accel s qm ms' i k)].

Definition reversed_atom (a : atom F) : atom F := Atom (amass a) (apos a) (- avel a).
Definition reversed (ms : seq (mol F)) : seq (mol F) :=
  [seq Mol [seq reversed_atom a | a <- atoms m] (sforces m) (mforces m) | m <- ms].
(** equal up to the attribute mol.forces, which nothing reads *)
Definition same_state (ms ms' : seq (mol F)) : Prop :=
  [seq (atoms m, sforces m) | m <- ms] = [seq (atoms m, sforces m) | m <- ms'].

Definition momentum (ms : seq (mol F)) : vec :=
  \sum_(i < size ms) \sum_(k < natoms ms i) amass (atom_of ms i k) *: avel (atom_of ms i k).
(** components of the angular momentum as the antisymmetric matrix
    x_a p_b - p_a x_b *)
Definition wedge (x p : vec) : 'M[F]_3 := x^T *m p - p^T *m x.
Definition angular (ms : seq (mol F)) : 'M[F]_3 :=
  \sum_(i < size ms) \sum_(k < natoms ms i)
    wedge (apos (atom_of ms i k)) (amass (atom_of ms i k) *: avel (atom_of ms i k)).
Definition heavy (ms : seq (mol F)) : Prop :=
  forall i k, (i < size ms)%N -> (k < natoms ms i)%N -> 0 < amass (atom_of ms i k).
Definition no_net_force (qm : driver F) (s : nat) : Prop := forall x,
  \sum_(i < size x) \sum_(k < size (nth [::] x i)) nth 0 (qm x i s) k = 0.
Definition no_torque (qm : driver F) (s : nat) : Prop := forall x,
  \sum_(i < size x) \sum_(k < size (nth [::] x i)) wedge (nth 0 (nth [::] x i) k) (nth 0 (qm x i s) k) = 0.

(** n steps *)
Fixpoint md_run (n : nat) (dt : F) (init_state ns : nat) (qm : driver F) (ms : seq (mol F)) : Base.res (seq (mol F)) :=
  if n is n'.+1 then Base.rbind (md_step dt init_state ns qm ms) (md_run n' dt init_state ns qm) else Ok ms.

(** every atom bound to the origin with force constant k *)
Definition springs (k : F) : driver F := fun x i _ => [seq - (k *: y) | y <- nth [::] x i].
Definition norm2 (v : vec) : F := \sum_(c < 3) v 0 c ^+ 2.
(** energy of one atom *)
Definition spring_energy (k : F) (a : atom F) : F :=
  amass a / 2%:R * norm2 (avel a) + k / 2%:R * norm2 (apos a).

(** Time-dependent Hamiltonian along the straight line from x0 at t0, and the
    textbook Runge-Kutta step for i c' = H(t) c. *)
Definition ham_line (d n : nat) (ham : 'rV[F]_d -> 'M[F]_n) (x0 v : 'rV[F]_d) (t0 t : F) : 'M[F]_n :=
  ham (x0 + (t - t0) *: v).
Definition rk4_schroedinger (n : nat) (H : F -> 'M[F]_n) (t dt : F) (c : coef F n) : coef F n :=
  let h := dt / 2%:R in
  let k1 := minus_i_H (H t) c in
  let k2 := minus_i_H (H (t + h)) (axpy h k1 c) in
  let k3 := minus_i_H (H (t + h)) (axpy h k2 c) in
  let k4 := minus_i_H (H (t + dt)) (axpy dt k3 c) in
  (c.1 + (dt / 6%:R) *: (k1.1 + 2%:R *: k2.1 + 2%:R *: k3.1 + k4.1),
   c.2 + (dt / 6%:R) *: (k1.2 + 2%:R *: k2.2 + 2%:R *: k3.2 + k4.2)).
Fixpoint rk4_run (m : nat) n (H : F -> 'M[F]_n) (t dt : F) (c : coef F n) : coef F n :=
  if m is m'.+1 then rk4_run m' H (t + dt) dt (rk4_schroedinger H t dt c) else c.
End Spec.
