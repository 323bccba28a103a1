(** What the SCF drivers should do. *)
From Coq Require Import Reals.
From Verif Require Import Base BosonModel ScqModel ScfModel.
Open Scope R_scope.

Section Driver.
Context {St Dm Hc V Fk Mo : Type} (mf : methods St Dm Hc V Fk Mo).

(** the locals after cycle k (counted from 0), starting from s, dm, vhf *)
Fixpoint after (cyc : nat -> St -> Dm -> V -> loc St Dm V Fk Mo) (s : St) (dm : Dm) (vhf : V) (k : nat) : loc St Dm V Fk Mo :=
  match k with
  | O => cyc 0%nat s dm vhf
  | S j => let l := after cyc s dm vhf j in cyc (S j) (l_st l) (l_dm l) (l_vhf l)
  end.
(** energy change and gradient of cycle k are below the tolerances *)
Definition converged_at (tol tolg : R) (cyc : nat -> St -> Dm -> V -> loc St Dm V Fk Mo) (s : St) (dm : Dm) (vhf : V) (e : R) (k : nat) : Prop :=
  let l := after cyc s dm vhf k in
  let e0 := match k with O => e | S j => l_e (after cyc s dm vhf j) end in
  Rabs (l_e l - e0) < tol /\ l_g l < tolg.

(** object, potential and energy before the first cycle *)
Definition start (s : St) (dm : Dm) : St * V * R :=
  let (h, s) := get_hcore mf dm s in
  let (v, s) := get_veff mf dm None s in
  let (e, s) := energy_tot mf dm h v s in
  let (_, s) := get_fock mf h v dm s in
  (s, v, e).

(** energy of the density dm: core Hamiltonian and potential evaluated for it *)
Definition energy_of (dm : Dm) (last : option (Dm * V)) (s : St) : R :=
  let (h, s) := get_hcore mf dm s in
  let (v, s) := get_veff mf dm last s in
  fst (energy_tot mf dm h v s).
End Driver.

(** maximal group [r, t) of at least two eigenvalues whose neighbours differ by
    less than thr *)
Definition close_at (thr : R) (e : list R) (i : nat) : Prop := Rabs (nth (S i) e 0 - nth i e 0) < thr.
Definition degenerate_block (thr : R) (e : list R) (r t : nat) : Prop :=
  (S r < t)%nat /\ (t <= length e)%nat /\
  (forall i, (r <= i)%nat -> (S i < t)%nat -> close_at thr e i) /\
  (r = 0%nat \/ ~ close_at thr e (r - 1)) /\ (t = length e \/ ~ close_at thr e (t - 1)).

(** energy of the density D with the residual couplings gd in place of those of
    the displacements eta *)
Definition mixed (n : nat) (om : R) (h : mat) (eri : nat -> nat -> nat -> nat -> R) (G : R -> R) (D : mat) (gd eta : nat -> R) : R :=
  energy n D (hcore_do om h gd eta G) (veff_do n D om (veff_eri n D eri eta G) gd).
(** parameter sets of equal sizes *)
Definition same_sizes {A} (p c : vparams A) : Prop :=
  length (v_eta A p) = length (v_eta A c) /\ length (v_f A p) = length (v_f A c) /\ length (v_sq A p) = length (v_sq A c).
(** all parameters that are being optimised are those of p, the others those of c *)
Definition restored {A} (varf vsq : bool) (p c out : vparams A) : Prop :=
  v_eta A out = v_eta A p /\ v_f A out = v_f A (if varf then p else c) /\ v_sq A out = v_sq A (if vsq then p else c).
