(** Model of openms/lib/hippynn_es_driver.py (NNDriver): coordinate and energy
    units, forces, dipole gradients, couplings and what the driver writes into
    the molecules.  Real numbers for energies and forces, rationals for the
    couplings (which go on to SH.get_H).  The network and torch's autograd are
    arguments.  A geometry is the flat list of its components, as a function.
    The import guards and the loading of the model are left out. *)
From Coq Require Import Reals.
From Verif Require Import Base HopModel.
Open Scope R_scope.

Definition geom := nat -> R.

(** coords_conversion of __init__, 98-102 *)
Definition coords_conversion (angstrom : bool) : R := if angstrom then 18897259886 / 10000000000 else 1.

(** sum over the molecules of a batch: e[:, i].sum() *)
Fixpoint rsum (n : nat) (f : nat -> R) : R := match n with O => 0 | S m => rsum m f + f m end.

(** torch.autograd.grad(g, R)[0]: partial derivatives of a function of the batch
    of geometries at [r] *)
Definition autograd_t := ((nat -> geom) -> R) -> (nat -> geom) -> nat -> nat -> R.

(** attributes of the driver: self.Z, present after get_Z only *)
Record driver := Drv { dZ : option (list (list Z)); dconv : R; econv : R; dnstates : nat }.

(** get_R, 112-123 *)
Definition get_R (d : driver) (coords : nat -> geom) : nat -> geom := fun m k => coords m k / dconv d.

(** make_predictions, 130-138: energies in atomic units as a function of R.
    [net z r i] is output i of the network; self.Z is read before anything is
    predicted. *)
Definition make_predictions (net : list Z -> geom -> nat -> R) (d : driver) :
    res ((nat -> geom) -> nat -> nat -> R) :=
  match dZ d with
  | None => Err AttributeError
  | Some z => Ok (fun r m i => net (nth m z nil) (r m) i * econv d)
  end.

(** nuc_grad, 140-147: for every molecule the forces of states 0..nstates;
    [nout] is the number of energies the network returns *)
Definition nuc_grad (autograd : autograd_t) (nmol nout : nat) (d : driver)
    (E : (nat -> geom) -> nat -> nat -> R) (r : nat -> geom) : res (nat -> nat -> nat -> R) :=
  if (dnstates d + 1 <=? nout)%nat then
    Ok (fun m i k => - autograd (fun q => rsum nmol (fun a => E q a i)) r m k / dconv d)
  else Err IndexError.

(** _assign_forces, 149-151; a molecule is the list of the forces of its
    states *)
Fixpoint assign_loop {A} (force : nat -> A) (states : list A) (is : list nat) : res (list A) :=
  match is with
  | [] => Ok states
  | i :: r => if (i <? length states)%nat then assign_loop force (upd states i (force i)) r
              else Err IndexError
  end.
Definition assign_forces {A} (n : nat) (states : list A) (force : nat -> A) : res (list A) :=
  assign_loop force states (seq 0 n).

(** calculate_force, 153-157 *)
Definition calculate_force (net : list Z -> geom -> nat -> R) (autograd : autograd_t) (nout : nat)
    (d : driver) (coords : nat -> geom) (mols : list (list geom)) : res (list (list geom)) :=
  rbind (make_predictions net d) (fun E =>
  rbind (nuc_grad autograd (length mols) nout d E (get_R d coords)) (fun f =>
    rmapM (fun im => assign_forces (dnstates d) (snd im) (f (fst im))) (combine (seq 0 (length mols)) mols))).

(** get_dipole_grad, 234-246; [D r m i] is one component of the transition
    dipole of state i *)
Definition get_dipole_grad (autograd : autograd_t) (nmol : nat) (D : (nat -> geom) -> nat -> nat -> R)
    (r : nat -> geom) : nat -> nat -> nat -> R :=
  fun m i k => autograd (fun q => rsum nmol (fun a => D q a i)) r m k.

(** ** couplings *)
Open Scope Q_scope.

(** state_pairs, 82: torch.triu_indices(n, n, 1).T *)
Definition state_pairs (n : nat) : list (nat * nat) :=
  flat_map (fun i => map (fun j => (i, j)) (seq (S i) (n - S i))) (seq 0 n).

(** get_nacr, 185-204, one molecule: [e] the energies of the ground and the
    excited states, [scaled] the network's NACR * dE per pair.  torch.stack of
    an empty list raises RuntimeError. *)
Definition get_nacr (n : nat) (e : nat -> Q) (scaled : list (list Q)) : res (list (list Q)) :=
  match state_pairs n with
  | [] => Err RuntimeError
  | prs => Ok (map (fun ps => map (fun x => x / (e (S (snd (fst ps))) - e (S (fst (fst ps))))) (snd ps))
                   (combine prs scaled))
  end.
(** get_nact, 159-183, one molecule; [v] and the rows of [nacr] have the same
    number of components *)
Definition get_nact (v : list Q) (nacr : list (list Q)) : list Q :=
  map (fun d => qsum (map (fun p => fst p * snd p) (combine v d))) nacr.

(** python call of get_energies, 208-215: a method without parameters *)
Definition call_get_energies {A B} (args : list A) (pred : B) : res B :=
  match args with [] => Ok pred | _ => Err TypeError end.
(** SH.get_coef_dot, sh.py 103-108, with this driver: the Hamiltonian of one
    molecule at a new time; get_energies is called with the coordinates *)
Definition sh_hamiltonian {A} (n : nat) (coords : A) (e : list Q) (v : list Q) (nacr : list (list Q)) (h : hmat) : res hmat :=
  rbind (call_get_energies [coords] e) (fun e' => get_H1 n e' (get_nact v nacr) h).
(** the same with both calls read as the driver defines them: energies without
    arguments, couplings from get_nacr *)
Definition sh_hamiltonian_read (n : nat) (e : nat -> Q) (scaled : list (list Q)) (v : list Q) (h : hmat) : res hmat :=
  rbind (get_nacr n e scaled) (fun nacr => get_H1 n (map e (seq 0 (S n))) (get_nact v nacr) h).
