(** Model of the hopping part of openms/qmd/sh.py (lines 141-204): densities,
    hopping probabilities, the decision to hop, the velocity change and the
    decoherence reset.  Numbers are rationals, complex numbers are pairs, a
    velocity is the flat list of its components, random numbers and numpy's
    argsort are arguments.  Broadcasting of arrays with different lengths is
    not modelled: a length mismatch raises ValueError. *)
From Verif Require Import Base HopModel.
Open Scope Q_scope.

(** SH.get_densities, sh.py 141-142, one molecule: conj(c_j) c_k *)
Definition densities (c : nat -> cplx) (j k : nat) : cplx :=
  (fst (c j) * fst (c k) + snd (c j) * snd (c k),
   fst (c j) * snd (c k) - snd (c j) * fst (c k)).

(** one entry of the table, sh.py 158-164, for a molecule in state [cur]; the
    Hamiltonian is real, so Re(density * ham) = Re(density) * ham *)
Definition hop_entry (edt : Q) (rho : nat -> nat -> cplx) (ham : hmat) (cur j : nat) : Q :=
  if Nat.eqb j cur then 0
  else 2 * edt * (- (fst (rho cur j) * ham cur j)) / fst (rho j j).

(** SH.hopping_probability, sh.py 144-165.  [states] is the array of current
    states; range() of an array raises TypeError, once self.states[i] has been
    looked up. *)
Fixpoint hop_rows (states : list nat) (mols : list nat) : res (list (list Q)) :=
  match mols with
  | [] => Ok []
  | i :: _ => rbind (index states i) (fun _ => Err TypeError)
  end.
Definition hopping_probability (nmol : nat) (states : list nat) : res (list (list Q)) :=
  hop_rows states (seq 0 nmol).
(** the same loop read with range(self.nstates) on line 155: the row of one
    molecule *)
Definition hop_row_read (n : nat) (edt : Q) (rho : nat -> nat -> cplx) (ham : hmat) (cur : nat) : list Q :=
  map (hop_entry edt rho ham cur) (seq 0 n).

(** SH.velocity_rescaling, sh.py 185-199 *)
Definition kicked (dt de : Q) (v d : list Q) : list Q :=
  map (fun p => fst p - de * snd p * dt) (combine v d).
Definition velocity_rescaling (dt : Q) (e : list Q) (nacr : nat -> nat -> list Q)
    (si sf : nat) (v : list Q) : res (nat * list Q * nat) :=
  rbind (index e si) (fun a => rbind (index e sf) (fun b =>
    let d := nacr si sf in
    if Nat.eqb (length d) (length v) then
      let tmp := kicked dt (a - b) v d in
      if existsb (fun p => qltb (fst p * snd p) 0) (combine tmp v)
      then Ok (si, v, 2%nat) else Ok (sf, tmp, 1%nat)
    else Err ValueError)).

(** the loop over j of SH.check_hops, sh.py 172-183; [possible] and [idx] are
    the rows possible_hops[i] and sort_idx[i].  The closing [continue] does
    nothing. *)
Fixpoint hop_loop (dt : Q) (e : list Q) (nacr : nat -> nat -> list Q)
    (possible : list bool) (idx : list nat) (js : list nat) (sv : nat * list Q) : res (nat * list Q) :=
  match js with
  | [] => Ok sv
  | j :: r => rbind (index possible j) (fun b =>
      if b then rbind (index idx j) (fun f =>
        rbind (velocity_rescaling dt e nacr (fst sv) f (snd sv)) (fun t =>
          hop_loop dt e nacr possible idx r (fst t)))
      else hop_loop dt e nacr possible idx r sv)
  end.
(** sorted_probability > tmp, sh.py 168-171, one row *)
Definition possible_hops (argsort : list Q -> list nat) (p u : list Q) : list bool :=
  map (fun t => qltb (snd t) (nth (fst t) p 0)) (combine (argsort p) u).
Definition check_hops1 (dt : Q) (n : nat) (argsort : list Q -> list nat) (e : list Q)
    (nacr : nat -> nat -> list Q) (p u : list Q) (sv : nat * list Q) : res (nat * list Q) :=
  hop_loop dt e nacr (possible_hops argsort p u) (argsort p) (seq 0 n) sv.
(** SH.check_hops, sh.py 167-183: every molecule with the same energies and
    couplings *)
Definition check_hops (dt : Q) (n : nat) (argsort : list Q -> list nat) (e : list Q)
    (nacr : nat -> nat -> list Q) (mols : list (list Q * list Q * (nat * list Q))) : res (list (nat * list Q)) :=
  rmapM (fun m => check_hops1 dt n argsort e nacr (fst (fst m)) (snd (fst m)) (snd m)) mols.

(** SH.instantaneous_decoherence, sh.py 201-204 *)
Definition instantaneous_decoherence (n : nat) (s : Z) : res (list Q) :=
  rbind (axis n s) (fun k => Ok (upd (repeat 0 n) k 1)).
