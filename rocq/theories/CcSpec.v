(** Vocabulary for the properties of the coupled-cluster code. *)
From Coq Require Import Bool.
From Verif Require Import Base CcModel.
Local Open Scope nat_scope.

(** sum of the energies of the photons listed in [ps] *)
Definition photon_energy (w : list Q) (ps : list nat) : Q := qsum (map (fun p => nth p w 0%Q) ps).
Definition below (n : nat) (ps : list nat) : Prop := Forall (fun p => p < n) ps.

(** cut a vector into consecutive pieces of the given sizes *)
Fixpoint cut (sizes : list nat) (v : list Q) : list (list Q) :=
  match sizes with [] => [] | s :: r => firstn s v :: cut r (skipn s v) end.
Definition pieces (x : option (list (list Q))) : list (list Q) := match x with Some l => l | None => [] end.
(** all photonic amplitudes in the order of the vector *)
Definition photonic (add_U2n : bool) (a : amps) : list (list Q) :=
  pieces (sn a) ++ pieces (u1n a) ++ (if add_U2n then pieces (u2n a) else []).
(** T2 unchanged under exchange of the two electron pairs *)
Definition pair_symmetric (a : amps) : Prop := forall x y i j, t2 a x y i j = t2 a y x j i.

(** iteration [k], coming after an energy [eold], meets both thresholds *)
Definition meets (E resid : nat -> Q) (et tt : Q) (k : nat) (eold : Q) : bool :=
  qltb (qabs (E k - eold)) et && qltb (resid k) tt.
