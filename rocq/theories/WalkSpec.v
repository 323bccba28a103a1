(** Specification vocabulary for the walker properties. *)
From Coq Require Import String.
From Verif Require Import Base PopModel PopSpec WalkModel.
Open Scope Q_scope.

(** Sum over all ranks and walkers of the absolute weights. *)
Definition global_total (ranks : list wstate) : Q := qsum (map local_total ranks).

(** The recorded totals are non-negative on every rank. *)
Definition totals_ok (ranks : list wstate) := forall s, In s ranks -> 0 <= total_weight s.

(** Array lengths agree with the walker number. *)
Definition consistent {P : Type} (s : @walkers P) : Prop :=
  List.length (phiwa s) = nwalkers s /\
  (1 < ncomponents s -> List.length (phiwb s) = nwalkers s)%nat /\
  (forall b, boson s = Some b -> List.length b = nwalkers s) /\
  (1 <= ncomponents s)%nat.

(** What a population control method needs: a permutation from [argsort] for
    'branching'; for the other two non-negative weights with positive sum and an
    offset drawn from [0, 1/N). *)
Definition control_ok (c : control) (ws : list Q) : Prop :=
  match c with
  | Branching sidx _ => is_perm_of_indices (List.length ws) sidx
  | Reconfiguration u | Comb u =>
    (forall w, In w ws -> 0 <= w) /\ 0 < qsum ws /\
    0 <= u /\ u < 1 / inject_Z (Z.of_nat (List.length ws))
  end.

(** All parts of walker [i]: its blocks and its side data. *)
Definition whole_walker {P : Type} (s : @walkers P) (i : nat)
  : option P * option P * option P * (option Q * option Q * option Q) :=
  (nth_error (phiwa s) i,
   if Nat.ltb 1 (ncomponents s) then nth_error (phiwb s) i else None,
   match boson s with Some b => nth_error b i | None => None end,
   (nth_error (ovlp s) i, nth_error (ehybrid s) i, nth_error (log_detR s) i)).

(** Scalar multiple of a vector. *)
Definition scaled (c : Q) (v w : list Q) : Prop :=
  Forall2 (fun x y => y == c * x) v w.
