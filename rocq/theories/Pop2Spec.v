(** What the less used population controls should do. *)
From Verif Require Import Base PopSpec.
Open Scope Q_scope.

(** The outcome of pairing the k-th lightest with the k-th heaviest walker in
    the constant-size variant: [big] tells whether the draw favoured the heavier
    one.  The loser's place keeps walker and weight; the other place gets the
    loser's walker and half the weight of the pair. *)
Definition paired {A} (wk : list A) (ws : list Q) (wk' : list A) (ws' : list Q) (keep change : nat) : Prop :=
  nth_error wk' keep = nth_error wk keep /\ nth keep ws' 0 = nth keep ws 0 /\
  nth_error wk' change = nth_error wk keep /\
  nth change ws' 0 == (qabs (nth keep ws 0) + qabs (nth change ws 0)) / 2.
Definition same_at {A} (wk : list A) (ws : list Q) (wk' : list A) (ws' : list Q) (i : nat) : Prop :=
  nth_error wk' i = nth_error wk i /\ nth i ws' 0 = nth i ws 0.
(** The k-th pair along [sidx], and whether it is out of range. *)
Definition light (sidx : list nat) (k : nat) : nat := nth k sidx 0%nat.
Definition heavy (sidx : list nat) (k : nat) : nat := nth (length sidx - 1 - k) sidx 0%nat.
Definition out_of_range (ws : list Q) (mn mx : Q) (sidx : list nat) (k : nat) : Prop :=
  qabs (nth (light sidx k) ws 0) < mn \/ mx < qabs (nth (heavy sidx k) ws 0).
