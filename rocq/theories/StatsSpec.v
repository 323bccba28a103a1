(** What the data analysis should compute. *)
From Coq Require Import Reals Permutation.
From Verif Require Import Base.
Open Scope R_scope.

Fixpoint total (l : list R) : R := match l with [] => 0 | x :: r => x + total r end.
Definition average (l : list R) : R := total l / INR (length l).
(** [m2] is the mean squared deviation of [l] *)
Definition deviation2 (l : list R) : R := total (map (fun x => (x - average l) ^ 2) l) / INR (length l).
(** [l'] is [l] with exactly the elements satisfying [P] kept, in order. *)
Inductive kept (P : R -> Prop) : list R -> list R -> Prop :=
| kept_nil : kept P [] []
| kept_yes x l l' : P x -> kept P l l' -> kept P (x :: l) (x :: l')
| kept_no x l l' : ~ P x -> kept P l l' -> kept P (x :: l) l'.
(** The last [m] elements of [l] are [t]. *)
Definition is_tail (m : nat) (l t : list R) : Prop := exists h, l = h ++ t /\ length t = m.
(** [q] is the a-th quartile of [data], interpolated linearly between the
    neighbouring order statistics. *)
Definition is_quartile (a : nat) (data : list R) (q : R) : Prop :=
  exists s k f, Permutation s data /\
    (forall i j, (i <= j < length s)%nat -> nth i s 0 <= nth j s 0) /\
    (a * (length data - 1) = 4 * k + f)%nat /\ (f < 4)%nat /\
    q = nth k s 0 + INR f / 4 * (nth (S k) s 0 - nth k s 0).
