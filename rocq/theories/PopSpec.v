(** Specification vocabulary for the branching properties: nothing here
    refers to the model. *)
From Verif Require Import Base.
From Coq Require Import Permutation.
Open Scope Q_scope.

(** [s] is a result [np.argsort] may return for a vector of length [n]: a
    permutation of the indices.  (The tie order of numpy's sort is not
    specified, so the theorems quantify over all of them.) *)
Definition is_perm_of_indices (n : nat) (s : list nat) : Prop :=
  Permutation s (seq 0 n).

(** The weights are non-decreasing in absolute value along [sidx]. *)
Definition sorted_by_weight (weights : list Q) (sidx : list nat) : Prop :=
  forall p q i j, (p <= q)%nat -> nth_error sidx p = Some i -> nth_error sidx q = Some j ->
    qabs (nth i weights 0) <= qabs (nth j weights 0).

(** Total weight carried by the entries labelled [i]. *)
Definition weight_of (i : nat) (out : list (nat * Q)) : Q :=
  qsum (map snd (filter (fun p => Nat.eqb (fst p) i) out)).

Definition weight_of_res (i : nat) (r : res (list (nat * Q))) : Q :=
  match r with Ok out => weight_of i out | Err _ => 0 end.

(** Expectation of [f] over independent coins, the [k]-th of which is heads
    (true) with probability [nth k qs]. *)
Fixpoint expect (qs : list Q) (f : list bool -> Q) : Q :=
  match qs with
  | [] => f []
  | q :: r => q * expect r (fun l => f (true :: l))
              + (1 - q) * expect r (fun l => f (false :: l))
  end.

(** Probability that the heavier walker of a pair is the one cloned. *)
Definition share (ws we : Q) : Q := if Qeq_bool (ws + we) 0 then 0 else we / (ws + we).

(** The probabilities of the successive pairs: lightest with heaviest, second
    lightest with second heaviest, ... of the weights [sw] in sorted order. *)
Definition pair_shares (sw : list Q) : list Q :=
  map (fun k => share (nth k sw 0) (nth (length sw - 1 - k) sw 0))
      (seq 0 (length sw / 2)).

(** Number of times walker [j] occurs in a selection of labelled walkers. *)
Definition copies (j : nat) (out : list nat) : nat :=
  length (filter (fun k => Nat.eqb k j) out).

Definition copies_res (j : nat) (r : res (list nat * list Q)) : nat :=
  match r with Ok (ph, _) => copies j ph | Err _ => 0%nat end.

(** Sum of [f 0 .. f (n-1)]. *)
Fixpoint zsum_n (f : nat -> Z) (n : nat) : Z :=
  match n with O => 0%Z | S k => (zsum_n f k + f k)%Z end.

(** Offsets [k/(M n)], k < M, a uniform grid on [0, 1/n). *)
Definition grid_offset (n M k : nat) : Q :=
  inject_Z (Z.of_nat k) / (inject_Z (Z.of_nat M) * inject_Z (Z.of_nat n)).

(** Probability that a walker lighter than the lower bound survives. *)
Definition survival (lb w : Q) : Q := if qltb w lb then w / lb else 0.

(** Walkers sent by / received by rank [r] under a plan of triples
    (sender, receiver, amount). *)
Open Scope Z_scope.
Definition sent (r : nat) (pl : list (nat * nat * Z)) : Z :=
  zsum (map snd (filter (fun t => Nat.eqb (fst (fst t)) r) pl)).
Definition received (r : nat) (pl : list (nat * nat * Z)) : Z :=
  zsum (map snd (filter (fun t => Nat.eqb (snd (fst t)) r) pl)).
