(** Vocabulary for the surface-hopping properties: fewest-switches
    probabilities, population flux, sorting, energy and momentum. *)
From Coq Require Import Permutation Sorted.
From Verif Require Import Base HopModel.
Open Scope Q_scope.

(** Tully's probability to leave [cur] for [j] within [dt]: twice the real part
    of conj(c_cur) c_j times the coupling, relative to the population of the
    state that is left *)
Definition tully (dt : Q) (c : nat -> cplx) (d : hmat) (cur j : nat) : Q :=
  2 * dt * (- ((fst (c cur) * fst (c j) + snd (c cur) * snd (c j)) * d cur j))
  / (fst (c cur) * fst (c cur) + snd (c cur) * snd (c cur)).

(** the product of complex numbers and the conjugate *)
Definition cmul (x y : cplx) : cplx := (fst x * fst y - snd x * snd y, fst x * snd y + snd x * fst y).
Definition cconj (x : cplx) : cplx := (fst x, - snd x).

(** population of a state, its rate of change for given derivatives of the
    coefficients *)
Definition population (c : nat -> cplx) (k : nat) : Q := fst (c k) * fst (c k) + snd (c k) * snd (c k).
Definition population_rate (c dc : nat -> cplx) (k : nat) : Q :=
  2 * (fst (c k) * fst (dc k) + snd (c k) * snd (dc k)).
(** population that flows from k to j per unit time under c' = -i H c *)
Definition outflow (h : hmat) (c : nat -> cplx) (k j : nat) : Q :=
  - (2 * h k j * (fst (c k) * snd (c j) - snd (c k) * fst (c j))).

(** numpy's argsort: a permutation of the positions that sorts the values *)
Definition sorts (argsort : list Q -> list nat) (p : list Q) : Prop :=
  Permutation (argsort p) (seq 0 (length p)) /\
  StronglySorted Qle (map (fun i => nth i p 0) (argsort p)).

(** independent events: the weight of an outcome [b] when event k has
    probability [p_k] *)
Fixpoint weight (p : list Q) (b : list bool) : Q :=
  match p, b with
  | x :: p', y :: b' => (if y then x else 1 - x) * weight p' b'
  | _, _ => 1
  end.
(** all outcomes of n events *)
Fixpoint outcomes (n : nat) : list (list bool) :=
  match n with
  | O => [[]]
  | S m => map (cons true) (outcomes m) ++ map (cons false) (outcomes m)
  end.
(** probability of a property of the outcome *)
Definition prob (p : list Q) (A : list bool -> bool) : Q :=
  qsum (map (fun b => if A b then weight p b else 0) (outcomes (length p))).

(** kinetic energy and momentum along one axis for masses per component *)
Definition kinetic (m v : list Q) : Q :=
  qsum (map (fun p => (1 # 2) * fst p * (snd p * snd p)) (combine m v)).
Definition momentum (m v : list Q) : Q := qsum (map (fun p => fst p * snd p) (combine m v)).

(** end state when the events [b] happen in the order [idx], each one moving the
    system; [s] is the state before *)
Fixpoint last_hop (idx : list nat) (b : list bool) (s : nat) : nat :=
  match idx, b with
  | i :: idx', y :: b' => last_hop idx' b' (if y then i else s)
  | _, _ => s
  end.
(** probability that none of the events happens *)
Fixpoint none_of (p : list Q) : Q := match p with [] => 1 | x :: r => (1 - x) * none_of r end.
(** componentwise equality *)
Definition same_vec (v w : list Q) : Prop := Forall2 Qeq v w.
