(** Shared vocabulary of the models: python exceptions as values, list
    indexing and update, finite sums over rationals.  Nothing in this file
    models a specific piece of /repo; it encodes python's semantics of
    exceptions, [l[i]] and [sum]. *)
From Coq Require Export List Arith ZArith QArith Lia.
Export ListNotations.
Open Scope nat_scope.

(** Exceptions raised by the modelled code. *)
Inductive exn : Type :=
| IndexError | NameError | AssertionError | ZeroDivisionError | ValueError
| TypeError | AttributeError | RecursionError | KeyError | NotImplementedError
| RuntimeError | UnboundLocalError | OverflowError | OutOfFuel.

Inductive res (A : Type) : Type :=
| Ok (a : A)
| Err (e : exn).
Arguments Ok {A} a.
Arguments Err {A} e.

Definition rbind {A B} (x : res A) (f : A -> res B) : res B :=
  match x with Ok a => f a | Err e => Err e end.

Definition rmap {A B} (f : A -> B) (x : res A) : res B :=
  match x with Ok a => Ok (f a) | Err e => Err e end.

(** python [l[i]] for a non-negative index. *)
Definition index {A} (l : list A) (i : nat) : res A :=
  match nth_error l i with Some a => Ok a | None => Err IndexError end.

(** python [l[i] = x] for an index in range (no-op out of range; callers
    check the range first). *)
Fixpoint upd {A} (l : list A) (i : nat) (x : A) : list A :=
  match l, i with
  | [], _ => []
  | _ :: r, O => x :: r
  | a :: r, S i' => a :: upd r i' x
  end.

(** [sum(l)] for rationals. *)
Fixpoint qsum (l : list Q) : Q :=
  match l with [] => 0%Q | x :: r => (x + qsum r)%Q end.

Definition qabs (x : Q) : Q := if Qlt_le_dec x 0 then (- x)%Q else x.

(** [x < y] as a boolean. *)
Definition qltb (x y : Q) : bool := if Qlt_le_dec x y then true else false.
Definition qleb (x y : Q) : bool := Qle_bool x y.

(** Monadic map. *)
Fixpoint rmapM {A B} (f : A -> res B) (l : list A) : res (list B) :=
  match l with
  | [] => Ok []
  | x :: r => rbind (f x) (fun y => rbind (rmapM f r) (fun ys => Ok (y :: ys)))
  end.

(** [sum(l)] for integers. *)
Open Scope Z_scope.
Fixpoint zsum (l : list Z) : Z := match l with [] => 0 | x :: r => x + zsum r end.
