(** What integral input should give. *)
From Coq Require Import String Sorted.
From Verif Require Import Base IntsModel.
Open Scope nat_scope.

(** Two index pairs are the same up to order. *)
Definition same_pair (a b c d : nat) : bool := ((a =? c) && (b =? d)) || ((a =? d) && (b =? c)).
(** The record gives the element (p q | r s), zero-based, up to exchange inside
    a pair. *)
Definition gives_eri (p q r s : nat) (x : fci) : bool :=
  negb (fr x =? 0) && same_pair (fp x) (fq x) (S p) (S q) && same_pair (fr x) (fs x) (S r) (S s).
Definition gives_h1e (p q : nat) (x : fci) : bool :=
  (fr x =? 0) && negb (fp x =? 0) && same_pair (fp x) (fq x) (S p) (S q).
Definition gives_nuc (x : fci) : bool := (fr x =? 0) && (fp x =? 0).
(** The value of the last record satisfying a test. *)
Definition last_value (f : fci -> bool) (l : list fci) : option Q :=
  match rev (filter f l) with [] => None | x :: _ => Some (fv x) end.
Definition or_zero (o : option Q) : Q := match o with Some v => v | None => 0%Q end.
(** Indices as they occur in a file for [norb] orbitals. *)
Definition well_indexed (norb : nat) (x : fci) : Prop :=
  (fr x <> 0 -> 1 <= fp x <= norb /\ 1 <= fq x <= norb /\ fr x <= norb /\ 1 <= fs x <= norb) /\
  (fr x = 0 -> fp x <> 0 -> fp x <= norb /\ 1 <= fq x <= norb).

(** Number of inversions of a list. *)
Fixpoint inversions (l : list nat) : nat :=
  match l with [] => 0 | x :: r => List.length (filter (fun y => y <? x) r) + inversions r end.
Definition sign_of (l : list nat) : Z := if Nat.even (inversions l) then 1%Z else (-1)%Z.
(** Move the orbitals [xs] to the front of a determinant. *)
Definition to_front (xs det : list nat) : list nat :=
  xs ++ filter (fun y => negb (existsb (Nat.eqb y) xs)) det.
Definition ascending (l : list nat) : Prop := StronglySorted lt l.

(** Letters of block names. *)
Definition letter (virt : bool) : string := if virt then "v"%string else "o"%string.
Definition name (a b c d : bool) : string :=
  (letter a ++ letter b ++ letter c ++ letter d)%string.

(** One axis of a block: [virt] tells which half, the number is the position in
    that half; [no] occupied come before [nv] virtual. *)
Definition half (no nv : nat) (virt : bool) : nat := if virt then nv else no.
Definition start (no : nat) (virt : bool) : nat := if virt then no else 0.
Definition at_axis (no nv i : nat) (p : bool * nat) : Prop :=
  snd p < half no nv (fst p) /\ start no (fst p) + snd p = i.

(** AO index j lies in the half-open range of shell k. *)
Definition contains (a : list nat) (k j : nat) : Prop :=
  S k < List.length a /\ nth k a 0 <= j < nth (S k) a 0.
(** Number of AOs of a shell; sums. *)
Definition shell_size (x : nat * nat) : nat := (2 * fst x + 1) * snd x.
Fixpoint total (l : list nat) : nat := match l with [] => 0 | x :: r => x + total r end.
(** The record with bra and ket exchanged. *)
Definition swapped (x y : fci) : Prop :=
  fv x = fv y /\ fp x = fr y /\ fq x = fs y /\ fr x = fp y /\ fs x = fq y.
