(** Model of integral input and bookkeeping: reading FCIDUMP files and shell
    lookup (openms/qmc/tools.py), the sign of a reordering and frozen-core
    extension of determinants (openms/qmc/trial.py), occupied/virtual blocks
    (openms/lib/ov_blocks.py). *)
From Coq Require Import String.
From Verif Require Import Base.
Open Scope nat_scope.

(** ** FCIDUMP, tools.py:296-324.  A record is a value and four indices as read
    from one line after the four header lines; text parsing is not modelled.
    Arrays are functions on indices; [eri] and [h1e] start at zero. *)
Record fci := Fci { fv : Q; fp : nat; fq : nat; fr : nat; fs : nat }.
Record fstate := FS { f_h : nat -> nat -> Q; f_e : nat -> nat -> nat -> nat -> Q; f_nuc : option Q }.
Definition upd2 (a : nat -> nat -> Q) i j v := fun x y => if (x =? i) && (y =? j) then v else a x y.
Definition upd4 (a : nat -> nat -> nat -> nat -> Q) i j k l v :=
  fun x y z w => if (x =? i) && (y =? j) && (z =? k) && (w =? l) then v else a x y z w.
(** index p - 1 into an axis of length norb; -1 is the last element *)
Definition axis (norb p : nat) : res nat :=
  if norb <? p then Err IndexError
  else if p =? 0 then (if norb =? 0 then Err IndexError else Ok (norb - 1)) else Ok (p - 1).
Definition read_line (norb : nat) (st : fstate) (x : fci) : res fstate :=
  if negb (fr x =? 0) then
    rbind (axis norb (fp x)) (fun p => rbind (axis norb (fq x)) (fun q =>
    rbind (axis norb (fr x)) (fun r => rbind (axis norb (fs x)) (fun s =>
    let v := fv x in
    Ok (FS (f_h st)
           (upd4 (upd4 (upd4 (upd4 (f_e st) p q r s v) q p r s v) p q s r v) q p s r v)
           (f_nuc st))))))
  else if negb (fp x =? 0) then
    rbind (axis norb (fp x)) (fun p => rbind (axis norb (fq x)) (fun q =>
    Ok (FS (upd2 (upd2 (f_h st) p q (fv x)) q p (fv x)) (f_e st) (f_nuc st))))
  else Ok (FS (f_h st) (f_e st) (Some (fv x))).
Fixpoint read_lines (norb : nat) (st : fstate) (l : list fci) : res fstate :=
  match l with [] => Ok st | x :: r => rbind (read_line norb st x) (fun st' => read_lines norb st' r) end.
Definition fstart := FS (fun _ _ => 0%Q) (fun _ _ _ _ => 0%Q) None.
(** line 324: [nuc] is unbound when no line set it *)
Definition read_fcidump (norb : nat) (l : list fci)
  : res ((nat -> nat -> Q) * (nat -> nat -> nat -> nat -> Q) * Q) :=
  rbind (read_lines norb fstart l) (fun st =>
    match f_nuc st with Some n => Ok (f_h st, f_e st, n) | None => Err UnboundLocalError end).

(** ** Shells.  tools.py:476-485: a shell has angular momentum l and nc
    contractions. *)
Fixpoint offsets_from (start : nat) (shells : list (nat * nat)) : list nat :=
  start :: match shells with [] => [] | (l, nc) :: r => offsets_from (start + (2 * l + 1) * nc) r end.
Definition indices4bas (shells : list (nat * nat)) : list nat := offsets_from 0 shells.
(** numpy.searchsorted(a, j, side="right") on a sorted array: the number of
    entries not above j *)
Fixpoint searchsorted_right (a : list nat) (j : nat) : nat :=
  match a with [] => 0 | x :: r => if x <=? j then S (searchsorted_right r j) else 0 end.
(** tools.py:556-562 *)
Definition find_shell (a : list nat) (j l : nat) : Z * Z :=
  ((Z.of_nat (searchsorted_right a j) - 1)%Z, (Z.of_nat (searchsorted_right a l) - 1)%Z).

(** ** trial.py:583-602.  [perm] starts as the number 0; adding
    [where(det == o)[0] - nmove] turns it into an array of length one, or of
    length zero when the orbital is absent.  Adding an empty array in place to
    an array of length one raises; the truth value of an empty array is False. *)
Inductive pacc := Start | One (v : Z) | Empty.
Fixpoint where_eq (det : list nat) (o : nat) : option nat :=
  match det with [] => None | x :: r => if x =? o then Some 0 else option_map S (where_eq r o) end.
Definition add_io (acc : pacc) (io : option nat) (nmove : nat) : res pacc :=
  match acc, io with
  | Start, Some i => Ok (One (Z.of_nat i - Z.of_nat nmove)%Z)
  | Start, None => Ok Empty
  | One v, Some i => Ok (One (v + (Z.of_nat i - Z.of_nat nmove))%Z)
  | One _, None => Err ValueError
  | Empty, _ => Ok Empty
  end.
Fixpoint perm_loop (det idx : list nat) (nmove : nat) (acc : pacc) : res pacc :=
  match idx with
  | [] => Ok acc
  | o :: r => rbind (add_io acc (where_eq det o) nmove) (fun a => perm_loop det r (S nmove) a)
  end.
Definition permutation_sign (anh cre ref target : list nat) : res Z :=
  rbind (perm_loop target anh 0 Start) (fun a => rbind (perm_loop ref cre 0 a) (fun b =>
  Ok (match b with One v => if (v mod 2 =? 1)%Z then (-1)%Z else 1%Z | _ => 1%Z end))).

(** ** trial.py:1150-1169: frozen-core extension of the active-space
    occupations; [na], [nb] are the numbers of electrons. *)
Definition extend_core (na nb : nat) (occa occb : list (list nat))
  : res (list (list nat) * list (list nat)) :=
  rbind (index occa 0) (fun a0 => rbind (index occb 0) (fun b0 =>
  if (na <? List.length a0) then Err AssertionError
  else if (nb <? List.length b0) then Err AssertionError
  else let fa := na - List.length a0 in let fb := nb - List.length b0 in
    if (0 <? fa) then
      let core := seq 0 fa in
      Ok (map (fun o => core ++ map (fun x => x + fa) o) occa,
          map (fun o => core ++ map (fun x => x + fb) o) occb)
    else Ok (occa, occb))).

(** ** ov_blocks.py.  A tensor is its four dimensions and its elements. *)
Section Blocks.
Context {V : Type}.
Record tens := Tens { td : nat * nat * nat * nat; te : nat -> nat -> nat -> nat -> V }.
(** a[lo:hi] on each axis *)
Definition cut (t : tens) (a b c d : nat * nat) : tens :=
  Tens (snd a - fst a, snd b - fst b, snd c - fst c, snd d - fst d)
       (fun i j k l => te t (fst a + i) (fst b + j) (fst c + k) (fst d + l)).
Local Open Scope string_scope. Local Open Scope nat_scope.
(** ov_blocks.py:89-115 ([make_two_e_blocks_full]) *)
Definition make_two_e_blocks_full (t : tens) (n1o n1v n2o n2v n3o n3v n4o n4v : nat)
  : res (list (string * tens)) :=
  let '(n1, n2, n3, n4) := td t in
  if negb (n1 =? n1o + n1v) then Err AssertionError
  else if negb (n2 =? n2o + n2v) then Err AssertionError
  else if negb (n3 =? n3o + n3v) then Err AssertionError
  else if negb (n4 =? n4o + n4v) then Err AssertionError
  else
    let vvvv := cut t (n1o, n1) (n2o, n2) (n3o, n3) (n4o, n4) in
    let vvvo := cut t (n1o, n1) (n2o, n2) (n3o, n3) (0, n4o) in
    let vvov := cut t (n1o, n1) (n2o, n2) (0, n3o) (n4o, n4) in
    let vovv := cut t (n1o, n1) (0, n2o) (n3o, n3) (n4o, n4) in
    let ovvv := cut t (0, n1o) (n2o, n2) (n3o, n3) (n4o, n4) in
    let vvoo := cut t (n1o, n1) (n2o, n2) (0, n3o) (0, n4o) in
    let vovo := cut t (n1o, n1) (0, n2o) (n3o, n3) (0, n4o) in
    let ovvo := cut t (0, n1o) (n2o, n2) (n3o, n3) (0, n4o) in
    let voov := cut t (n1o, n1) (0, n2o) (0, n3o) (n4o, n4) in
    let ovov := cut t (0, n1o) (n2o, n2) (0, n3o) (n4o, n4) in
    let oovv := cut t (0, n1o) (0, n2o) (n3o, n3) (n4o, n4) in
    let vooo := cut t (n1o, n1) (0, n2o) (0, n3o) (0, n4o) in
    let ovoo := cut t (0, n1o) (n2o, n2) (0, n3o) (0, n4o) in
    let oovo := cut t (0, n1o) (0, n2o) (n3o, n3) (0, n4o) in
    let ooov := cut t (0, n1o) (0, n2o) (0, n3o) (n4o, n4) in
    let oooo := cut t (0, n1o) (0, n2o) (0, n3o) (0, n4o) in
    Ok [("vvvv", vvvv); ("vvvo", vvvo); ("vvov", vvov); ("vovv", vovv);
        ("ovvv", ovvv); ("vvoo", vvoo); ("vovo", vovo); ("ovov", ovov);
        ("voov", voov); ("ovvo", ovvo); ("oovv", oovv); ("vooo", vooo);
        ("ovoo", ovoo); ("oovo", oovo); ("ooov", ooov); ("oooo", oooo)].
(** ov_blocks.py:6-19: [hstack]/[vstack] of A, zeros and B; matrices as
    dimensions and elements *)
Record mat := Mat { mr : nat; mc : nat; me : nat -> nat -> V }.
Definition hstack (A B : mat) : res mat :=
  if mr A =? mr B
  then Ok (Mat (mr A) (mc A + mc B) (fun i j => if j <? mc A then me A i j else me B i (j - mc A)))
  else Err ValueError.
Definition vstack (A B : mat) : res mat :=
  if mc A =? mc B
  then Ok (Mat (mr A + mr B) (mc A) (fun i j => if i <? mr A then me A i j else me B (i - mr A) j))
  else Err ValueError.
Definition block_diag (zero : V) (A B : mat) : res mat :=
  let zeros r c := Mat r c (fun _ _ => zero) in
  rbind (hstack A (zeros (mr A) (mc B))) (fun M1 =>
  rbind (hstack (zeros (mr B) (mc A)) B) (fun M2 => vstack M1 M2)).
End Blocks.
Arguments tens V : clear implicits.
Arguments mat V : clear implicits.
