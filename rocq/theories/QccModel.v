(** The amplitude equations of QED-CCSD
    (/repo/openms/mqed/qedcc_equations.py, which holds the plain equations, and
    /repo/openms/mqed/myqedcc_equations_opt.py, which is the module that
    /repo/openms/mqed/ccsd.py lines 28 and 234 really use).

    Every function of the two modules is straight-line code over numpy arrays:
    [x = a.copy()], [x = numpy.zeros(..)], [x += c * einsum(spec, a, b, ..)],
    [x -= ..], [.transpose(..)], products by a scalar and the fixed index 0 of
    the photon modes, under tests on the numbers of photon states and on the
    presence of the coupled double amplitudes.  This file gives a language
    with exactly these constructs and its meaning; QccCode.v holds the
    functions, one statement of the language for each statement of the source.

    Simplifications: entries are elements of an arbitrary field, so rounding is
    not modelled; the keyword [optimize] of einsum only chooses the order of
    the contraction and is dropped; an array is a function from index tuples to
    entries; the range of a letter of an einsum is decided by the letter
    (a-f: virtual, i-n: occupied, I J K L x y z: photon modes), and [chk_prog]
    checks that every operand really has these axes, so that no shape error can
    arise.  Copies and views are not told apart: QccCode.v has no in-place
    update of an array that another name still refers to. *)
From Coq Require Import String Ascii.
From mathcomp Require Import all_ssreflect all_algebra.
Set Implicit Arguments.
Unset Strict Implicit.
Unset Printing Implicit Defensive.
Import GRing.Theory.
Local Open Scope ring_scope.
Open Scope string_scope.
Open Scope ring_scope.

Definition string_eqMixin := EqMixin String.eqb_spec.
Canonical string_eqType := EqType string string_eqMixin.

(** An index letter: its kind (0 occupied, 1 virtual, 2 photon mode) and a
    number.  numpy.einsum takes any letter; the two modules keep to the
    conventions of the header. *)
Definition var := (nat * nat)%type.

(** A letter of an einsum specification (conventions of both modules, e.g.
    myqedcc_equations_opt.py lines 50-103). *)
Definition letter (c : ascii) : var :=
  match c with
  | "a" => (1, 0) | "b" => (1, 1) | "c" => (1, 2)
  | "d" => (1, 3) | "e" => (1, 4) | "f" => (1, 5)
  | "i" => (0, 0) | "j" => (0, 1) | "k" => (0, 2)
  | "l" => (0, 3) | "m" => (0, 4) | "n" => (0, 5)
  | "I" => (2, 0) | "J" => (2, 1) | "K" => (2, 2) | "L" => (2, 3)
  | "x" => (2, 4) | "y" => (2, 5) | "z" => (2, 6)
  | _ => (5, 0)
  end%char%N.

(** Reading a specification "ab,cd->ac" of numpy.einsum: the letters of the
    operands and the letters of the result. *)
Fixpoint parse (s : string) (cur : seq var) (acc : seq (seq var)) :
  seq (seq var) * seq var :=
  match s with
  | EmptyString => (rev acc, rev cur)
  | String c s' =>
      match c with
      | "," => parse s' [::] (rev cur :: acc)
      | ">" => parse s' [::] (rev cur :: acc)
      | "-" => parse s' cur acc
      | " " => parse s' cur acc
      | _ => parse s' (letter c :: cur) acc
      end%char
  end.
Definition spec_of (s : string) := parse s [::] [::].

(** An operand: the name of an array and the number of leading zeros it is
    indexed with ([g.oo[0]] is [("g.oo", 1)],
    myqedcc_equations_opt.py lines 1090-1110; [U1nold[1][0,0]] is
    [("U1nold[1]", 2)], line 1083). *)
Definition atom := (string * nat)%type.

(** Expressions.  [Zero s] is numpy.zeros with the axes [s] (a string of the
    letters o, v, x); [Sc z k e] is z/2^k times e. *)
Inductive ex :=
| At of atom
| Zero of string
| Sc of int & nat & ex
| Add of ex & ex
| Tr of seq nat & ex
| Mul of atom & ex
| Ein of string & seq atom.

(** Tests around statements (e.g. myqedcc_equations_opt.py lines 54, 62, 84,
    91, 122-125, 557, 580).  [T1gt n] is [nfock1 > n], [T2gt n] is
    [nfock2 > n], [TU2] is [U2nold[0] is not None]. *)
Inductive test := T1gt of nat | T2gt of nat | TU2.
Record cfg := Cfg { nf1 : nat; nf2 : nat; u2 : bool }.
Definition test_on (c : cfg) (t : test) : bool :=
  match t with
  | T1gt n => (n < nf1 c)%N
  | T2gt n => (n < nf2 c)%N
  | TU2 => u2 c
  end.

(** A statement: its tests, the array it writes, whether it adds to the old
    contents, and the expression. *)
Record stmt := St { guard : seq test; tgt : string; acc : bool; rhs : ex }.
Notation "n :== e" := (St [::] n false e) (at level 70).
Notation "n +== e" := (St [::] n true e) (at level 70).
Definition when (ts : seq test) (s : stmt) : stmt :=
  St (ts ++ guard s) (tgt s) (acc s) (rhs s).
Definition prog := seq stmt.

(** The statements that run for a given configuration. *)
Definition live (c : cfg) (p : prog) : prog :=
  [seq s <- p | all (test_on c) (guard s)].

(* ------------------------------------------------------------------ *)
(** ** Meaning *)

Section Meaning.
Variable F : fieldType.
(** Sizes of the ranges of the kinds of letters. *)
Variable D : nat -> nat.

Definition val := seq nat -> F.
Definition env := string -> val.

(** Assignments of values to letters. *)
Definition asg := var -> nat.
Definition updv (r : asg) (b : var) (x : nat) : asg :=
  fun v => if v == b then x else r v.
Definition bindv (xs : seq var) (ix : seq nat) : asg :=
  fun v => if v \in xs then nth 0%N ix (index v xs) else 0%N.

(** Sum over all values of the letters [bs]. *)
Fixpoint bsum (bs : seq var) (r : asg) (G : asg -> F) : F :=
  match bs with
  | [::] => G r
  | b :: bs' => \sum_(x < D b.1) bsum bs' (updv r b x) G
  end.

(** Letters of the operands that are not letters of the result. *)
Definition bound (ins : seq (seq var)) (out : seq var) : seq var :=
  [seq v <- undup (flatten ins) | v \notin out].

Definition at_val (E : env) (a : atom) : val :=
  fun ix => E a.1 (nseq a.2 0%N ++ ix)%SEQ.

(** numpy.einsum: the entry [ix] of the result is the sum over all values of
    the other letters of the product of the entries of the operands. *)
Definition einsum (E : env) (s : string) (ops : seq atom) : val :=
  let: (ins, out) := spec_of s in
  fun ix =>
    bsum (bound ins out) (bindv out ix)
         (fun r => \prod_(p <- zip ins ops) at_val E p.2 [seq r v | v <- p.1]).

(** The coefficient z/2^k. *)
Definition cf (z : int) (k : nat) : F := z%:~R / 2%:R ^+ k.

(** Meaning of an expression; [Tr p] is numpy.transpose with axes [p]: axis
    k of the result is axis p_k of the operand. *)
Fixpoint den (E : env) (e : ex) : val :=
  match e with
  | At a => at_val E a
  | Zero _ => fun _ => 0
  | Sc z k e' => fun ix => cf z k * den E e' ix
  | Add e1 e2 => fun ix => den E e1 ix + den E e2 ix
  | Tr p e' => fun ix => den E e' [seq nth 0%N ix (index j p) | j <- iota 0 (size p)]
  | Mul a e' => fun ix => at_val E a [::] * den E e' ix
  | Ein s ops => einsum E s ops
  end.

(** One statement and a list of statements. *)
Definition step (E : env) (s : stmt) : env :=
  fun n => if n == tgt s
           then fun ix => (if acc s then E n ix else 0) + den E (rhs s) ix
           else E n.
Definition exec (p : prog) (E : env) : env := foldl step E p.
Definition run (c : cfg) (p : prog) (E : env) : env := exec (live c p) E.

End Meaning.

(* ------------------------------------------------------------------ *)
(** ** Shapes *)

(** Axes of the arrays that the callers pass in
    (/repo/openms/mqed/ccsd.py lines 96-230: Fock blocks, antisymmetrised
    integrals, frequencies, couplings and amplitudes). *)
Definition kind_of (c : ascii) : nat :=
  match c with "o" => 0 | "v" => 1 | "x" => 2 | _ => 5 end%char%N.
Fixpoint kinds (s : string) : seq nat :=
  match s with EmptyString => [::] | String c s' => kind_of c :: kinds s' end.
Definition named : seq (string * string) := [::
  ("w", "x"); ("G", "x"); ("H", "x"); ("T1old", "vo"); ("T2old", "vvoo");
  ("Snold[0]", "x"); ("Snold[1]", "xx"); ("U1nold[0]", "xvo");
  ("U1nold[1]", "xxvo"); ("U2nold[0]", "xvvoo"); ("U2nold[1]", "xxvvoo")].
Fixpoint lookup (T : Type) (l : seq (string * T)) (n : string) : option T :=
  match l with
  | [::] => None
  | (m, t) :: l' => if n == m then Some t else lookup l' n
  end.
Definition base_shape (n : string) : option (seq nat) :=
  match lookup named n with
  | Some s => Some (kinds s)
  | None =>
      match n with
      | String c (String d s) =>
          if Ascii.eqb d "." then
            if Ascii.eqb c "I" || Ascii.eqb c "F" then Some (kinds s)
            else if Ascii.eqb c "g" || Ascii.eqb c "h" then Some (2%N :: kinds s)
            else None
          else None
      | _ => None
      end
  end.

(** Shapes of the arrays written so far. *)
Definition shapes := seq (string * seq nat).
Definition shape_at (L : shapes) (a : atom) : option (seq nat) :=
  let f sh := if (a.2 <= size sh)%N && all (pred1 2%N) (take a.2 sh)
              then Some (drop a.2 sh) else None in
  match lookup L a.1 with
  | Some sh => f sh
  | None => match base_shape a.1 with Some sh => f sh | None => None end
  end.
(** The shape of the value of an expression, [None] if numpy raises or the
    name is not defined. *)
Fixpoint shape_ex (L : shapes) (e : ex) : option (seq nat) :=
  match e with
  | At a => shape_at L a
  | Zero s => Some (kinds s)
  | Sc _ _ e' => shape_ex L e'
  | Add e1 e2 =>
      match shape_ex L e1, shape_ex L e2 with
      | Some s1, Some s2 => if s1 == s2 then Some s1 else None
      | _, _ => None
      end
  | Tr p e' =>
      match shape_ex L e' with
      | Some sh => if perm_eq p (iota 0 (size sh))
                   then Some [seq nth 5%N sh j | j <- p] else None
      | None => None
      end
  | Mul a e' =>
      match shape_at L a, shape_ex L e' with
      | Some [::], Some sh => Some sh
      | _, _ => None
      end
  | Ein s ops =>
      let: (ins, out) := spec_of s in
      if (size ins == size ops) && uniq out
         && all (mem (flatten ins)) out
         && all (fun p => shape_at L p.2 == Some [seq v.1 | v <- p.1])
                (zip ins ops)
      then Some [seq v.1 | v <- out] else None
  end.
(** [chk_prog] is [Some] of the shapes at the end if no statement fails. *)
Fixpoint chk_prog (L : shapes) (p : prog) : option shapes :=
  match p with
  | [::] => Some L
  | s :: p' =>
      match shape_ex L (rhs s) with
      | None => None
      | Some sh =>
          if acc s then
            match lookup L (tgt s) with
            | Some sh' => if sh == sh' then chk_prog L p' else None
            | None => None
            end
          else chk_prog ((tgt s, sh) :: L) p'
      end
  end.

(* ------------------------------------------------------------------ *)
(** ** Statements outside the language *)

(** The loops of myqedcc_equations_opt.py lines 573-575 and 597-599 (and
    qedcc_equations.py lines 375-377, 399-401): [S1[i] = 0] and [S2[i,i] = 0]
    for the modes of frequency 0, after the last statement on S1 and S2. *)
Definition mask1 (F : fieldType) (w : nat -> F) (S1 : val F) : val F :=
  fun ix => if w (nth 0%N ix 0) == 0 then 0 else S1 ix.
Definition mask2 (F : fieldType) (w : nat -> F) (S2 : val F) : val F :=
  fun ix => if (nth 0%N ix 0 == nth 0%N ix 1) && (w (nth 0%N ix 0) == 0)
            then 0 else S2 ix.

(** [eps_vir_p_w = eps_vir + w] (myqedcc_equations_opt.py line 2575, the value
    is not used): numpy broadcasting of arrays of lengths [nv] and [nm]; [None]
    is a ValueError. *)
Definition bcast (n m : nat) : option nat :=
  if n == m then Some n
  else if n == 1%N then Some m else if m == 1%N then Some n else None.
(** Whether a call of [new_qedccsd_sn_u2n] (myqedcc_equations_opt.py lines
    105-119) comes to an end: shapes and names of the five functions and the
    line above, which runs when nfock2 > 0 (lines 2569, 2575). *)
Definition call_ok (c : cfg) (p : prog) (nv nm : nat) : bool :=
  isSome (chk_prog [::] (live c p)) && ((nf2 c == 0)%N || isSome (bcast nv nm)).

(** The new amplitudes of one cycle (/repo/openms/mqed/ccsd.py lines 239-248):
    the value returned by the equations divided by the denominator. *)
Definition cycle (F : fieldType) (res den : F) : F := res / den.
