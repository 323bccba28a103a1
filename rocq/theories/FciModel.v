(** Model of the electron-boson FCI operators, openms/mqed/qedfci.py.
    A CI vector has one entry per alpha string, beta string and boson
    configuration.  Boson configurations are functions from modes to numbers up
    to a common bound D; mode k only uses 0 .. nb k (boson_states[k]; the shape
    of the vector is boson_states + 1, line 83), and entries outside are never
    looked at by the statements.  The tables of pyscf's gen_linkstr_index are
    arguments: for every string the list of (a, i, str1, sign) with
    a^+ i |str0> = sign |str1>.  Rounding is not modelled. *)
From mathcomp Require Import all_ssreflect all_algebra.
From Verif Require Base.
Set Implicit Arguments.
Unset Strict Implicit.
Unset Printing Implicit Defensive.
Import GRing.Theory Num.Theory.
Notation Z := BinNums.Z.
Local Open Scope ring_scope.

Section Fci.
Variables (R : rcfType) (norb na nbt m D : nat).
(** number of excitations per mode *)
Variable nb : 'I_m -> nat.

Definition cfg := {ffun 'I_m -> 'I_D.+1}.
Definition civec := 'I_na -> 'I_nbt -> cfg -> R.
(** the configuration with entry k replaced (slices_for, 291-305) *)
Definition cset (c : cfg) (k : 'I_m) (n : nat) : cfg := [ffun j => if j == k then inord n else c j].

(** one link: orbital a, orbital i, resulting string, sign *)
Definition link (ns : nat) : Type := ('I_norb * 'I_norb * 'I_ns * int)%type.
Definition la ns (l : link ns) := l.1.1.1.
Definition li ns (l : link ns) := l.1.1.2.
Definition lto ns (l : link ns) := l.1.2.
Definition lsign ns (l : link ns) : R := l.2%:~R.
Variables (taba : 'I_na -> seq (link na)) (tabb : 'I_nbt -> seq (link nbt)).

(** cre_boson and des_boson, 314-339 *)
Definition cre_boson (v : civec) (k : 'I_m) : civec := fun s t c =>
  \sum_(ip < nb k) (if c k == ip.+1 :> nat then Num.sqrt (ip.+1%:R) * v s t (cset c k ip) else 0).
Definition des_boson (v : civec) (k : 'I_m) : civec := fun s t c =>
  \sum_(ip < nb k) (if c k == ip :> nat then Num.sqrt (ip.+1%:R) * v s t (cset c k ip.+1) else 0).

(** contract_bb, 342-360, with a vector of frequencies, without zalpha *)
Definition contract_bb (w : 'I_m -> R) (v : civec) : civec := fun s t c =>
  \sum_k \sum_(1 <= i < (nb k).+1) (if c k == i :> nat then v s t c * (w k * i%:R) else 0).
(** the same with a matrix, as the kernel passes it (649-652): Hbb[imode] is a
    row of length m that numpy lines up with the last axis left after fixing
    mode imode.  That axis belongs to the last other mode; with a single mode
    it is the string axis and the row has one entry. *)
Definition last_other (k : 'I_m) : option 'I_m := ohead (rev [seq j <- enum 'I_m | j != k]).
Definition bb_fits (k : 'I_m) : bool :=
  if last_other k is Some j then (nb j).+1 == m else true.
Definition bb_row (Hbb : 'M[R]_m) (k : 'I_m) (c : cfg) : R :=
  if last_other k is Some j then \sum_(l < m | l == c j :> nat) Hbb k l else Hbb k k.
Definition contract_bb_matrix (Hbb : 'M[R]_m) (v : civec) : Base.res civec :=
  if [forall k, (nb k == 0%N) || bb_fits k] then
    Base.Ok (fun s t (c : cfg) => \sum_k \sum_(1 <= i < (nb k).+1)
      (if c k == i :> nat then v s t c * (bb_row Hbb k c * i%:R) else 0))
  else Base.Err Base.ValueError.

(** contract_eb, 478-515 *)
Definition contract_eb (Heb : 'I_m -> 'I_norb -> 'I_norb -> R) (v : civec) : civec := fun s t c =>
  \sum_k \sum_(ip < nb k)
   (\sum_s0 \sum_(l <- taba s0 | lto l == s)
      ((if c k == ip.+1 :> nat then Heb k (la l) (li l) * Num.sqrt (ip.+1%:R) * lsign l * v s0 t (cset c k ip) else 0)
     + (if c k == ip :> nat then Heb k (la l) (li l) * Num.sqrt (ip.+1%:R) * lsign l * v s0 t (cset c k ip.+1) else 0))
  + \sum_t0 \sum_(l <- tabb t0 | lto l == t)
      ((if c k == ip.+1 :> nat then Heb k (la l) (li l) * Num.sqrt (ip.+1%:R) * lsign l * v s t0 (cset c k ip) else 0)
     + (if c k == ip :> nat then Heb k (la l) (li l) * Num.sqrt (ip.+1%:R) * lsign l * v s t0 (cset c k ip.+1) else 0))).

(** contract_2e with one eri tensor, 127-170: t1, t2 and the second pass *)
Definition t1a (v : civec) (a i : 'I_norb) : civec := fun s t c =>
  \sum_s0 \sum_(l <- taba s0 | (la l == a) && (li l == i) && (lto l == s)) lsign l * v s0 t c.
Definition t1b (v : civec) (a i : 'I_norb) : civec := fun s t c =>
  \sum_t0 \sum_(l <- tabb t0 | (la l == a) && (li l == i) && (lto l == t)) lsign l * v s t0 c.
Definition t2 (eri : 'I_norb -> 'I_norb -> 'I_norb -> 'I_norb -> R) (v : civec) (a i : 'I_norb) : civec := fun s t c =>
  \sum_b \sum_j eri a i b j * (t1a v b j s t c + t1b v b j s t c).
Definition contract_2e (eri : 'I_norb -> 'I_norb -> 'I_norb -> 'I_norb -> R) (v : civec) : civec := fun s t c =>
  \sum_s0 \sum_(l <- taba s0 | lto l == s) lsign l * t2 eri v (la l) (li l) s0 t c
  + \sum_t0 \sum_(l <- tabb t0 | lto l == t) lsign l * t2 eri v (la l) (li l) s t0 c.

(** absorb_h1e, 235-252; adding 1e-100 to the number of electrons has no
    effect in double precision unless it is zero *)
Definition absorb_h1e (h1e : 'I_norb -> 'I_norb -> R) (eri : 'I_norb -> 'I_norb -> 'I_norb -> 'I_norb -> R)
    (nelec : nat) (fac : R) (p q r s : 'I_norb) : R :=
  let f1e j k := (h1e j k - (\sum_i eri j i i k) / 2%:R) / nelec%:R in
  (eri p q r s + (if p == q then f1e r s else 0) + (if r == s then f1e p q else 0)) * fac.

(** hop, 713-716 with contract_all, 254-288, for a vector of frequencies *)
Definition hop (h1e : 'I_norb -> 'I_norb -> R) (eri : 'I_norb -> 'I_norb -> 'I_norb -> 'I_norb -> R)
    (nelec : nat) (Heb : 'I_m -> 'I_norb -> 'I_norb -> R) (w : 'I_m -> R) (v : civec) : civec := fun s t c =>
  contract_2e (absorb_h1e h1e eri nelec (1 / 2%:R)) v s t c + contract_eb Heb v s t c + contract_bb w v s t c.
(** and as the kernel runs it *)
Definition kernel_hop (h1e : 'I_norb -> 'I_norb -> R) (eri : 'I_norb -> 'I_norb -> 'I_norb -> 'I_norb -> R)
    (nelec : nat) (Heb : 'I_m -> 'I_norb -> 'I_norb -> R) (w : 'I_m -> R) (v : civec) : Base.res civec :=
  Base.rmap (fun b : civec => fun s t c =>
    contract_2e (absorb_h1e h1e eri nelec (1 / 2%:R)) v s t c + contract_eb Heb v s t c + b s t c)
    (contract_bb_matrix (\matrix_(k, l) if k == l then w k else 0) v).

(** configurations that exist in the vector *)
Definition inside (c : cfg) : bool := [forall k, (c k <= nb k)%N].

(** make_rdm1e, 737-755 *)
Definition make_rdm1e (v : civec) (a i : 'I_norb) : R :=
  \sum_s0 \sum_(l <- taba s0 | (la l == a) && (li l == i)) lsign l * (\sum_t \sum_(c | inside c) v (lto l) t c * v s0 t c)
  + \sum_t0 \sum_(l <- tabb t0 | (la l == a) && (li l == i)) lsign l * (\sum_s \sum_(c | inside c) v s (lto l) c * v s t0 c).

(** make_rdm12e, 757-786: t1[i, a] at string pair (s, t) *)
Definition t1_12 (v : civec) (i a : 'I_norb) : civec := fun s t c =>
  \sum_(l <- taba s | (la l == a) && (li l == i)) lsign l * v (lto l) t c
  + \sum_(l <- tabb t | (la l == a) && (li l == i)) lsign l * v s (lto l) c.
Definition rdm1_12 (v : civec) (i j : 'I_norb) : R :=
  \sum_s \sum_t \sum_(c | inside c) v s t c * t1_12 v i j s t c.
(** tmp[(i j), (k l)] with the first two axes exchanged (783-784) *)
Definition rdm2_raw (v : civec) (p q r x : 'I_norb) : R :=
  \sum_s \sum_t \sum_(c | inside c) t1_12 v q p s t c * t1_12 v r x s t c.
(** pyscf's reorder_rdm (called at 785): rdm2[:, k, k, :] -= rdm1.T, then half
    the sum with the transposed pair matrix *)
Definition rdm2_cut (v : civec) (p q r x : 'I_norb) : R :=
  rdm2_raw v p q r x - (if q == r then rdm1_12 v x p else 0).
Definition rdm2_12 (v : civec) (p q r x : 'I_norb) : R :=
  (rdm2_cut v p q r x + rdm2_cut v r x p q) / 2%:R.

(** bosonic part of make_hdiag, 542-548 *)
Definition hdiag_boson (w : 'I_m -> R) (c : cfg) : R := \sum_k Num.max ((c k)%:R * w k) (1 / 2%:R).
End Fci.


(** The branches of the kernel before the diagonalisation, 587-735: asserts on
    the shapes, the electronic-only return, the coherent-state branch (Hbb has
    become a matrix, so [la.solve] is reached, and the module imports no [la]),
    make_hdiag's [boson_states\[imode\]] with an integer. *)
Inductive bstates := BInt (n : Z) | BList (l : seq Z).
Inductive stage := ElectronOnly | Solve (shape : seq Z).
Definition ci_shape (na nb : Z) (nmode : nat) (b : option bstates) : Base.res (seq Z) :=
  match b with
  | Some (BInt n) => Base.Ok (na :: nb :: nseq nmode (BinInt.Z.succ n))
  | Some (BList l) => if nmode == size l then Base.Ok (if (0 < nmode)%N then na :: nb :: [seq BinInt.Z.succ x | x <- l] else [:: na; nb]) else Base.Err Base.AssertionError
  | None => if (0 < nmode)%N then Base.Err Base.TypeError else Base.Ok [:: na; nb]
  end.
Definition kernel_start (na nb : Z) (nmode : nat) (b : option bstates) (electron_only coherent : bool) : Base.res stage :=
  if electron_only then Base.Ok ElectronOnly
  else if coherent then Base.Err Base.NameError
  else Base.rbind (ci_shape na nb nmode b) (fun sh =>
    match b with
    | Some (BInt _) => if (0 < nmode)%N then Base.Err Base.TypeError else Base.Ok (Solve sh)
    | _ => Base.Ok (Solve sh)
    end).
