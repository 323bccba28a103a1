(** Model of the linear-algebra helpers: openms/lib/mathlib.py,
    openms/lib/scipy_helper.py, openms/solvers/linalg.py and the functions of
    openms/mqed/scqedhf.py that use them.  Arrays carry their shape.  LAPACK's
    dpstrf and scipy's eigh are arguments.  Rounding is not modelled. *)
From mathcomp Require Import all_ssreflect all_algebra.
From Verif Require Base.
Set Implicit Arguments.
Unset Strict Implicit.
Unset Printing Implicit Defensive.
Import GRing.Theory Num.Theory.
Notation Z := BinNums.Z.
Notation res := Base.res.
Notation Ok := Base.Ok.
Notation Err := Base.Err.
Local Open Scope ring_scope.

(** [h[i, j] = v] *)
Definition set2 (A : Type) (h : nat -> nat -> A) (i j : nat) (v : A) : nat -> nat -> A :=
  fun a b => if (a == i) && (b == j) then v else h a b.

(** * Two-dimensional arrays with their shape *)
Section Arrays.
Variable F : realFieldType.

Record arr := Arr { rows : nat; cols : nat; at2 : nat -> nat -> F }.

(** numpy.einsum("ik, kj->ij", A, B): the summed dimensions must agree or one
    of them must be 1, which is broadcast *)
Definition bc (d k : nat) : nat := if d == 1%N then 0%N else k.
Definition mm (A B : arr) : res arr :=
  if [|| cols A == rows B, cols A == 1%N | rows B == 1%N]
  then Ok (Arr (rows A) (cols B)
        (fun i j => \sum_(k < maxn (cols A) (rows B)) at2 A i (bc (cols A) k) * at2 B (bc (rows B) k) j))
  else Err Base.ValueError.
(** A.conj().T for real arrays *)
Definition tr (A : arr) : arr := Arr (cols A) (rows A) (fun i j => at2 A j i).

(** mathlib.py:70-90 [unitary_transform] (lib.dot does not broadcast) *)
Definition dot (A B : arr) : res arr :=
  if cols A == rows B
  then Ok (Arr (rows A) (cols B) (fun i j => \sum_(k < cols A) at2 A i k * at2 B k j))
  else Err Base.ValueError.
Definition unitary_transform_lib (U A : arr) : res arr :=
  Base.rbind (dot A U) (fun B => dot (tr U) B).
(** scqedhf.py:67-71 [unitary_transform]; "ki, kj->ij" sums over the first
    index of both *)
Definition unitary_transform (U A : arr) : res arr :=
  Base.rbind (mm A U) (fun B => mm (tr U) B).

(** scqedhf.py:91-114 *)
Definition ao2rao (A P : arr) : res arr :=
  Base.rbind (mm A P) (fun AP => mm (tr P) AP).
Definition get_reduced_overlp (L : arr) : res arr := mm L (tr L).
Definition get_orbitals_from_rao (c P : arr) : res arr := mm P c.

(** scqedhf.py:578-581 [get_dm_do] *)
Definition get_dm_do (S dm U : arr) : res arr :=
  Base.rbind (mm S U) (fun su => unitary_transform su dm).

(** scqedhf.py:74-79 [eigh]: scipy's generalised eigh, then every column is
    multiplied by -1 if its entry of largest magnitude is negative.
    numpy.argmax takes the first of equal maxima. *)
Definition argmax (n : nat) (f : nat -> F) : nat :=
  foldl (fun b i => if f b < f i then i else b) 0%N (iota 1 n.-1).
Definition fix_phase (c : arr) : arr :=
  Arr (rows c) (cols c) (fun i j =>
    if at2 c (argmax (rows c) (fun a => `|at2 c a j|)) j < 0 then - at2 c i j else at2 c i j).
(** scipy.linalg.eigh raises ValueError unless both are square of one size *)
Variable eigh0 : arr -> arr -> (nat -> F) * arr.
Definition eigh (h s : arr) : res ((nat -> F) * arr) :=
  if [&& rows h == cols h, rows s == cols s & rows h == rows s]
  then Ok ((eigh0 h s).1, fix_phase (eigh0 h s).2) else Err Base.ValueError.

(** scqedhf.py:82-89 [cholesky_diag_fock_rao]; the arguments P and L are the
    attributes mf.P and mf.L *)
Definition cholesky_diag_fock_rao (P L h1e : arr) : res ((nat -> F) * arr) :=
  Base.rbind (ao2rao h1e P) (fun F_rao =>
  Base.rbind (get_reduced_overlp L) (fun S_rao =>
  Base.rbind (eigh F_rao S_rao) (fun ec =>
  Base.rbind (get_orbitals_from_rao ec.2 P) (fun C => Ok (ec.1, C))))).

(** mathlib.py:99-138 [full_cholesky_decomposition]; dpstrf returns the
    factor, the pivots, the rank and info *)
Variable dpstrf : arr -> F -> arr * seq int * int * int.
Definition full_cholesky_decomposition (M : arr) (tol : F) : res (arr * seq int * int) :=
  let: (c, piv, n, info) := dpstrf M tol in
  if info < 0 then Err Base.ValueError
  else Ok (Arr (rows M) (rows M)
         (foldl (fun h i => foldl (fun h j => set2 h j i 0) h (iota 0 i)) (at2 c) (iota 0 (rows M))),
       piv, n).

(** mathlib.py:141-205 [full_cholesky_orth] *)
Definition full_cholesky_orth (S : arr) (tol : F) : res (arr * arr) :=
  let n := rows S in
  Base.rbind (full_cholesky_decomposition S tol) (fun cpn =>
  let: (cv, piv, noao) := cpn in
  if [|| (n%:Z < noao), (noao <= 0), has (fun p : int => n%:Z < p) piv | has (fun p : int => p <= 0) piv]
  then Err Base.ValueError
  else let k := absz noao in
    Ok (Arr k k (at2 cv),
        Arr n k (foldl (fun h i => set2 h (absz (nth 0 piv i)).-1 i 1) (fun _ _ => 0) (iota 0 k)))).

(** scqedhf.py:485-494 [get_cholesky]: the attributes (self.P, self.L) *)
Definition get_cholesky (S : arr) : res (arr * arr) :=
  Base.rbind (full_cholesky_orth S (10%:R ^- 7)) (fun lp => Ok (lp.1, lp.2)).

(** pyscf's make_rdm1 for real orbitals: the density of occupations [occ] *)
Definition make_rdm1 (C : arr) (occ : nat -> F) : arr :=
  Arr (rows C) (rows C) (fun i j => \sum_(k < cols C) occ k * at2 C i k * at2 C j k).

(** scqedhf.py:497-507 [init_guess_by_1e]; the occupations are an argument *)
Definition init_guess_by_1e (S h1e : arr) (occ : nat -> F) : res arr :=
  Base.rbind (get_cholesky S) (fun PL =>
  Base.rbind (cholesky_diag_fock_rao PL.1 PL.2 h1e) (fun eC => Ok (make_rdm1 eC.2 occ))).

(** linalg.py:514-525 [make_diag_precond] *)
Definition precond (shift : F) (diag dx : nat -> F) (e : F) : nat -> F := fun i =>
  let d := diag i - (e - shift) in
  let d := if `|d| < 10%:R ^- 8 then 10%:R ^- 8 else d in
  dx i / d.
End Arrays.

(** * Subspace Hamiltonian, linalg.py:23-56 *)
Section Heff.
Variable C : numClosedFieldType.
Variable vdim : nat.
Definition vec := nat -> C.
(** dot(x.conj(), y) *)
Definition braket (x y : vec) : C := \sum_(a < vdim) (x a)^* * y a.
Definition zerov : vec := fun _ => 0.

(** lines 23-39 [_fill_heff_hermitian] *)
Definition fill_heff_hermitian (h : nat -> nat -> C) (ax xt axt : seq vec) : nat -> nat -> C :=
  let nrow := size axt in
  let row1 := size ax in
  let row0 := (row1 - nrow)%N in
  let h := foldl (fun h ip =>
      let i := (row0 + ip)%N in
      let h := foldl (fun h jp =>
          let j := (row0 + jp)%N in
          let h := set2 h i j (braket (nth zerov xt ip) (nth zerov axt jp)) in
          set2 h j i ((h i j)^*)) h (iota 0 ip) in
      set2 h i i ('Re (braket (nth zerov xt ip) (nth zerov axt ip)))) h (iota 0 nrow) in
  foldl (fun h i =>
      foldl (fun h jp =>
          let j := (row0 + jp)%N in
          let h := set2 h j i (braket (nth zerov xt jp) (nth zerov ax i)) in
          set2 h i j ((h j i)^*)) h (iota 0 nrow)) h (iota 0 row0).

(** lines 41-56 [_fill_heff] *)
Definition fill_heff (h : nat -> nat -> C) (xs ax xt axt : seq vec) : nat -> nat -> C :=
  let nrow := size axt in
  let row1 := size ax in
  let row0 := (row1 - nrow)%N in
  let h := foldl (fun h ip => foldl (fun h jp =>
      set2 h (row0 + ip)%N (row0 + jp)%N (braket (nth zerov xt ip) (nth zerov axt jp))) h (iota 0 nrow))
    h (iota 0 nrow) in
  foldl (fun h i => foldl (fun h jp =>
      let j := (row0 + jp)%N in
      let h := set2 h i j (braket (nth zerov xs i) (nth zerov axt jp)) in
      set2 h j i (braket (nth zerov xt jp) (nth zerov ax i))) h (iota 0 nrow)) h (iota 0 row0).

(** the Davidson loop extends the space block by block: xs += xt, ax += axt,
    then heff is filled (linalg.py:354-378, in the first davidson1) *)
Definition extend_hermitian (Aop : vec -> vec) (st : seq vec * (nat -> nat -> C)) (xt : seq vec) :=
  let xs := st.1 ++ xt in
  (xs, fill_heff_hermitian st.2 (map Aop xs) xt (map Aop xt)).
Definition extend (Aop : vec -> vec) (st : seq vec * (nat -> nat -> C)) (xt : seq vec) :=
  let xs := st.1 ++ xt in
  (xs, fill_heff st.2 xs (map Aop xs) xt (map Aop xt)).
End Heff.

(** * Drivers *)
(** linalg.py: the module defines davidson1 twice; the name is bound to the
    second definition, whose body is [pass] (528-551).  A python value: *)
Inductive pyval := PNone | PTuple (l : seq pyval) | POther.
Definition davidson1 (matvec x0 prec : pyval) : res pyval := Ok PNone.
Definition lanczos (matvec x0 : pyval) : res pyval := Ok PNone.
(** subscripting [v[1:]] *)
Definition tail_slice (v : pyval) : res pyval :=
  match v with PNone => Err Base.TypeError | PTuple l => Ok (PTuple (behead l)) | POther => Err Base.TypeError end.
(** lines 155-175, the end of [davidson]: e, x = davidson1(...)[1:]; one root
    returns the first of each *)
Definition davidson (aop x0 prec : pyval) : res pyval :=
  Base.rbind (davidson1 aop x0 prec) (fun r => tail_slice r).

(** scipy_helper.py:42-87 [remove_linear_dep].  Condition numbers are numbers
    or infinite; the QED condition numbers are present only for a Boson. *)
Section LinDep.
Variable F : realFieldType.
Inductive xnum := Fin (q : F) | Inf.
Definition xlt (a b : xnum) : bool :=
  match a, b with Fin x, Fin y => x < y | Fin _, Inf => true | Inf, _ => false end.
Inductive solver := Unchanged | Canonical | PivotCholesky.
(** numpy.max over a non-empty array *)
Definition xmax (l : seq xnum) : res xnum :=
  match l with
  | [::] => Err Base.ValueError
  | x :: r => Ok (foldl (fun m y => if xlt m y then y else m) x r)
  end.
(** pyscf's logger.debug(rec, msg, args) formats when verbose >= 5; the
    function object passed for %g on line 74 cannot be formatted *)
Definition debug_cond (verbose : nat) : res unit := if (5 <= verbose)%N then Err Base.TypeError else Ok tt.
(** line 76 passes one tuple for two conversions *)
Definition debug_tuple (verbose : nat) : res unit := if (5 <= verbose)%N then Err Base.TypeError else Ok tt.
Definition remove_linear_dep (scond : xnum) (gconds : option (seq xnum)) (lindep eps : F) (force : bool)
    (verbose : nat) : res solver :=
  let m0 := if xlt (Fin 0) scond then scond else Fin 0 in
  Base.rbind (match gconds with
              | None => Ok m0
              | Some l => Base.rbind (xmax l) (fun g => Ok (if xlt m0 g then g else m0))
              end) (fun m =>
  if xlt m (Fin (1 / lindep)) && ~~ force then Ok Unchanged else
  Base.rbind (debug_cond verbose) (fun _ =>
  match gconds with
  | None => Err Base.UnboundLocalError
  | Some l =>
      Base.rbind (foldl (fun r _ => Base.rbind r (fun _ => debug_tuple verbose)) (Ok tt) l) (fun _ =>
      if xlt m (Fin (1 / eps)) && ~~ force then Ok Canonical else Ok PivotCholesky)
  end)).
End LinDep.
