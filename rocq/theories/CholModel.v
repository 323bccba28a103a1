(** Model of the integral factorisations of openms/qmc/tools.py: pivoted
    Cholesky decomposition of the integral matrix, decomposition from the SVD,
    rotation to an orthogonal basis, the plan of sparse and low-rank Cholesky
    vectors (with its use in estimators.py) and the stochastic resolution of
    the identity.  The integral matrix M has rows and columns labelled by
    orbital pairs; rounding is not modelled. *)
From mathcomp Require Import all_ssreflect all_algebra.
From Verif Require Base.
Set Implicit Arguments.
Unset Strict Implicit.
Unset Printing Implicit Defensive.
Import Order.TTheory GRing.Theory Num.Theory.
Local Open Scope ring_scope.

Section Cholesky.
Variables (F : rcfType) (n' : nat).
Notation n := n'.+1.  (* nao * nao; for an empty basis argmax raises *)
Variables (M : 'M[F]_n) (thresh : F).

(** numpy.argmax: the first maximiser *)
Definition argmax (f : 'I_n -> F) : 'I_n := [arg max_(i > ord0) f i]%O.

(** tools.py:565-583 with g = None: the column of the pivot divided by the
    square root of delta_max; M is symmetric, rows are used. *)
Definition eri_chunk (nu : 'I_n) (delta : F) : 'rV[F]_n := (Num.sqrt delta)^-1 *: row nu M.
(** tools.py:530-531 *)
Definition next_vector (Ls : seq 'rV[F]_n) (nu : 'I_n) (delta : F) : 'rV[F]_n :=
  (Num.sqrt delta)^-1 *: (eri_chunk nu 1 - \sum_(L <- Ls) L ord0 nu *: L).

(** tools.py:508-546.  [Ls] holds ltensor[0..nchol], so nchol is its size minus
    one; [cap] is max_chols, the number of rows of ltensor: assigning row
    nchol+1 raises when that row does not exist. *)
Fixpoint chol_loop (fuel cap : nat) (Ls : seq 'rV[F]_n) (mapprox : 'rV[F]_n) (dmax : F)
  : Base.res (seq 'rV[F]_n) :=
  if `|dmax| <= thresh then Base.Ok (take (size Ls).-1 Ls)
  else match fuel with
  | 0%N => Base.Err Base.OutOfFuel
  | S f =>
    let L := last 0 Ls in
    let mapprox' := \row_i (mapprox ord0 i + L ord0 i * L ord0 i) in
    let delta i := M i i - mapprox' ord0 i in
    let nu := argmax (fun i => `|delta i|) in
    let dmax' := `|delta nu| in
    if (cap <= size Ls)%N then Base.Err Base.IndexError
    else let Ls' := rcons Ls (next_vector Ls nu dmax') in
      if (cap <= (size Ls').-1)%N then Base.Ok (take (size Ls').-1 Ls')
      else chol_loop f cap Ls' mapprox' dmax'
  end.

(** tools.py:476-546 *)
Definition chols_blocked (cap : nat) : Base.res (seq 'rV[F]_n) :=
  let nu := argmax (fun i => M i i) in
  if (cap == 0)%N then Base.Err Base.IndexError
  else chol_loop cap cap [:: eri_chunk nu (M nu nu)] 0 (M nu nu).

(** tools.py:407-421 ([chols_full]): vectors from an SVD M = U diag(s) V; only
    U and s are used *)
Definition chols_full (U : 'M[F]_n) (s : 'I_n -> F) : seq 'rV[F]_n :=
  [seq \row_i (U i k * Num.sqrt (s k)) | k <- enum 'I_n & thresh < s k].
End Cholesky.

(** tools.py:578-581: with auxiliary vectors g (naux of them), the modification
    of the column has shape (naux, nao, nao) and is reshaped to nao*nao
    numbers; [col] is the column of the integrals. *)
Definition modify_chunk (F : rcfType) n (g : seq 'rV[F]_n) (nu : 'I_n) (col : 'rV[F]_n)
  : Base.res 'rV[F]_n :=
  match g with
  | [:: v] => Base.Ok (col + v ord0 nu *: v)
  | _ => if (size g * n == n)%N then Base.Ok col else Base.Err Base.ValueError
  end.

(** tools.py:377-379: rotation of the vectors to the orthogonal basis *)
Definition rotate_chol (F : fieldType) (conj : {rmorphism F -> F}) p q (X : 'M[F]_(p, q))
   (L : 'M[F]_p) : 'M[F]_q := (map_mx conj X)^T *m L *m X.

(** Sparse / low-rank plan, tools.py:13-83 and estimators.py:73-129. *)
Section Plan.
Variables (F : numFieldType) (N : nat).
(** tools.py:13-21: the largest distance from the diagonal of an element at or
    above the threshold; numpy.max of no elements raises. *)
Definition offdiag (thr : F) (L : 'M[F]_N) : seq nat :=
  [seq (maxn (val p.1) (val p.2) - minn (val p.1) (val p.2))%N | p <- enum {: 'I_N * 'I_N} & thr <= `|L p.1 p.2|].
Fixpoint get_blksize (thr : F) (Ls : seq 'M[F]_N) : Base.res nat :=
  match Ls with
  | [::] => Base.Ok 0%N
  | L :: r => Base.rbind (if offdiag thr L is [::] then Base.Err Base.ValueError
                          else Base.Ok (foldr maxn 0%N (offdiag thr L)))
                (fun b => Base.rmap (maxn b) (get_blksize thr r))
  end.

(** An SVD of one vector, L = U diag(s) Vh, as returned by the library with the
    singular values in descending order. *)
Record svd_of := Svd { sU : 'M[F]_N; ss : 'I_N -> F; sV : 'M[F]_N }.
Inductive entry := Lowrank (X : 'M[F]_N) (Uright : 'M[F]_N) | Banded.
(** tools.py:53-60: number of singular values above the tolerance *)
Definition num_rank (tol : F) (s : 'I_N -> F) : nat := #|[pred i | tol < s i]|.
(** tools.py:62-79; [max_rank] = max(1, int(N*0.1)).  Columns from k on are
    zero here instead of absent. *)
Definition plan_entry (tol : F) (max_rank : nat) (d : svd_of) : entry :=
  let k := num_rank tol (ss d) in
  if (k <= max_rank)%N && (0 < k)%N
  then Lowrank (\matrix_(i, j) (if (j < k)%N then sU d i j * ss d j else 0))
               (\matrix_(i, j) (if (j < k)%N then sV d j i else 0))
  else Banded.
Definition build_plan (tol : F) (max_rank : nat) (ds : seq svd_of) : seq entry :=
  [seq plan_entry tol max_rank d | d <- ds].

(** estimators.py:73-89: only rows within the bandwidth are used *)
Definition banded_LT_dot_G (bw : nat) (L G : 'M[F]_N) : 'M[F]_N :=
  \matrix_(q, m) \sum_(p < N | (q - bw <= p)%N && (p < q + bw + 1)%N) L p q * G p m.
(** estimators.py:112-125 *)
Definition plan_LG (bw : nat) (e : entry) (L G : 'M[F]_N) : 'M[F]_N :=
  match e with
  | Lowrank X Ur => X *m (G^T *m Ur)^T
  | Banded => banded_LT_dot_G bw L G
  end.
Definition self_dot (A : 'M[F]_N) : F := \sum_i \sum_j A i j * A^T i j.
(** estimators.py:108-127, one walker *)
Definition exx_plan (bw : nat) (plan : seq entry) (Ls : seq 'M[F]_N) (G : 'M[F]_N) : F :=
  2%:R^-1 * \sum_(e <- zip plan Ls) self_dot (plan_LG bw e.1 e.2 G).
End Plan.

(** tools.py:163-191 ([stochastic_thc]): "rademacher" sampling; [sg] tells the
    sign of each entry, [isq] is 1/sqrt(n_stoch). *)
Section Stochastic.
Variables (F : fieldType) (isq : F) (nao nchol nst : nat) (L : 'I_nchol -> 'M[F]_nao).
Definition xi (sg : {ffun 'I_nst * 'I_nchol -> bool}) (u : 'I_nst) (g : 'I_nchol) : F :=
  (if sg (u, g) then 1 else -1) * isq.
Definition sri_X (sg : {ffun 'I_nst * 'I_nchol -> bool}) (u : 'I_nst) : 'M[F]_nao :=
  \sum_g xi sg u g *: L g.
End Stochastic.
