(** Model of the compiled kernels in openms/lib/qmclibs/src: arrays are flat
    row-major memories, BLAS calls follow their reference semantics, and an
    OpenMP loop is run in an arbitrary interleaving of its iterations.  Numbers
    are an arbitrary field with [conj] for complex conjugation; rounding is not
    modelled.  Checks of the number of dimensions are left out. *)
From mathcomp Require Import all_ssreflect all_algebra.
From Verif Require Base.
From Verif Require LinModel.
Set Implicit Arguments.
Unset Strict Implicit.
Unset Printing Implicit Defensive.
Import GRing.Theory.
Notation res := Base.res.
Notation Ok := Base.Ok.
Notation Err := Base.Err.
Local Open Scope ring_scope.

(** * "#pragma omp parallel for": iteration w runs its list of atomic actions
    on its private variables and on the shared memory; the actions of different
    iterations are interleaved in any way *)
Section Omp.
Variables (F P : Type).
Definition mem := nat -> F.
Definition action := P -> mem -> P * mem.
Record state := State { priv : nat -> P; shared : mem }.
Definition event (st : state) (x : nat * action) : state :=
  let: (p, s) := x.2 (priv st x.1) (shared st) in
  State (fun v => if v == x.1 then p else priv st v) s.
Definition run (trace : seq (nat * action)) (st : state) : state := foldl event st trace.
Definition interleaving (nw : nat) (prog : nat -> seq action) (trace : seq (nat * action)) : Prop :=
  all (fun x => (x.1 < nw)%N) trace /\
  forall w, (w < nw)%N -> [seq x.2 | x <- trace & x.1 == w] = prog w.
End Omp.

Section Kernels.
Variables (F : fieldType) (conj : F -> F).
Notation mem := (mem F).
Definition at_ptr (s : mem) (off : nat) : mem := fun x => s (off + x)%N.
Definition of_vec (v : seq F) : mem := nth 0 v.

(** cblas_zgemm / cblas_dgemm, CblasRowMajor, alpha = 1, beta = 0, second
    matrix not transposed, result with leading dimension N *)
Definition gemm (ta : bool) (M N K : nat) (A : mem) (lda : nat) (B : mem) (ldb : nat) : seq F :=
  mkseq (fun x => \sum_(l < K)
    (if ta then A (l * lda + x %/ N)%N else A (x %/ N * lda + l)%N) * B (l * ldb + x %% N)%N) (M * N).
(** one assignment to a shared array *)
Definition store (P : Type) (y : nat) (f : P -> mem -> F) : action F P :=
  fun p s => (p, fun z => if z == y then f p s else s z).

(** ** propagator.cpp *)

(** propagate_onebody_blas_complex_return, 69-113 (and the real one, 150-187):
    iteration iw fills its part of the new array; [op] is n x n, [phi] is
    nw x n x m *)
Definition onebody_prog (n m : nat) (op phi : mem) (iw : nat) : seq (action F unit) :=
  let C := gemm false n m n op n (at_ptr phi (iw * (n * m))) m in
  [seq store (iw * (n * m) + x) (fun _ _ => nth 0 C x) | x <- iota 0 (n * m)].

(** propagate_exp_op_taylor_complex, 279-329; private variables temp and
    new_temp *)
Definition vecs := (seq F * seq F)%type.
Definition hs_copy (n m iw : nat) : action F vecs :=
  fun p s => ((mkseq (fun x => s (iw * (n * m) + x)%N) (n * m), p.2), s).
Definition hs_gemm (n m : nat) (op : mem) (iw : nat) : action F vecs :=
  fun p s => ((p.1, gemm false n m n (at_ptr op (iw * (n * n))) n (of_vec p.1) m), s).
Definition hs_scal (k : nat) : action F vecs := fun p s => ((p.1, [seq k%:R^-1 * y | y <- p.2]), s).
Definition hs_axpy (n m iw x : nat) : action F vecs :=
  store (iw * (n * m) + x) (fun p s => s (iw * (n * m) + x)%N + nth 0 p.2 x).
Definition hs_move : action F vecs := fun p s => ((p.2, [::]), s).
Definition hs_turn (n m : nat) (op : mem) (iw k : nat) : seq (action F vecs) :=
  [:: hs_gemm n m op iw; hs_scal k] ++ [seq hs_axpy n m iw x | x <- iota 0 (n * m)] ++ [:: hs_move].
Definition hs_prog (n m : nat) (op : mem) (order iw : nat) : seq (action F vecs) :=
  hs_copy n m iw :: flatten [seq hs_turn n m op iw k | k <- iota 1 order].
(** propagate_exp_op_taylor, the real version, 239-276: new_temp is divided
    only where it is added *)
Definition hs_add (n m iw k x : nat) : action F vecs :=
  store (iw * (n * m) + x) (fun p s => s (iw * (n * m) + x)%N + nth 0 p.2 x / k%:R).
Definition hsr_turn (n m : nat) (op : mem) (iw k : nat) : seq (action F vecs) :=
  [:: hs_gemm n m op iw] ++ [seq hs_add n m iw k x | x <- iota 0 (n * m)] ++ [:: hs_move].
Definition hsr_prog (n m : nat) (op : mem) (order iw : nat) : seq (action F vecs) :=
  hs_copy n m iw :: flatten [seq hsr_turn n m op iw k | k <- iota 1 order].

(** ** what pybind11 hands over: array_t<complex, c_style | forcecast> is the
    caller's array if it has this type and layout and a converted copy
    otherwise.  [data] holds the entries in row-major order. *)
Record ndarray := Arr { d0 : nat; d1 : nat; d2 : nat; data : mem; complex128 : bool; c_order : bool }.
Definition with_data (a : ndarray) (s : mem) : ndarray := Arr (d0 a) (d1 a) (d2 a) s (complex128 a) (c_order a).
(** the call of _qmclib.propagate_onebody_complex: a new array; [junk] is its
    content before the loop *)
Definition cpp_onebody (trace : seq (nat * action F unit)) (junk : mem) (rows cols : nat) (phi : ndarray) : res ndarray :=
  if (rows != cols) || (d1 phi != rows) then Err Base.RuntimeError
  else Ok (Arr (d0 phi) (d1 phi) (d2 phi) (shared (run trace (State (fun=> tt) junk))) true true).
(** the call of _qmclib.propagate_exp_op_complex: the caller's array afterwards *)
Definition cpp_hs (trace : seq (nat * action F vecs)) (phi : ndarray) (o0 o1 o2 : nat) : res ndarray :=
  if (o0 != d0 phi) || (o1 != d1 phi) || (o2 != d1 phi) then Err Base.RuntimeError
  else Ok (if complex128 phi && c_order phi
           then with_data phi (shared (run trace (State (fun=> ([::], [::])) (data phi)))) else phi).

(** the same entries as matrices *)
Definition slab (n m : nat) (s : mem) (w : nat) : 'M[F]_(n, m) := \matrix_(i, j) s (w * (n * m) + i * m + j)%N.
Definition unslab (n m : nat) (X : nat -> 'M[F]_(n, m)) : mem := fun y =>
  match insub (y %/ m %% n)%N, insub (y %% m)%N with Some i, Some j => X (y %/ m %/ n)%N i j | _, _ => 0 end.
(** the Python kernels, propagators.py 62-79 and 240-262, on the caller's array
    (a complex result cannot be stored in a real array) *)
Definition py_onebody (op : mem) (phi : ndarray) : res ndarray :=
  if complex128 phi then Ok (with_data phi (unslab (fun w => slab (d1 phi) (d1 phi) op 0 *m slab (d1 phi) (d2 phi) (data phi) w)))
  else Err Base.TypeError.
Definition py_hs (op : mem) (order : nat) (phi : ndarray) : res ndarray :=
  if complex128 phi then
    Ok (with_data phi (unslab (fun w =>
      LinModel.propagate_exp_op (slab (d1 phi) (d1 phi) op w) order (slab (d1 phi) (d2 phi) (data phi) w))))
  else Err Base.TypeError.

(** the electronic step, propagators.py 734-740: one-body, auxiliary field,
    one-body *)
Definition cpp_step tr1 tr2 tr3 junk1 junk3 (phi : ndarray) : res ndarray :=
  Base.rbind (cpp_onebody tr1 junk1 (d1 phi) (d1 phi) phi) (fun phi1 =>
  Base.rbind (cpp_hs tr2 phi1 (d0 phi) (d1 phi) (d1 phi)) (fun phi2 =>
  cpp_onebody tr3 junk3 (d1 phi) (d1 phi) phi2)).
Definition py_step (e op : mem) (order : nat) (phi : ndarray) : res ndarray :=
  Base.rbind (py_onebody e phi) (fun phi1 => Base.rbind (py_hs op order phi1) (fun phi2 => py_onebody e phi2)).

(** ** trial.cpp *)
(** trial_walker_ovlp_base, 21-61: [psi] is n x no *)
Definition ovlp_prog (n no : nat) (phiw psi : mem) (z : nat) : seq (action F unit) :=
  let C := gemm true no no n (at_ptr phiw (z * (n * no))) no (fun x => conj (psi x)) no in
  [seq store (z * (no * no) + x) (fun _ _ => nth 0 C x) | x <- iota 0 (no * no)].
Definition cpp_ovlp (trace : seq (nat * action F unit)) (junk : mem) (n no p0 p1 : nat) : res mem :=
  if (p0 != n) || (p1 != no) then Err Base.RuntimeError
  else Ok (shared (run trace (State (fun=> tt) junk))).
(** trial_walker_ovlp_gf_base, 64-118, for square overlaps; the shared memory
    holds ovlp and behind it Ghalf, [gb] entries further on.  [inv] is Eigen's inverse
    of a flat matrix. *)
Definition gf_prog (inv : seq F -> seq F) (gb p i : nat) (phiw psi : mem) (z : nat) : seq (action F (seq F)) :=
  let phi := at_ptr phiw (z * (p * i)) in
  let C := gemm true i i p phi i (fun x => conj (psi x)) i in
  [seq store (z * (i * i) + x) (fun _ _ => nth 0 C x) | x <- iota 0 (i * i)] ++
  [:: fun _ s => (inv (mkseq (fun x => s (z * (i * i) + x)%N) (i * i)), s)] ++
  [seq store (gb + (z * (p * i) + x)) (fun v _ => \sum_(l < i) phi (x %/ i * i + l)%N * nth 0 v (x %% i * i + l)%N) | x <- iota 0 (p * i)].

(** ** estimators.cpp *)
(** exx_rltensor_Ghalf_complex, 17-81, and the real version, 84-143: value
    written by iteration iw *)
Definition exx_val (nchol nao no : nat) (rl G : mem) (iw : nat) : F :=
  2%:R^-1 * foldl (fun acc l =>
    let LG := gemm true no no nao (at_ptr rl (l * (nao * no))) no (at_ptr G (iw * (nao * no))) no in
    foldl (fun acc x => foldl (fun acc y => acc + nth 0 LG (x * no + y) * nth 0 LG (y * no + x)) acc (iota 0 no)) acc (iota 0 no))
    0 (iota 0 nchol).
(** cblas_zdotu_sub with strides 1 *)
Definition dotu (k : nat) (x y : mem) : F := \sum_(l < k) x l * y l.
(** ecoul_rltensor_uhf_complex, 147-192: [nob] is the last dimension of the
    beta arrays, the length of both products is that of alpha *)
Definition ecoul_uhf_val (nchol nao no nob : nat) (rla Ga rlb Gb : mem) (iw : nat) : F :=
  2%:R^-1 * foldl (fun acc l =>
    let LG := dotu (nao * no) (at_ptr Ga (iw * (nao * no))) (at_ptr rla (l * (nao * no)))
            + dotu (nao * no) (at_ptr Gb (iw * (nao * nob))) (at_ptr rlb (l * (nao * nob))) in
    acc + LG * LG) 0 (iota 0 nchol).
(** ecoul_rltensor_Ghalf_complex, 195-246 *)
Definition ecoul_val (nchol nao no : nat) (rl G : mem) (iw : nat) : F :=
  2%:R^-1 * foldl (fun acc l =>
    let LG := dotu (nao * no) (at_ptr G (iw * (nao * no))) (at_ptr rl (l * (nao * no))) in
    acc + LG * LG) 0 (iota 0 nchol).
(** the loop around them: one value per walker *)
Definition walker_prog (val : nat -> F) (iw : nat) : seq (action F unit) := [:: store iw (fun _ _ => val iw)].

(** ** linalg.cpp: tensordot_complex, 19-69 *)
Definition tensordot_prog (n p q : nat) (A B : mem) (zi : nat) : seq (action F unit) :=
  [seq store (zi * (p * q) + x) (fun _ _ => 0) | x <- iota 0 (p * q)] ++
  flatten [seq [seq store (zi * (p * q) + x)
      (fun _ s => s (zi * (p * q) + x)%N + A (zi * n + ni)%N * B (ni * (p * q) + x)%N) | x <- iota 0 (p * q)] | ni <- iota 0 n].
End Kernels.
