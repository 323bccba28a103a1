(** Properties of the linear-algebra helpers. *)
From mathcomp Require Import all_ssreflect all_algebra all_fingroup.
From Verif Require Import MathModel MathSpec MathProofs.
From Verif Require Base.
Set Implicit Arguments.
Unset Strict Implicit.
Unset Printing Implicit Defensive.
Import GRing.Theory Num.Theory.
Local Open Scope ring_scope.

(** * C161: full Cholesky orthogonalisation *)
Theorem C161_factors : forall (F : realFieldType) (dpstrf : arr F -> F -> arr F * seq int * int * int)
  n k S tol, shape n n S -> dpstrf_ok k (mat n n S) (dpstrf S tol) -> exists L P,
  [/\ full_cholesky_orth dpstrf S tol = Ok (L, P), shape k k L, shape n k P &
     [/\ forall i j, (i < j)%N -> (j < k)%N -> at2 L i j = 0,
         forall i, (i < k)%N -> at2 L i i != 0,
         (mat n k P)^T *m mat n k P = 1%:M &
         (mat n k P)^T *m mat n n S *m mat n k P = mat k k L *m (mat k k L)^T]].
Proof. exact orth_ok. Qed.
Print Assumptions C161_factors.

Theorem C161_orthonormal : forall (F : realFieldType) (dpstrf : arr F -> F -> arr F * seq int * int * int)
  n k S tol, shape n n S -> dpstrf_ok k (mat n n S) (dpstrf S tol) ->
  forall L P, full_cholesky_orth dpstrf S tol = Ok (L, P) ->
  mat k k L \in unitmx /\
  orthonormal_cols (mat n n S) (mat n k P *m (invmx (mat k k L))^T).
Proof. exact orthonormaliser. Qed.
Print Assumptions C161_orthonormal.

Theorem C161_errors : forall (F : realFieldType) (dpstrf : arr F -> F -> arr F * seq int * int * int) S tol,
  (let: (_, piv, rank, info) := dpstrf S tol in
   [\/ info < 0, (rows S)%:Z < rank, rank <= 0 | exists p, p \in piv /\ ((rows S)%:Z < p \/ p <= 0)]) <->
  full_cholesky_orth dpstrf S tol = Err Base.ValueError.
Proof. exact orth_errors. Qed.
Print Assumptions C161_errors.

(** a LAPACK answer that satisfies the hypothesis *)
Example C161_ex : dpstrf_ok 2 (mat 2 2 S_w) (dpstrf_w S_w 0) /\ shape 2 2 S_w.
Proof. split; [exact: dpstrf_w_ok|by []]. Qed.

(** * C162: orbitals of the initial guess *)
Theorem C162_documented : forall (F : realFieldType) (eigh0 : arr F -> arr F -> (nat -> F) * arr F)
  n k (P L h1e S : arr F),
  shape n n h1e -> shape n k P -> shape k k L ->
  (mat n k P)^T *m mat n n S *m mat n k P = mat k k L *m (mat k k L)^T ->
  (forall h s, shape k k (eigh0 h s).2) ->
  (forall h s, mat k k h = (mat n k P)^T *m mat n n h1e *m mat n k P ->
               mat k k s = mat k k L *m (mat k k L)^T ->
     gen_eig (mat k k h) (mat k k s) (eigh0 h s).1 (mat k k (eigh0 h s).2)) ->
  exists e C, [/\ cholesky_diag_fock_rao eigh0 P L h1e = Ok (e, C), shape n k C &
     orthonormal_cols (mat n n S) (mat n k C) /\
     (mat n k P)^T *m (mat n n h1e *m mat n k C) =
     (mat n k P)^T *m (mat n n S *m mat n k C *m diag_mx (\row_i e i))].
Proof. exact rao_orbitals. Qed.
Print Assumptions C162_documented.

Theorem C162_density : forall (F : realFieldType) n k (S : 'M[F]_n) (C : arr F) occ,
  shape n k C -> orthonormal_cols S (mat n k C) ->
  nelec S (mat n n (make_rdm1 C occ)) = \sum_(i < k) occ i.
Proof. exact rdm1_nelec. Qed.
Print Assumptions C162_density.

(** get_cholesky stores the two factors in each other's place: the guess for
    two electrons holds 104/25 electrons *)
Theorem C162_electrons_refuted : exists P L h s D,
  [/\ get_cholesky dpstrf_w S_w = Ok (P, L), ao2rao h_w P = Ok h, get_reduced_overlp L = Ok s,
      gen_eig (mat 2 2 h) (mat 2 2 s) (eigh_w h s).1 (mat 2 2 (eigh_w h s).2) &
      init_guess_by_1e eigh_w dpstrf_w S_w h_w occ_w = Ok D /\
      nelec (mat 2 2 S_w) (mat 2 2 D) = 104%:Q / 25%:Q /\ \sum_(i < 2) occ_w i = 2%:Q].
Proof. exact swapped_w. Qed.
Print Assumptions C162_electrons_refuted.

(** for every linearly dependent basis the guess fails *)
Theorem C162_deficient_refuted : forall (F : realFieldType) (eigh0 : arr F -> arr F -> (nat -> F) * arr F)
  (dpstrf : arr F -> F -> arr F * seq int * int * int) n k S h1e tol occ,
  shape n n S -> shape n n h1e -> tol = 10%:R ^- 7 ->
  dpstrf_ok k (mat n n S) (dpstrf S tol) -> (k < n)%N ->
  init_guess_by_1e eigh0 dpstrf S h1e occ = Err Base.ValueError.
Proof. exact deficient. Qed.
Print Assumptions C162_deficient_refuted.

(** * C163: linear dependence *)
Theorem C163_selection : forall (F : realFieldType) (sc : xnum F) gc lindep eps force verbose g m,
  xlt (Fin 0) sc -> xmax gc = Ok g ->
  m = (if xlt sc g then g else sc) -> (verbose < 5)%N ->
  remove_linear_dep sc (Some gc) lindep eps force verbose =
    Ok (if xlt m (Fin (1 / lindep)) && ~~ force then Unchanged
        else if xlt m (Fin (1 / eps)) && ~~ force then Canonical else PivotCholesky).
Proof. exact lindep_table. Qed.
Print Assumptions C163_selection.

Theorem C163_well_conditioned : forall (F : realFieldType) (sc : xnum F) gc lindep eps verbose g,
  xlt (Fin 0) sc -> xmax gc = Ok g ->
  xlt sc (Fin (1 / lindep)) -> xlt g (Fin (1 / lindep)) ->
  remove_linear_dep sc (Some gc) lindep eps false verbose = Ok Unchanged.
Proof. exact lindep_well. Qed.
Print Assumptions C163_well_conditioned.

Theorem C163_maximum : forall (F : realFieldType) (x : xnum F) l, exists m,
  xmax (x :: l) = Ok m /\ (m = x \/ List.In m l) /\ ~~ xlt m x /\ forall y, List.In y l -> ~~ xlt m y.
Proof. exact xmax_spec. Qed.
Print Assumptions C163_maximum.

(** ill-conditioned without a photon object *)
Theorem C163_no_boson_refuted : forall (F : realFieldType) (sc : xnum F) lindep eps force verbose,
  (verbose < 5)%N -> xlt (Fin 0) sc -> (force || ~~ xlt sc (Fin (1 / lindep))) ->
  remove_linear_dep sc None lindep eps force verbose = Err Base.UnboundLocalError.
Proof. exact lindep_no_boson. Qed.
Print Assumptions C163_no_boson_refuted.

(** ill-conditioned with debug output *)
Theorem C163_debug_refuted : forall (F : realFieldType) (sc : xnum F) gcs lindep eps force verbose m,
  (5 <= verbose)%N ->
  (match gcs with None => Ok (if xlt (Fin 0) sc then sc else Fin 0)
   | Some l => Base.rbind (xmax l) (fun g => let m0 := if xlt (Fin 0) sc then sc else Fin 0 in Ok (if xlt m0 g then g else m0)) end) = Ok m ->
  (force || ~~ xlt m (Fin (1 / lindep))) ->
  remove_linear_dep sc gcs lindep eps force verbose = Err Base.TypeError.
Proof. exact lindep_verbose. Qed.
Print Assumptions C163_debug_refuted.

(** a mode without coupling has an infinite condition number and switches the
    solver although the overlap is perfectly conditioned *)
Example C163_ex : remove_linear_dep (Fin (1 : rat)) (Some [:: Fin (5%:Q); Inf _]) (10%:Q ^- 7) (10%:Q ^- 15) false 3
  = Ok PivotCholesky.
Proof. by []. Qed.

(** * C164: subspace Hamiltonian *)
Theorem C164_general : forall (C : numClosedFieldType) vdim (Aop : vec C -> vec C) blocks h,
  let st := foldl (extend vdim Aop) ([::], h) blocks in
  st.1 = flatten blocks /\ projected vdim Aop st.1 st.2.
Proof. exact extend_all. Qed.
Print Assumptions C164_general.

Theorem C164_hermitian : forall (C : numClosedFieldType) vdim (Aop : vec C -> vec C) blocks h,
  hermitian_op vdim Aop ->
  let st := foldl (extend_hermitian vdim Aop) ([::], h) blocks in
  st.1 = flatten blocks /\ projected vdim Aop st.1 st.2.
Proof. exact extend_hermitian_all. Qed.
Print Assumptions C164_hermitian.

(** the hypothesis is needed, and it is satisfied by the identity *)
Theorem C164_hermitian_needed : forall C : numClosedFieldType,
  exists (Aop : vec C -> vec C) blocks h,
  let st := foldl (extend_hermitian 2 Aop) ([::], h) blocks in ~ projected 2 Aop st.1 st.2.
Proof. exact hermitian_needed. Qed.
Print Assumptions C164_hermitian_needed.

Example C164_ex : forall (C : numClosedFieldType) vdim, hermitian_op vdim (fun v : vec C => v).
Proof.
move=> C vdim x y; rewrite rmorph_sum; apply: eq_bigr=> a _.
by rewrite rmorphM conjCK mulrC.
Qed.

(** * C165: Davidson and Lanczos drivers *)
Theorem C165_davidson_refuted : forall aop x0 prec, davidson aop x0 prec = Err Base.TypeError.
Proof. exact davidson_fails. Qed.
Print Assumptions C165_davidson_refuted.

Theorem C165_lanczos_refuted : forall matvec x0, lanczos matvec x0 = Ok PNone.
Proof. exact lanczos_none. Qed.
Print Assumptions C165_lanczos_refuted.

(** * C166: transformations between bases *)
Theorem C166_agree : forall (F : realFieldType) n k (U A : arr F), shape n k U -> shape n n A ->
  exists R1 R2, [/\ unitary_transform U A = Ok R1, unitary_transform_lib U A = Ok R2, shape k k R1, shape k k R2 &
    mat k k R1 = mat k k R2].
Proof. exact transforms_agree. Qed.
Print Assumptions C166_agree.

Theorem C166_formula : forall (F : realFieldType) n k (U A : arr F), shape n k U -> shape n n A ->
  exists R, [/\ unitary_transform U A = Ok R, shape k k R &
              mat k k R = (mat n k U)^T *m mat n n A *m mat n k U].
Proof. exact unitary_transform_mat. Qed.
Print Assumptions C166_formula.

Theorem C166_back : forall (F : realFieldType) n (U V A : arr F),
  shape n n U -> shape n n V -> shape n n A -> mat n n U *m mat n n V = 1%:M ->
  exists B R, [/\ unitary_transform U A = Ok B, unitary_transform V B = Ok R, shape n n R & mat n n R = mat n n A].
Proof. exact transform_back. Qed.
Print Assumptions C166_back.

Theorem C166_symmetric : forall (F : realFieldType) n k (U A R : arr F),
  shape n k U -> shape n n A -> unitary_transform U A = Ok R ->
  (mat n n A)^T = mat n n A -> (mat k k R)^T = mat k k R.
Proof. exact transform_sym. Qed.
Print Assumptions C166_symmetric.

Theorem C166_trace : forall (F : realFieldType) n (U A R : arr F),
  shape n n U -> shape n n A -> unitary_transform U A = Ok R ->
  mat n n U *m (mat n n U)^T = 1%:M -> \tr (mat n n R) = \tr (mat n n A).
Proof. exact transform_trace. Qed.
Print Assumptions C166_trace.

(** expectation values are the same in the dipole basis *)
Theorem C166_expectation : forall (F : realFieldType) n (S dm U A : arr F),
  shape n n S -> shape n n dm -> shape n n U -> shape n n A ->
  (mat n n S)^T = mat n n S ->
  (mat n n U)^T *m mat n n S *m mat n n U = 1%:M ->
  exists D B, [/\ get_dm_do S dm U = Ok D, unitary_transform U A = Ok B &
    \tr (mat n n D *m mat n n B) = \tr (mat n n dm *m mat n n A)].
Proof. exact dm_do_expectation. Qed.
Print Assumptions C166_expectation.

(** and of operators built in the dipole basis and transformed back *)
Theorem C166_expectation_back : forall (F : realFieldType) n (S dm U V W : arr F),
  shape n n S -> shape n n dm -> shape n n U -> shape n n V -> shape n n W ->
  (mat n n S)^T = mat n n S ->
  (mat n n U)^T *m mat n n S *m mat n n U = 1%:M -> mat n n U *m mat n n V = 1%:M ->
  exists D B, [/\ get_dm_do S dm U = Ok D, unitary_transform V W = Ok B &
    \tr (mat n n dm *m mat n n B) = \tr (mat n n D *m mat n n W)].
Proof. exact dm_do_back. Qed.
Print Assumptions C166_expectation_back.

(** a basis orthonormal for overlap 3/5 *)
Example C166_ex : let U := a2 1 (- (3%:Q / 4%:Q)) 0 (5%:Q / 4%:Q) in
  (mat 2 2 U)^T *m mat 2 2 S_w *m mat 2 2 U = 1%:M.
Proof.
apply/matrixP; apply: ord2; apply: ord2; rewrite !mul2 !mxE /= -!(inj_eq val_inj) /= !inordK //=; by apply/eqP.
Qed.

(** * C167: phase convention of the eigenvectors *)
Theorem C167_eigenvectors : forall (F : realFieldType) n (h s : 'M[F]_n) e (c : arr F),
  gen_eig h s e (mat n n c) -> gen_eig h s e (mat n n (fix_phase c)).
Proof. exact fix_phase_gen_eig. Qed.
Print Assumptions C167_eigenvectors.

Theorem C167_largest : forall (F : realFieldType) (c : arr F) j, (0 < rows c)%N ->
  exists i, [/\ (i < rows c)%N, 0 <= at2 (fix_phase c) i j &
     forall a, (a < rows c)%N -> `|at2 (fix_phase c) a j| <= `|at2 (fix_phase c) i j|].
Proof. exact fix_phase_largest. Qed.
Print Assumptions C167_largest.

Theorem C167_unique : forall (F : realFieldType) (c d : arr F) (s : nat -> bool), rows c = rows d ->
  (forall i j, at2 d i j = (-1) ^+ s j * at2 c i j) ->
  forall j, (0 < rows c)%N -> (exists i, (i < rows c)%N /\ at2 c i j != 0) ->
  forall i, at2 (fix_phase d) i j = at2 (fix_phase c) i j.
Proof. exact fix_phase_unique. Qed.
Print Assumptions C167_unique.

Example C167_ex : at2 (fix_phase (a2 1 0 (- 2%:Q) 1)) 1 0 = 2%:Q /\ at2 (fix_phase (a2 (- 1) 0 2%:Q 1)) 1 0 = 2%:Q.
Proof. by split; apply/eqP. Qed.

(** * C168: diagonal preconditioner *)
Theorem C168_denominator : forall (F : realFieldType) shift (diag dx : nat -> F) e i,
  exists d, [/\ precond shift diag dx e i = dx i / d, 10%:R ^- 8 <= `|d| &
     10%:R ^- 8 <= `|diag i - (e - shift)| -> d = diag i - (e - shift)].
Proof. exact precond_denominator. Qed.
Print Assumptions C168_denominator.

Example C168_ex : forall F : realFieldType, precond (F := F) 0 (fun _ => 1) (fun _ => 1) 1 0 = 10%:R ^+ 8.
Proof. by move=> F; rewrite /precond subr0 subrr normr0 invr_gt0 exprn_gt0 ?ltr0n // invrK mul1r. Qed.
