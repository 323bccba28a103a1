(** Properties of the integral factorisations. *)
From mathcomp Require Import all_ssreflect all_algebra.
From Verif Require Import CholModel CholSpec CholProofs.
From Verif Require Base.
Set Implicit Arguments.
Unset Strict Implicit.
Unset Printing Implicit Defensive.
Import Order.TTheory GRing.Theory Num.Theory.
Local Open Scope ring_scope.

(** C21: the vectors returned by the pivoted decomposition reproduce a symmetric
    positive semidefinite matrix within the threshold, from below. *)
Theorem C21_blocked (F : rcfType) n (M : 'M[F]_n.+1) thresh cap r :
  psd M -> 0 <= thresh -> chols_blocked M thresh cap = Base.Ok r ->
  within thresh M (outer_sum r) /\ psd (M - outer_sum r).
Proof. by move=> P t E; case: (chols_ok P t E). Qed.
Print Assumptions C21_blocked.

(** So do the vectors from the singular value decomposition M = U diag(s) U^T. *)
Theorem C21_full (F : rcfType) n (M : 'M[F]_n.+1) thresh (U : 'M[F]_n.+1) (s : 'I_n.+1 -> F) :
  U *m U^T = 1%:M -> (forall k, 0 <= s k) -> 0 <= thresh ->
  M = U *m diag_mx (\row_k s k) *m U^T ->
  within thresh M (outer_sum (chols_full thresh U s)).
Proof. exact: full_ok. Qed.
Print Assumptions C21_full.

Example C21_example (F : rcfType) :
  psd (4%:R *: 1%:M : 'M[F]_1)
  /\ chols_blocked (4%:R *: 1%:M : 'M[F]_1) 0 2 = Base.Ok [:: 2%:R *: 1%:M].
Proof. split; [exact: four_psd|exact: chols_four]. Qed.
Example C21_full_example (F : rcfType) :
  outer_sum (chols_full 1 (1%:M : 'M[F]_1) (fun=> 4%:R)) = 4%:R *: 1%:M.
Proof. exact: full_four. Qed.

(** C22: the decomposition returns at most rank-many vectors and always ends. *)
Theorem C22_at_most_rank (F : rcfType) n (M : 'M[F]_n.+1) thresh cap r :
  psd M -> 0 <= thresh -> chols_blocked M thresh cap = Base.Ok r -> (size r <= \rank M)%N.
Proof. by move=> P t E; case: (chols_ok P t E). Qed.
Print Assumptions C22_at_most_rank.
Theorem C22_terminates (F : rcfType) n (M : 'M[F]_n.+1) thresh cap e :
  chols_blocked M thresh cap = Base.Err e -> e <> Base.OutOfFuel.
Proof. exact: chols_errors. Qed.
Print Assumptions C22_terminates.
(** One reserved row more than the rank is enough. *)
Theorem C22_enough_rows_partial (F : rcfType) n (M : 'M[F]_n.+1) thresh cap :
  psd M -> 0 <= thresh -> (\rank M < cap)%N -> exists r, chols_blocked M thresh cap = Base.Ok r.
Proof. exact: chols_total. Qed.
Print Assumptions C22_enough_rows_partial.
(** It may fail although the reserved rows suffice: one vector is needed and one
    row is reserved. *)
Theorem C22_reserved_refuted (F : rcfType) : exists (M : 'M[F]_1) (cap : nat) (r : seq 'rV[F]_1),
  [/\ psd M, within 0 M (outer_sum r), (size r <= cap)%N & chols_blocked M 0 cap = Base.Err Base.IndexError].
Proof. exact: (ex_intro _ 1%:M (ex_intro _ 1%N (ex_intro _ [:: 1%:M] (limit_fits F)))). Qed.
Print Assumptions C22_reserved_refuted.
Example C22_example (F : rcfType) : (\rank (4%:R *: 1%:M : 'M[F]_1) < 2)%N.
Proof. exact: leq_ltn_trans (rank_leq_row _) _. Qed.

(** C94: when the limit on the number of vectors is reached the vectors found so
    far are returned with a warning.  They are not: whatever is returned is
    shorter than the limit, and reaching it raises. *)
Theorem C94_limit_refuted (F : rcfType) : exists (M : 'M[F]_1) (cap : nat),
  [/\ (0 < cap)%N, psd M & chols_blocked M 0 cap = Base.Err Base.IndexError].
Proof. exact: (ex_intro _ 1%:M (ex_intro _ 1%N (And3 isT (psd1 F 1) (limit_bad F)))). Qed.
Print Assumptions C94_limit_refuted.
Theorem C94_below_limit_partial (F : rcfType) n (M : 'M[F]_n.+1) thresh cap r :
  psd M -> 0 <= thresh -> chols_blocked M thresh cap = Base.Ok r -> (size r < cap)%N.
Proof. by move=> P t E; case: (chols_ok P t E). Qed.
Print Assumptions C94_below_limit_partial.

(** C98: with coupling vectors g, every column is the column of
    M + sum_n g_n g_n^T.  It is for one coupling vector; with two the
    computation raises. *)
Theorem C98_one_mode_partial (F : rcfType) n (M : 'M[F]_n) (g : 'rV[F]_n) nu :
  modify_chunk [:: g] nu (row nu M) = Base.Ok (row nu (M + outer_sum [:: g])).
Proof. exact: modify_one. Qed.
Print Assumptions C98_one_mode_partial.
Theorem C98_modes_refuted (F : rcfType) : exists (M : 'M[F]_1) (g : seq 'rV[F]_1),
  forall nu, modify_chunk g nu (row nu M) <> Base.Ok (row nu (M + outer_sum g)).
Proof. exact: modes_bad. Qed.
Print Assumptions C98_modes_refuted.
Theorem C98_two_modes_partial (F : rcfType) n (g g' : 'rV[F]_n.+1) nu col :
  modify_chunk [:: g; g'] nu col = Base.Err Base.ValueError.
Proof. exact: modify_two. Qed.
Print Assumptions C98_two_modes_partial.
Example C98_example (F : rcfType) :
  modify_chunk [:: 2%:R *: (1%:M : 'M[F]_1)] ord0 (row ord0 1%:M)
  = Base.Ok (row ord0 (1%:M + outer_sum [:: 2%:R *: (1%:M : 'M[F]_1)])).
Proof. exact: modify_one. Qed.

(** C103: rotating the Cholesky vectors to the orthogonal basis rotates the
    integrals they represent. *)
Theorem C103_rotation (F : fieldType) (conj : {rmorphism F -> F}) p q (X : 'M[F]_(p, q))
  (Ls : seq 'M[F]_p) a b c d :
  eri_of [seq rotate_chol conj X L | L <- Ls] a b c d
  = \sum_i \sum_j \sum_k \sum_l
      conj (X i a) * X j b * conj (X k c) * X l d * eri_of Ls i j k l.
Proof. exact: eri_rotate. Qed.
Print Assumptions C103_rotation.
Example C103_example :
  eri_of [seq rotate_chol [rmorphism of idfun] (2%:R *: (1%:M : 'M[rat]_1)) L | L <- [:: 1%:M]]
    ord0 ord0 ord0 ord0 = 16%:R.
Proof.
rewrite eri_rotate !big_ord_recl !big_ord0 /eri_of !big_seq1 !mxE /=; exact/eqP.
Qed.

(** C25: the plan has one entry per Cholesky vector, and the exchange energy from
    it is the plain one, for symmetric vectors whose dropped singular values and
    elements outside the band vanish. *)
Theorem C25_one_entry_each (F : numFieldType) N tol mr (ds : seq (svd_of F N)) :
  size (build_plan tol mr ds) = size ds.
Proof. exact: size_map. Qed.
Print Assumptions C25_one_entry_each.
Theorem C25_exchange_partial (F : numFieldType) N tol mr bw (ps : seq ('M[F]_N * svd_of F N)) G :
  (forall L d, List.In (L, d) ps -> [/\ exact_svd tol L (sU d) (ss d) (sV d), L^T = L & in_band bw L]) ->
  exx_plan bw (build_plan tol mr (unzip2 ps)) (unzip1 ps) G
  = 2%:R^-1 * \sum_(L <- unzip1 ps) exchange1 L G.
Proof. exact: exx_plan_ok. Qed.
Print Assumptions C25_exchange_partial.
(** Without symmetry the low-rank entry uses L where the banded one uses its
    transpose. *)
Theorem C25_exchange_refuted : exists (L G : 'M[rat]_2) d,
  [/\ exact_svd 0 L (sU d) (ss d) (sV d), in_band 1 L
    & exx_plan 1 (build_plan 0 1 [:: d]) [:: L] G <> 2%:R^-1 * \sum_(K <- [:: L]) exchange1 K G].
Proof.
exact: (ex_intro _ badL (ex_intro _ badG (ex_intro _ bad_svd (And3 bad_exact bad_band bad_plan)))).
Qed.
Print Assumptions C25_exchange_refuted.
Example C25_example : exact_svd 0 (1%:M : 'M[rat]_2) 1%:M (fun=> 1) 1%:M
  /\ in_band 1 (1%:M : 'M[rat]_2) /\ exchange1 (1%:M : 'M[rat]_2) 1%:M = 2%:R.
Proof. exact: one_exact. Qed.

(** C104: the stochastic resolution of the identity is unbiased: the average
    over all sign choices of the represented integrals is the integrals. *)
Theorem C104_unbiased (F : fieldType) (isq : F) nao nchol nst (L : 'I_nchol -> 'M[F]_nao) a b c d :
  2%:R != 0 :> F -> isq * isq * nst%:R = 1 ->
  \sum_(sg : {ffun 'I_nst * 'I_nchol -> bool}) \sum_u sri_X isq L sg u a b * sri_X isq L sg u c d
  = #|{ffun 'I_nst * 'I_nchol -> bool}|%:R * \sum_g L g a b * L g c d.
Proof. by move=> two; exact: sri_mean. Qed.
Print Assumptions C104_unbiased.
Example C104_example : (2%:R : rat)^-1 * 2%:R^-1 * 4%:R = 1 /\ 2%:R != 0 :> rat.
Proof. by split; apply/eqP. Qed.

(** C105: the bandwidth covers every element at or above the threshold. *)
Theorem C105_covers_partial (F : numFieldType) N thr (Ls : seq 'M[F]_N) b :
  get_blksize thr Ls = Base.Ok b ->
  forall L, L \in Ls -> forall i j, thr <= `|L i j| -> (i <= j + b)%N && (j <= i + b)%N.
Proof. exact: blksize_covers. Qed.
Print Assumptions C105_covers_partial.
(** It is the least such number when there is a vector. *)
Theorem C105_least_partial (F : numFieldType) N thr (Ls : seq 'M[F]_N) b :
  get_blksize thr Ls = Base.Ok b -> Ls != [::] ->
  exists L i j, [/\ L \in Ls, thr <= `|L i j| & (nat_of_ord i == j + b)%N || (nat_of_ord j == i + b)%N].
Proof. exact: blksize_least. Qed.
Print Assumptions C105_least_partial.
(** A vector without such an element makes it raise. *)
Theorem C105_total_refuted (F : numFieldType) N : exists thr (Ls : seq 'M[F]_N),
  0 < thr /\ get_blksize thr Ls = Base.Err Base.ValueError.
Proof. exact: (ex_intro _ 1 (ex_intro _ [:: 0] (conj (@ltr01 F) (blksize_raises N (@ltr01 F))))). Qed.
Print Assumptions C105_total_refuted.
Example C105_example : get_blksize 1 [:: badL] = Base.Ok 1%N.
Proof. exact: blksize_badL. Qed.
