(** Properties C222-C229: the single-band Gutzwiller approximation. *)
From mathcomp Require Import all_ssreflect all_fingroup all_algebra.
From Verif Require Base.
From Verif Require Import GwfModel GwfSpec GwfProofs GwfMore GwfLast GwfEx.
Set Implicit Arguments.
Unset Strict Implicit.
Unset Printing Implicit Defensive.
Import Order.TTheory GRing.Theory Num.Theory.
Local Open Scope ring_scope.

(** C222: every run that returns leaves amplitudes of norm one, none negative *)
Theorem C222_amplitudes (F : rcfType) (eps : F) (n : nat) (solve : 'M[F]_n -> 'M[F]_n)
    (eigh : 'M[F]_3 -> 'M[F]_3) (h : 'M[F]_n) (u : 'I_n -> F) (tol tolg : F) :
  (forall H, H^T = H -> (eigh H)^T *m eigh H = 1%:M) ->
  forall k R0 lam0 dm0 conv e st,
  kernel eps solve eigh h u tol tolg k R0 lam0 dm0 = Base.Ok (conv, e, st) ->
  (forall i, physical (s_f st i)) /\ (forall i, 0 <= s_R st i <= 1).
Proof. exact: kernel_physical. Qed.
Print Assumptions C222_amplitudes.

Theorem C222_start (F : rcfType) (n0 : F) :
  (0 <= n0 <= 1 -> exists f, [/\ init_site n0 = Some f, physical f
     & expect f (num (c_up F)) = n0 /\ expect f (num (c_dn F)) = n0])
  /\ (~~ (0 <= n0 <= 1) -> init_site n0 = None).
Proof.
split; last exact: init_nan.
by case/init_ok=> f [h p o]; exists f; have [<- <-] := occupationE f; rewrite o.
Qed.
Print Assumptions C222_start.

(** The density matrix of the code counts both spins: the electrons of a site
    are counted twice, and more electrons than sites cannot be run. *)
Theorem C222_electrons_refuted (F : rcfType) : exists (n0 : F) f, init_site n0 = Some f
  /\ expect f (num (c_up F)) + expect f (num (c_dn F)) <> n0.
Proof.
exists 1, (0, 0, 1); have h : init_site (1 : F) = Some (0, 0, 1).
  by rewrite /init_site /np_sqrt subrr mulr0 ltxx sqrtr0.
split=> //; rewrite (closed_shell_twice h) mulr1; apply/eqP.
by rewrite (eqr_nat F 2 1).
Qed.
Print Assumptions C222_electrons_refuted.

Theorem C222_twice (F : rcfType) (n0 : F) f : init_site n0 = Some f ->
  expect f (num (c_up F)) + expect f (num (c_dn F)) = 2%:R * n0.
Proof. exact: closed_shell_twice. Qed.
Print Assumptions C222_twice.

Theorem C222_above_half (F : rcfType) (eps : F) (n : nat) (solve : 'M[F]_n -> 'M[F]_n) eigh
    (h : 'M[F]_n) u tol tolg k R0 lam0 :
  (forall M, n%:R < \tr (solve M)) ->
  kernel eps solve eigh h u tol tolg k.+1 R0 lam0 None = Base.Err Base.ValueError.
Proof. by move=> ht; have [i hi] := trace_big (ht (qp_ham h (odflt (fun=> 1) R0) (odflt (fun=> 0) lam0))); exact: (@kernel_nan F eps n solve eigh h u tol tolg k R0 lam0 None i hi). Qed.
Print Assumptions C222_above_half.

(** C223: the renormalisation factors *)
Theorem C223_numerator (F : rcfType) (eps : F) (f : F * F * F) (n0 : F) :
  renorm_raw eps f n0 = hopping f (c_up F) / Num.sqrt (`|n0 * (1 - n0)| + eps)
  /\ hopping f (c_dn F) = hopping f (c_up F).
Proof. by rewrite hop_dn hop_up; case: f => [[]]. Qed.
Print Assumptions C223_numerator.

Theorem C223_bounds (F : rcfType) (eps : F) (f : F * F * F) (n0 : F) : physical f ->
  0 <= renorm eps f n0 <= 1.
Proof. by case=> _; exact: renorm_bounds. Qed.
Print Assumptions C223_bounds.

Theorem C223_no_clip (F : rcfType) (eps : F) (f : F * F * F) : 0 < eps -> physical f ->
  renorm eps f (expect f (num (c_up F)))
  = hopping f (c_up F) / Num.sqrt (expect f (num (c_up F)) * (1 - expect f (num (c_up F))) + eps).
Proof.
by move=> he ph; have [<- _] := occupationE f; have [-> ->] := clip_inactive he ph.
Qed.
Print Assumptions C223_no_clip.

Theorem C223_uncorrelated (F : rcfType) (eps : F) (n0 : F) f : 0 < eps -> init_site n0 = Some f ->
  renorm eps f n0 ^+ 2 = n0 * (1 - n0) / (n0 * (1 - n0) + eps).
Proof. by move=> he; exact: uncorrelated. Qed.
Print Assumptions C223_uncorrelated.

(** C224: quasiparticle Hamiltonian and hybridisation *)
Theorem C224_qp_ham (F : rcfType) (n : nat) (h : 'M[F]_n) (R lam : 'I_n -> F) :
  (h^T = h -> (qp_ham h R lam)^T = qp_ham h R lam)
  /\ qp_ham h (fun=> 1) (fun=> 0) = h
  /\ (forall rho : 'M[F]_n, rho^T = rho ->
      \tr (qp_ham h R lam *m rho) = \sum_i \sum_j R i * R j * h i j * rho i j + \sum_i lam i * rho i i).
Proof. by split; [exact: qp_sym | split; [exact: qp_bare | move=> rho; exact: qp_energy]]. Qed.
Print Assumptions C224_qp_ham.

Theorem C224_deltas_uniform (F : rcfType) (n : nat) (h dm : 'M[F]_n) (R : 'I_n -> F) r :
  (forall i, R i = r) -> forall i, deltas h dm R i = \sum_j h i j * R j * dm j i.
Proof. exact: deltas_uniform. Qed.
Print Assumptions C224_deltas_uniform.

Theorem C224_deltas_refuted (F : rcfType) : exists (h dm : 'M[F]_2) (R : 'I_2 -> F) i,
  [/\ h^T = h, dm^T = dm, forall j, 0 <= R j <= 1
    & deltas h dm R i <> \sum_j h i j * R j * dm j i].
Proof. exact: deltas_cex. Qed.
Print Assumptions C224_deltas_refuted.

(** C225: the embedding Hamiltonian *)
Theorem C225_expectation (F : rcfType) (eps delta n0 u r lam : F) f' H :
  emb_ham eps delta n0 u r lam f' = Some H -> H^T = H /\
  let nf := expect f' (num (c_up F)) in
  let mu := - 4%:R * `|r * delta| * (nf - 2%:R^-1) / (`|nf * (1 - nf)| + eps) - 2%:R * lam in
  forall f, ((gvec f)^T *m gvec f) 0 0 = expect f 1%:M /\
    ((gvec f)^T *m H *m gvec f) 0 0
    = 2%:R * (delta / Num.sqrt `|n0 * (1 - n0)| + eps) * (hopping f (c_up F) + hopping f (c_dn F))
    + u * expect f (num (c_up F) *m num (c_dn F)) + mu * expect f (num (c_up F)).
Proof.
move=> h; split; first exact: emb_sym h.
move=> nf mu f; split; first exact: gvec_norm.
by rewrite (emb_energy h) /mu /nf; have [<- _] := occupationE f'.
Qed.
Print Assumptions C225_expectation.

Theorem C225_ground_state_refuted (F : rcfType) (eps : F) : 0 < eps -> exists delta n0 u r lam f H c,
  [/\ physical f, occupation f = n0 & emb_ham eps delta n0 u r lam f = Some H]
  /\ [/\ is_eigh H c, physical (new_site c)
  & exists g, physical g /\ ((gvec g)^T *m H *m gvec g) 0 0
      < ((gvec (new_site c))^T *m H *m gvec (new_site c)) 0 0].
Proof. exact: c0_cex. Qed.
Print Assumptions C225_ground_state_refuted.

(** C226: what the driver returns *)
Theorem C226_flag (S : Type) (step : S -> Base.res (S * bool)) k st r :
  ga_loop step k false st = Base.Ok r ->
  exists (s : nat -> S) (t : nat -> bool),
    [/\ s 0%N = st, s k = r.2, forall j, (j < k)%N -> step (s j) = Base.Ok (s j.+1, t j)
      & r.1 = has t (iota 0 k)].
Proof. exact: (@ga_loop_flag S step k false). Qed.
Print Assumptions C226_flag.

(** the test of a cycle and the flag the driver returns: small change of the
    amplitudes, or of the constraint *)
Theorem C226_test (F : rcfType) (eps : F) (n : nat) solve eigh (h : 'M[F]_n) u tol tolg st st' b :
  cycle eps solve eigh h u tol tolg st = Base.Ok (st', b) ->
  b = (Num.sqrt (\sum_i (((s_f st i).1.1 - (s_f st' i).1.1) ^+ 2
                         + ((s_f st i).1.2 - (s_f st' i).1.2) ^+ 2
                         + ((s_f st i).2 - (s_f st' i).2) ^+ 2)) < tol)
      || (lambda_err (s_dm st') (s_f st') < tolg).
Proof. exact: cycle_test. Qed.
Print Assumptions C226_test.
Theorem C226_driver (F : rcfType) (eps : F) (n : nat) solve eigh (h : 'M[F]_n) u tol tolg
    k R0 lam0 dm0 conv e st :
  kernel eps solve eigh h u tol tolg k R0 lam0 dm0 = Base.Ok (conv, e, st) ->
  exists (s : nat -> gstate F n) (t : nat -> bool),
    [/\ s k = st, forall j, (j < k)%N -> cycle eps solve eigh h u tol tolg (s j) = Base.Ok (s j.+1, t j)
      & conv = has t (iota 0 k)].
Proof. exact: kernel_flag. Qed.
Print Assumptions C226_driver.

Theorem C226_last_cycle_refuted : exists (step : nat -> Base.res (nat * bool)) st r,
  ga_loop step 2 false st = Base.Ok r /\ r.1 = true /\ step 1%N = Base.Ok (r.2, false).
Proof. exact: sticky. Qed.
Print Assumptions C226_last_cycle_refuted.

Theorem C226_energy_refuted (F : rcfType) (eps : F) (eigh : 'M[F]_3 -> 'M[F]_3) (n : nat) :
  0 < eps -> (0 < n)%N -> exists solve h u conv st,
    kernel eps solve eigh h u 0 0 1 None None None = Base.Ok (conv, 0, st)
    /\ 0 < ga_energy (n := n) h (s_dm st) u (s_R st) (s_f st).
Proof. exact: energy_cex. Qed.
Print Assumptions C226_energy_refuted.

Theorem C226_energy_zero (F : rcfType) (eps : F) (n : nat) solve eigh (h : 'M[F]_n) u tol tolg
    k R0 lam0 dm0 conv e st :
  kernel eps solve eigh h u tol tolg k R0 lam0 dm0 = Base.Ok (conv, e, st) -> e = 0.
Proof. exact: kernel_energy. Qed.
Print Assumptions C226_energy_zero.

Theorem C226_empty_or_full (F : rcfType) (eps : F) (n : nat) (solve : 'M[F]_n -> 'M[F]_n) eigh
    (h : 'M[F]_n) u tol tolg k R0 lam0 dm0 :
  (forall M, exists i, solve M i i = 0 \/ solve M i i = 1) ->
  kernel eps solve eigh h u tol tolg k.+1 R0 lam0 dm0 = Base.Err Base.ValueError.
Proof. exact: kernel_empty_full. Qed.
Print Assumptions C226_empty_or_full.

(** C227: occupations, density matrix, signs of the orbitals *)
Theorem C227_density (F : rcfType) (n N : nat) (idx : 'I_n -> 'I_n) (C S : 'M[F]_n) :
  injective idx -> C^T *m S *m C = 1%:M ->
  let D := make_rdm1 C (get_occ F N idx) in
  [/\ \sum_i get_occ F N idx i = (2 * minn (N %/ 2) n)%:R,
      D *m S *m D = 2%:R *: D & \tr (D *m S) = (2 * minn (N %/ 2) n)%:R].
Proof. by move=> hi hc; split; [exact: occ_sum | exact: rdm_idem | exact: rdm_trace]. Qed.
Print Assumptions C227_density.

Theorem C227_aufbau (F : rcfType) (n N : nat) (idx : 'I_n -> 'I_n) (e : 'I_n -> F) :
  bijective idx -> (forall k l : 'I_n, (k <= l)%N -> e (idx k) <= e (idx l)) ->
  forall i j, get_occ F N idx i = 2%:R -> get_occ F N idx j = 0 -> e i <= e j.
Proof. exact: aufbau. Qed.
Print Assumptions C227_aufbau.

Theorem C227_electrons_refuted (F : rcfType) : exists (n N : nat) (idx : 'I_n -> 'I_n),
  injective idx /\ (N <= 2 * n)%N /\ \sum_i get_occ F N idx i <> N%:R.
Proof.
exists 2%N, 3%N, id; split; first by []; split=> //.
by rewrite (occ_sum F 3 (idx := id)) //=; apply/eqP; rewrite eqr_nat.
Qed.
Print Assumptions C227_electrons_refuted.

Theorem C227_signs (F : rcfType) (n : nat) (H S C : 'M[F]_n) (e : 'rV[F]_n) (idx : 'I_n -> 'I_n) :
  H *m C = S *m C *m diag_mx e -> C^T *m S *m C = 1%:M ->
  let C' := fix_signs C idx in
  [/\ H *m C' = S *m C' *m diag_mx e, C'^T *m S *m C' = 1%:M & forall j, 0 <= C' (idx j) j].
Proof. exact: fix_signs_ok. Qed.
Print Assumptions C227_signs.

(** C228: the multipliers *)
Theorem C228_error (F : rcfType) (n : nat) (dm : 'M[F]_n) (f : 'I_n -> amps F) : (0 < n)%N ->
  (lambda_err dm f = 0 <-> forall i : 'I_n, dm i i = expect (f i) (num (c_up F))).
Proof.
move=> hn; rewrite (lambda_err0 _ _ hn); split=> h i; rewrite h; have [<- _] := occupationE (f i) => //.
Qed.
Print Assumptions C228_error.

Theorem C228_update (F : rcfType) (n : nat) (dm : 'M[F]_n) (f : 'I_n -> amps F) (R lam : 'I_n -> F) (i : 'I_n) :
  0 <= R i <= 1 -> let nf := expect (f i) (num (c_up F)) in
  [/\ (0 < R i -> (new_lambda dm f R lam i = lam i <-> dm i i = nf)),
      `|new_lambda dm f R lam i - lam i| <= `|dm i i - nf|,
      (nf <= dm i i -> lam i <= new_lambda dm f R lam i)
    & (dm i i <= nf -> new_lambda dm f R lam i <= lam i)].
Proof.
move=> hR nf; rewrite /nf; have [<- _] := occupationE (f i).
have [a [b c]] := lambda_dir dm f lam hR; split=> //; exact: lambda_fixed_iff.
Qed.
Print Assumptions C228_update.

(** C229: the one-body matrix of the Hubbard ring *)
Theorem C229_ring (F : realFieldType) (L i j : nat) : (i < L)%N -> (j < L)%N ->
  [/\ hubbard_ring F L i j = (if (j == i.+1 %% L)%N || (i == j.+1 %% L)%N then -1 else 0),
      hubbard_ring F L i j = hubbard_ring F L j i,
      hubbard_ring F L (i.+1 %% L) (j.+1 %% L) = hubbard_ring F L i j
    & ((2 < L)%N -> \sum_(j < L) hubbard_ring F L i j = - 2%:R)].
Proof. by move=> hi hj; split; [exact: ringE | exact: ring_sym | exact: ring_shift | move=> h; exact: ring_rows]. Qed.
Print Assumptions C229_ring.

Theorem C229_two_sites_refuted (F : realFieldType) : exists L (i : 'I_L),
  (1 < L)%N /\ \sum_(j < L) hubbard_ring F L i j <> - 2%:R.
Proof.
exists 2%N, ord0; split=> //; rewrite ring_two; apply/eqP; rewrite eqr_opp.
by rewrite (eqr_nat F 1 2).
Qed.
Print Assumptions C229_two_sites_refuted.

(** Examples *)
Section Examples.
Variable F : rcfType.
Example ex_half : exists f, [/\ init_site (2%:R^-1 : F) = Some f, physical f & renorm 1 f 2%:R^-1 ^+ 2 = 5%:R^-1].
Proof.
have hh : 0 <= (2%:R^-1 : F) <= 1 by rewrite invr_ge0 ler0n invf_le1 ?ltr0n // ler1n.
have [f [h p o]] := init_ok hh; exists f; split=> //.
rewrite (uncorrelated (ltr01) h) h2c; have -> : 2%:R^-1 * 2%:R^-1 = 4%:R^-1 :> F by rewrite -invfM -natrM.
have -> : 4%:R^-1 + 1 = 5%:R * 4%:R^-1 :> F by rewrite (natrD _ 1 4) mulrDl mul1r divff ?pnatr_eq0.
by rewrite invfM invrK mulrCA mulVf ?pnatr_eq0 // mulr1.
Qed.
Example ex_ring : hubbard_ring F 4 3 0 = -1 /\ hubbard_ring F 4 1 3 = 0.
Proof. by []. Qed.
Example ex_occ : get_occ F 2 (fun i : 'I_2 => rev_ord i) ord0 = 0
  /\ get_occ F 2 (fun i : 'I_2 => rev_ord i) ord_max = 2%:R.
Proof.
split.
  rewrite (_ : ord0 = rev_ord ord_max); last exact: val_inj.
  by rewrite (get_occE F 2 (idx := fun i : 'I_2 => rev_ord i)) //; exact: rev_ord_inj.
rewrite (_ : ord_max = rev_ord ord0); last exact: val_inj.
by rewrite (get_occE F 2 (idx := fun i : 'I_2 => rev_ord i)) //; exact: rev_ord_inj.
Qed.
End Examples.
