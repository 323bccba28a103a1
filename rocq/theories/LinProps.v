(** Properties of the linear-algebra kernels. *)
From mathcomp Require Import all_ssreflect all_algebra all_field.
From Verif Require Import LinModel LinSpec LinProofs LinExamples.
Set Implicit Arguments.
Unset Strict Implicit.
Unset Printing Implicit Defensive.
Import GRing.Theory Num.Theory.
Local Open Scope ring_scope.

(** C20: orthogonalisation W = Q R leaves the Green's function with any trial
    unchanged, and divides the size of the overlap by that of det R. *)
Theorem C20_green (F : fieldType) (conj : {rmorphism F -> F}) p n
  (Q T : 'M[F]_(p, n)) (R : 'M[F]_n) :
  slater conj T Q != 0 -> R \in unitmx -> gfull conj Q T = gfull conj (Q *m R) T.
Proof. exact: ortho_green. Qed.
Print Assumptions C20_green.

Theorem C20_overlap_size (F : numFieldType) (conj : {rmorphism F -> F}) p na nb
  (Qa Ta : 'M[F]_(p, na)) (Qb Tb : 'M[F]_(p, nb)) Ra Rb :
  is_trig_mx Ra^T -> is_trig_mx Rb^T -> (forall i, Ra i i != 0) -> (forall i, Rb i i != 0) ->
  `|new_ovlp_uhf (ovlp_spin conj (Qa *m Ra) Ta * ovlp_spin conj (Qb *m Rb) Tb) Ra Rb|
  = `|slater conj Ta Qa * slater conj Tb Qb|.
Proof. exact: ortho_overlap_size. Qed.
Print Assumptions C20_overlap_size.
Example C20_ex : slater idr exT exQ != 0 /\ exR \in unitmx /\ exQ *m exR = exW /\ exR != 1%:M.
Proof. exact: ex_ortho. Qed.

(** C84: the stored overlap after orthogonalisation. *)
Theorem C84_sign_refuted : exists (Q T : 'M[rat]_(1, 1)) (R : 'M[rat]_1),
  [/\ Q^T *m Q = 1%:M, is_trig_mx R^T, R \in unitmx &
   new_ovlp_uhf (ovlp_spin idr (Q *m R) T * ovlp_spin idr (1%:M : 'M_1) (1%:M : 'M_1)) R (1%:M : 'M_1)
   <> slater idr T Q * slater idr (1%:M : 'M_1) (1%:M : 'M_1)].
Proof. exact: ex_ortho_sign. Qed.
Print Assumptions C84_sign_refuted.
Theorem C84_closed_shell_refuted : exists (Q T : 'M[rat]_(1, 1)) (R : 'M[rat]_1),
  [/\ Q^T *m Q = 1%:M, is_trig_mx R^T, forall i, 0 < R i i &
   new_ovlp_rhf (ovlp_rhf idr (Q *m R) T) R <> slater idr T Q ^+ 2].
Proof. exact: ex_ortho_rhf. Qed.
Print Assumptions C84_closed_shell_refuted.
(** Partial: open shell and an R with positive diagonal only. *)
Theorem C84_positive_partial (F : numFieldType) (conj : {rmorphism F -> F}) p na nb
  (Qa Ta : 'M[F]_(p, na)) (Qb Tb : 'M[F]_(p, nb)) Ra Rb :
  is_trig_mx Ra^T -> is_trig_mx Rb^T -> (forall i, 0 < Ra i i) -> (forall i, 0 < Rb i i) ->
  new_ovlp_uhf (ovlp_spin conj (Qa *m Ra) Ta * ovlp_spin conj (Qb *m Rb) Tb) Ra Rb
  = slater conj Ta Qa * slater conj Tb Qb.
Proof. exact: ortho_overlap_pos. Qed.
Print Assumptions C84_positive_partial.

(** C26: decoupling schemes 1 and 2. [act m] is the outcome of the norm test;
    modes failing it are supposed to have no coupling at all. *)
Theorem C26_scheme1 (F : fieldType) (im : F) nao nmodes Afac Bfac
  (chol : 'I_nmodes -> 'M[F]_nao) act (A : algType F) (hat : {linear 'M[F]_nao -> A}) B :
  (2%:R : F) != 0 -> im ^+ 2 = -1 -> (forall M m, hat M * B m = B m * hat M) ->
  (forall m, act m = false -> Afac m *: chol m = 0) ->
  \sum_m half_squares hat (B m) (scheme1 im Afac Bfac chol act m)
  = coupling hat Afac chol Bfac B.
Proof. exact: scheme1_ok. Qed.
Print Assumptions C26_scheme1.
Theorem C26_scheme2 (F : fieldType) (im is2 : F) nao nmodes Afac Bfac
  (chol : 'I_nmodes -> 'M[F]_nao) act (A : algType F) (hat : {linear 'M[F]_nao -> A}) B :
  (2%:R : F) != 0 -> im ^+ 2 = -1 -> (forall M m, hat M * B m = B m * hat M) ->
  (forall m, act m = false -> Afac m *: chol m = 0) -> is2 ^+ 2 = 2%:R^-1 ->
  \sum_m half_squares hat (B m) (scheme2 im is2 Afac Bfac chol act m)
  = coupling hat Afac chol Bfac B.
Proof. exact: scheme2_ok. Qed.
Print Assumptions C26_scheme2.
Example C26_ex :
  [/\ ('i : algC) ^+ 2 = -1, (sqrtC (2%:R^-1) : algC) ^+ 2 = 2%:R^-1,
      (forall M m, (fun M : 'M[algC]_1 => M) M * exB m = exB m * M) &
      coupling [linear of idfun : 'M[algC]_1 -> 'M[algC]_1] exA exchol exA exB != 0].
Proof. exact: ex_bilinear. Qed.

(** C72: scheme 3 keeps the squares. *)
Theorem C72_scheme3_refuted : exists (chol : 'I_1 -> 'M[rat]_1) (B : 'I_1 -> 'M[rat]_1),
  (forall M m, M * B m = B m * M) /\
  \sum_m half_squares [linear of idfun : 'M[rat]_1 -> 'M[rat]_1] (B m)
     (scheme3 (fun=> 1) (fun=> 1) chol xpredT m)
  <> coupling [linear of idfun : 'M[rat]_1 -> 'M[rat]_1] (fun=> 1) chol (fun=> 1) B.
Proof. exact: ex_scheme3. Qed.
Print Assumptions C72_scheme3_refuted.

(** C27: the mixed Green's function is the projector on the trial along the
    walker: idempotent, of trace n, reproducing walker and trial, unique as
    such, and blind to any mixing of walker or trial orbitals. *)
Theorem C27_projector (F : fieldType) (conj : {rmorphism F -> F}) p n (W T : 'M[F]_(p, n)) :
  slater conj T W != 0 ->
  let G := gfull conj W T in
  [/\ G *m G = G, \tr G = n%:R, G^T *m W = W, G *m map_mx conj T = map_mx conj T &
   forall (P : 'M[F]_p) (X : 'M[F]_(n, p)), P = map_mx conj T *m X -> P^T *m W = W -> P = G].
Proof. exact: gf_projector. Qed.
Print Assumptions C27_projector.
Theorem C27_mixing (F : fieldType) (conj : {rmorphism F -> F}) p n (W T : 'M[F]_(p, n)) (R S : 'M[F]_n) :
  slater conj T W != 0 -> R \in unitmx -> S \in unitmx ->
  gfull conj (W *m R) (T *m S) = gfull conj W T.
Proof. exact: gf_mixing. Qed.
Print Assumptions C27_mixing.
Example C27_ex : slater idr exT exW != 0 /\ gfull idr exW exT != 0 /\ gfull idr exW exT != 1%:M.
Proof. exact: ex_green. Qed.

(** C90: the Green's function is the one-body response of the overlap. *)
Theorem C90_response (F : fieldType) (conj : {rmorphism F -> F}) p n (W T : 'M[F]_(p, n)) G :
  slater conj T W != 0 -> is_green conj T W G <-> G = gfull conj W T.
Proof. exact: gf_response. Qed.
Print Assumptions C90_response.
Example C90_ex : slater idr exT exW != 0. Proof. exact: (proj1 ex_green). Qed.

(** C91: all implementations agree. *)
Theorem C91_implementations (F : fieldType) (conj : {rmorphism F -> F}) p n (W T : 'M[F]_(p, n)) :
  [/\ ghalf_numba conj W T = ghalf conj W T,
      est_ghalf conj W T = (ghalf conj W T)^T,
      est_gf conj W T = gfull conj W T &
      gfull_base (ghalf conj W T) (map_mx conj T) = gfull conj W T].
Proof. exact: gf_implementations. Qed.
Print Assumptions C91_implementations.
Example C91_ex : ghalf idr exW exT != 0. Proof. exact: ex_ghalf. Qed.

(** C28: half-rotated energies equal Wick's formulas in the responses of the
    overlap; likewise the force bias. *)
Theorem C28_energy (F : fieldType) (conj : {rmorphism F -> F}) p nchol
  (L : 'I_nchol -> 'M[F]_p) na nb ha hb enuc
  (Wa Ta : 'M[F]_(p, na)) (Wb Tb : 'M[F]_(p, nb)) Ga Gb :
  slater conj Ta Wa != 0 -> slater conj Tb Wb != 0 ->
  is_green conj Ta Wa Ga -> is_green conj Tb Wb Gb ->
  energy_uhf conj L ha hb enuc Wa Ta Wb Tb =
  (one_body ha Ga + one_body hb Gb + enuc,
   2%:R^-1 * (direct (eri L) (Ga + Gb) - (exchange (eri L) Ga + exchange (eri L) Gb))).
Proof. exact: energy_uhf_green. Qed.
Print Assumptions C28_energy.
Theorem C28_force_bias (F : fieldType) (conj : {rmorphism F -> F}) p nchol
  (L : 'I_nchol -> 'M[F]_p) na nb
  (Wa Ta : 'M[F]_(p, na)) (Wb Tb : 'M[F]_(p, nb)) Ga Gb g :
  slater conj Ta Wa != 0 -> slater conj Tb Wb != 0 ->
  is_green conj Ta Wa Ga -> is_green conj Tb Wb Gb ->
  vbias_uhf conj L Ta (ghalf conj Wa Ta) Tb (ghalf conj Wb Tb) g = one_body (L g) (Ga + Gb).
Proof. exact: vbias_uhf_green. Qed.
Print Assumptions C28_force_bias.
Example C28_ex : slater idr exT exW != 0 /\ is_green idr exT exW (gfull idr exW exT).
Proof. exact: ex_is_green. Qed.

(** C29: closed shell as a special case of open shell. *)
Theorem C29_closed_shell (F : fieldType) (conj : {rmorphism F -> F}) p nchol
  (L : 'I_nchol -> 'M[F]_p) n h enuc (W T : 'M[F]_(p, n)) :
  [/\ energy_rhf conj L h enuc W T = energy_uhf conj L h h enuc W T W T,
      ovlp_rhf conj W T = slater conj T W * slater conj T W &
      forall G g, vbias_rhf conj L T G g = vbias_uhf conj L T G T G g].
Proof. exact: closed_shell. Qed.
Print Assumptions C29_closed_shell.
Example C29_ex : ovlp_rhf idr exW exT != 0. Proof. exact: ex_ovlp_rhf. Qed.

(** C31: the compiled Coulomb kernel forgets the square. *)
Theorem C31_numba_refuted : exists (rl G : 'M[rat]_1),
  ecoul2_numba (fun _ : 'I_1 => rl) G (fun=> 0) (0 : 'M_1)
  <> ecoul2 (fun _ : 'I_1 => rl) G (fun=> 0) (0 : 'M_1).
Proof. exact: ex_numba. Qed.
Print Assumptions C31_numba_refuted.

(** C35: the Taylor propagator. *)
Theorem C35_taylor (F : fieldType) p n (A : 'M[F]_p) order (phi : 'M[F]_(p, n)) :
  propagate_exp_op A order phi = exp_poly (mulmx A) order phi.
Proof. exact: taylorE. Qed.
Print Assumptions C35_taylor.
Theorem C35_linear (F : fieldType) p n (A : 'M[F]_p) order c (x y : 'M[F]_(p, n)) :
  propagate_exp_op A order (c *: x + y)
  = c *: propagate_exp_op A order x + propagate_exp_op A order y.
Proof. exact: taylor_linear. Qed.
Print Assumptions C35_linear.
Theorem C35_nilpotent (F : fieldType) p n (A : 'M[F]_p) order more (phi : 'M[F]_(p, n)) :
  iter order.+1 (mulmx A) phi = 0 ->
  propagate_exp_op A (order + more) phi = propagate_exp_op A order phi.
Proof. exact: taylor_nilpotent. Qed.
Print Assumptions C35_nilpotent.
Example C35_ex : iter 2 (mulmx exN) exW = 0 /\ propagate_exp_op exN 1 exW != exW.
Proof. exact: ex_taylor. Qed.

(** C73: the bosonic factor of the bilinear propagation. *)
Theorem C73_boson_refuted : exists (A phi : 'M[rat]_1),
  propagate_boson_bilinear A 2 phi <> exp_poly (mulmx A) 2 phi.
Proof. exact: ex_boson. Qed.
Print Assumptions C73_boson_refuted.
(** Partial: orders zero and one only. *)
Theorem C73_first_order_partial (F : fieldType) p n (A : 'M[F]_p) order (phi : 'M[F]_(p, n)) :
  (order <= 1)%N -> propagate_boson_bilinear A order phi = exp_poly (mulmx A) order phi.
Proof. exact: boson_first_order. Qed.
Print Assumptions C73_first_order_partial.

(** C36: mean-field subtraction. Partial: vectors fixed by conjugation (real). *)
Theorem C36_real_partial (F : fieldType) (conj : {rmorphism F -> F}) (im : F) p nchol
  (L : 'I_nchol -> 'M[F]_p) (A : algType F) (hat : {linear 'M[F]_p -> A}) h rho :
  (2%:R : F) != 0 -> im ^+ 2 = -1 -> (forall g, map_mx conj (L g) = L g) ->
  shifted_hamiltonian hat (shifted_h1e conj im L h rho) L (fun g => one_body (L g) rho)
  = hamiltonian hat h L.
Proof. exact: meanfield_real'. Qed.
Print Assumptions C36_real_partial.
Theorem C36_hermitian_refuted : exists (L : 'I_1 -> 'M[algC]_2),
  hermitian conjr (L ord0) /\
  shifted_hamiltonian [linear of idfun : 'M[algC]_2 -> 'M[algC]_2]
     (shifted_h1e conjr 'i L 0 0) L (fun g => one_body (L g) 0)
  <> hamiltonian [linear of idfun : 'M[algC]_2 -> 'M[algC]_2] 0 L.
Proof. exact: ex_hermitian. Qed.
Print Assumptions C36_hermitian_refuted.

(** C86: the decoupled mean-field shift drops le b + lb e. *)
Theorem C86_cross_term_refuted : exists (e b : 'M[rat]_4) (le lb : rat),
  e * b = b * e /\
  ~ exists c : rat, decoupled_field e b le lb = 2%:R^-1 *: (e + b) ^+ 2 + c *: 1.
Proof. exact: ex_decoupled. Qed.
Print Assumptions C86_cross_term_refuted.
(** Partial: equal up to a constant once the cross term is added back. *)
Theorem C86_defect_partial (F : fieldType) (A : algType F) (e b : A) le lb :
  (2%:R : F) != 0 ->
  2%:R^-1 *: (e + b) ^+ 2
  = decoupled_field e b le lb + (le *: b + lb *: e) - (2%:R^-1 * (le + lb) ^+ 2) *: 1.
Proof. exact: decoupled_defect. Qed.
Print Assumptions C86_defect_partial.

(** C87: the force-bias factor is a Gaussian density ratio. *)
Theorem C87_density_ratio (F : fieldType) nf (xi s : 'I_nf -> F) :
  (2%:R : F) != 0 -> cfb xi s = gauss_ratio s xi.
Proof. exact: cfb_ratio. Qed.
Print Assumptions C87_density_ratio.
Example C87_ex : cfb (fun _ : 'I_1 => 1 : rat) (fun=> 1) = 2%:R^-1.
Proof. exact: ex_cfb. Qed.

(** C88: two biases for one shared field are no single shift. *)
Theorem C88_shared_refuted : exists (xe xb : 'I_1 -> rat),
  ~ exists s, forall xi, cfb_decoupled xi xe xb = gauss_ratio s xi.
Proof. exact: ex_shared. Qed.
Print Assumptions C88_shared_refuted.
(** Partial: right when the biases never overlap. *)
Theorem C88_disjoint_partial (F : fieldType) nf (xi xe xb : 'I_nf -> F) :
  (2%:R : F) != 0 -> (forall g, xe g * xb g = 0) ->
  cfb_decoupled xi xe xb = gauss_ratio (fun g => xe g + xb g) xi.
Proof. exact: shared_disjoint. Qed.
Print Assumptions C88_disjoint_partial.

(** C89: the terms of the exponent linear in the fields cancel. *)
Theorem C89_linear_terms (F : fieldType) nf (im sdt : F) (xi vb mfs : 'I_nf -> F) :
  (\sum_g im * sdt * xi g * vb g) + (\sum_g xi g * xbar im sdt vb mfs g)
  + - sdt * (\sum_g xi g * mfs g) = 0.
Proof. exact: force_bias_linear. Qed.
Print Assumptions C89_linear_terms.
(** Hence the whole exponent of the importance function does not depend on the
    fields that were drawn: overlap ratio, density ratio and mean-field factor
    add up to a constant. *)
Theorem C89_weight_exponent (F : fieldType) nf (im sdt : F) (xi vb mfs : 'I_nf -> F) : (2%:R : F) != 0 ->
  let b := xbar im sdt vb mfs in
  im * sdt * (\sum_g xshift xi b g * vb g) + cfb xi b + cmf sdt xi b mfs = 2%:R^-1 * (\sum_g b g ^+ 2).
Proof. exact: force_bias_weight. Qed.
Print Assumptions C89_weight_exponent.
Example C89_ex : xbar (1 : rat) 1 (fun _ : 'I_1 => 2%:R) (fun=> 1) ord0 = -1.
Proof. exact: ex_xbar. Qed.

(** C62: Runge-Kutta. *)
Theorem C62_linear (F : fieldType) (V : lmodType F) (A : {linear V -> V}) t0 y dt :
  (2%:R : F) != 0 -> (3%:R : F) != 0 ->
  rk4 (fun _ v => A v) t0 y dt = exp_poly (fun v => dt *: A v) 4 y.
Proof. exact: rk4_linear'. Qed.
Print Assumptions C62_linear.
Theorem C62_polynomial (F : fieldType) (V : lmodType F) (c : 'I_4 -> V) t0 y dt :
  (2%:R : F) != 0 -> (3%:R : F) != 0 ->
  rk4 (fun t _ => \sum_(k < 4) t ^+ k *: c k) t0 y dt
  = y + \sum_(k < 4) (((t0 + dt) ^+ k.+1 - t0 ^+ k.+1) / k.+1%:R) *: c k.
Proof. exact: rk4_poly'. Qed.
Print Assumptions C62_polynomial.
Example C62_ex : (2%:R : rat) != 0 /\ (3%:R : rat) != 0. Proof. by []. Qed.

(** C69: the DIIS error. *)
Theorem C69_antihermitian (F : fieldType) (conj : {rmorphism F -> F}) p (s d f : 'M[F]_p) :
  (forall x, conj (conj x) = x) -> dagger conj (err_orig conj s d f) = - err_orig conj s d f.
Proof. exact: diis_antiherm. Qed.
Print Assumptions C69_antihermitian.
Theorem C69_stationary (F : fieldType) (conj : {rmorphism F -> F}) p (s d f : 'M[F]_p) :
  hermitian conj s -> hermitian conj d -> hermitian conj f ->
  err_orig conj s d f = 0 <-> commute_in_metric s d f.
Proof. exact: err_zero. Qed.
Print Assumptions C69_stationary.
Example C69_ex : exists s d f : 'M[rat]_2,
  [/\ hermitian idr s, hermitian idr d, hermitian idr f & ~ commute_in_metric s d f].
Proof. exact: ex_diis. Qed.

(** C92: the orthonormal-basis error. *)
Theorem C92_transformed (F : fieldType) (conj : {rmorphism F -> F}) p q (s d f : 'M[F]_p) (C : 'M[F]_(p, q)) :
  (forall x, conj (conj x) = x) ->
  err_orth conj s d f C = dagger conj C *m err_orig conj s d f *m C.
Proof. exact: diis_orth. Qed.
Print Assumptions C92_transformed.
Theorem C92_vanish_together (F : fieldType) (conj : {rmorphism F -> F}) p (s d f C : 'M[F]_p) :
  (forall x, conj (conj x) = x) -> C \in unitmx ->
  err_orth conj s d f C = 0 <-> err_orig conj s d f = 0.
Proof. exact: diis_orth_zero. Qed.
Print Assumptions C92_vanish_together.
Example C92_ex : (1%:M : 'M[rat]_2) \in unitmx. Proof. exact: unitmx1. Qed.
