(** Model of the linear-algebra kernels of openms/qmc: overlaps and Green's
    functions (trial.py, estimators.py), half-rotated energies (estimators.py),
    orthogonalisation (qmc.py), Taylor propagation and mean-field shift
    (propagators.py), bilinear decoupling (tools.py).  Matrices over an
    arbitrary field with a field automorphism [conj] standing for complex
    conjugation; one walker at a time (the code loops over walkers). *)
From mathcomp Require Import all_ssreflect all_algebra.
Set Implicit Arguments.
Unset Strict Implicit.
Unset Printing Implicit Defensive.
Import GRing.Theory.
Local Open Scope ring_scope.

Section Estimators.
Variables (F : fieldType) (conj : {rmorphism F -> F}).
Variables (p n : nat).  (* basis functions, electrons of one spin *)
Implicit Types (W T : 'M[F]_(p, n)) (h : 'M[F]_p).

(** trial.py:299 and 314 [einsum("zpi, pj-> zij", phiw, psi.conj())] *)
Definition ovlp_mat W T : 'M[F]_n := \matrix_(i, j) \sum_k W k i * conj (T k j).
(** trial.py:315-316 [einsum("zij, zpj->zpi", inv_ovlp, phiw)] *)
Definition ghalf W T : 'M[F]_(p, n) :=
  \matrix_(q, i) \sum_j (invmx (ovlp_mat W T)) i j * W q j.
(** trial.py:421 [einsum("pi, nqi->npq", psi.conj(), Ghalf)] *)
Definition gfull W T : 'M[F]_p :=
  \matrix_(a, b) \sum_i conj (T a i) * ghalf W T b i.

(** The numba variants, trial.py:277-285; [compute_GF_base], propagators.py:137-139
    and 194-196. *)
Definition ghalf_numba W T : 'M[F]_(p, n) :=
  W *m (invmx (W^T *m map_mx conj T))^T.
Definition gfull_base (G psi : 'M[F]_(p, n)) : 'M[F]_p := psi *m G^T.

(** estimators.py:192-194, [GF] *)
Definition est_ghalf W T : 'M[F]_(n, p) := invmx (W^T *m map_mx conj T) *m W^T.
Definition est_gf W T : 'M[F]_p := map_mx conj T *m est_ghalf W T.

(** The overlap, trial.py:382-392: [slogdet] followed by sign*exp(log) is the
    determinant; the log shift stays zero (generic_walkers.py:96, never reassigned).  With
    one component the result is squared. *)
Definition ovlp_spin W T : F := \det (ovlp_mat W T).
Definition ovlp_rhf W T : F := ovlp_spin W T * ovlp_spin W T.

(** Half rotation, trial.py:207-218 [einsum("Jpi, pq->Jqi")], one determinant *)
Definition rot_h1 T h : 'M[F]_(p, n) := \matrix_(q, i) \sum_a conj (T a i) * h a q.

(** estimators.py:307-316 (ravel and dot) *)
Definition e_rh1e (rh G : 'M[F]_(p, n)) : F := \sum_q \sum_i G q i * rh q i.
(** estimators.py:361-365: one entry of LG; 538-539: exchange of one vector *)
Definition lg (rl G : 'M[F]_(p, n)) : F := \sum_q \sum_i G q i * rl q i.
Definition exx1 (rl G : 'M[F]_(p, n)) : F :=
  let LG := rl^T *m G in \sum_i \sum_j LG i j * (LG^T) i j.
End Estimators.

Section Energies.
Variables (F : fieldType) (conj : {rmorphism F -> F}).
Variables (p na nb nchol : nat).
Variable L : 'I_nchol -> 'M[F]_p.

Definition rot_chol n (T : 'M[F]_(p, n)) : 'I_nchol -> 'M[F]_(p, n) :=
  fun g => rot_h1 conj T (L g).

(** estimators.py:343-368, [ecoul_rltensor_uhf] with one and with two spins *)
Definition ecoul1 n (rl : 'I_nchol -> 'M[F]_(p, n)) (G : 'M[F]_(p, n)) : F :=
  2%:R^-1 * \sum_g (lg (rl g) G * lg (rl g) G).
Definition ecoul2 (rla : 'I_nchol -> 'M[F]_(p, na)) (Ga : 'M[F]_(p, na))
   (rlb : 'I_nchol -> 'M[F]_(p, nb)) (Gb : 'M[F]_(p, nb)) : F :=
  2%:R^-1 * \sum_g ((lg (rla g) Ga + lg (rlb g) Gb) * (lg (rla g) Ga + lg (rlb g) Gb)).
(** estimators.py:459-476, the numba Coulomb kernel *)
Definition ecoul2_numba (rla : 'I_nchol -> 'M[F]_(p, na)) (Ga : 'M[F]_(p, na))
   (rlb : 'I_nchol -> 'M[F]_(p, nb)) (Gb : 'M[F]_(p, nb)) : F :=
  \sum_g (2%:R^-1 * (lg (rla g) Ga + lg (rlb g) Gb)).
(** estimators.py:533-542 *)
Definition exx n (rl : 'I_nchol -> 'M[F]_(p, n)) (G : 'M[F]_(p, n)) : F :=
  (\sum_g exx1 (rl g) G) * 2%:R^-1.

(** estimators.py:319-340 *)
Definition energy_rhf (h : 'M[F]_p) (enuc : F) (W T : 'M[F]_(p, na)) : F * F :=
  let G := ghalf conj W T in
  (2%:R * e_rh1e (rot_h1 conj T h) G + enuc,
   4%:R * ecoul1 (rot_chol T) G - 2%:R * exx (rot_chol T) G).
(** estimators.py:593-618; [ha], [hb] are the spin components of h1e *)
Definition energy_uhf (ha hb : 'M[F]_p) (enuc : F)
   (Wa Ta : 'M[F]_(p, na)) (Wb Tb : 'M[F]_(p, nb)) : F * F :=
  let Ga := ghalf conj Wa Ta in
  let Gb := ghalf conj Wb Tb in
  (e_rh1e (rot_h1 conj Ta ha) Ga + e_rh1e (rot_h1 conj Tb hb) Gb + enuc,
   ecoul2 (rot_chol Ta) Ga (rot_chol Tb) Gb
   - (exx (rot_chol Ta) Ga + exx (rot_chol Tb) Gb)).

(** Force bias, trial.py:904-908: contraction of the half-rotated vectors. *)
Definition vbias_rhf n (T G : 'M[F]_(p, n)) (g : 'I_nchol) : F :=
  2%:R * lg (rot_chol T g) G.
Definition vbias_uhf (Ta Ga : 'M[F]_(p, na)) (Tb Gb : 'M[F]_(p, nb)) (g : 'I_nchol) : F :=
  lg (rot_chol Ta g) Ga + lg (rot_chol Tb g) Gb.
End Energies.

(** Orthogonalisation, qmc.py:711-721 and qr_ortho 68-79: the QR
    factorisation W = Q R is an oracle; the stored determinant factor is the
    product of the absolute values of the diagonal of R (over the spins), the
    shift being always zero. *)
Section Ortho.
Variable (F : numFieldType).
Definition det_factor n (R : 'M[F]_n) : F := \prod_i `|R i i|.
Definition new_ovlp_rhf n (ovlp : F) (R : 'M[F]_n) : F := ovlp / det_factor R.
Definition new_ovlp_uhf na nb (ovlp : F) (Ra : 'M[F]_na) (Rb : 'M[F]_nb) : F :=
  ovlp / (det_factor Ra * det_factor Rb).
End Ortho.

(** Taylor propagation, propagators.py:256-262 (and the numba variant, 122-127):
    [temp = op @ temp / (i+1); phi += temp]. *)
Section Taylor.
Variables (F : fieldType) (p n : nat).
Fixpoint taylor_loop (A : 'M[F]_p) (i fuel : nat) (temp phi : 'M[F]_(p, n)) : 'M[F]_(p, n) :=
  match fuel with
  | 0%N => phi
  | S k => let temp' := i.+1%:R^-1 *: (A *m temp) in
           taylor_loop A i.+1 k temp' (phi + temp')
  end.
Definition propagate_exp_op (A : 'M[F]_p) (order : nat) (phi : 'M[F]_(p, n)) :=
  taylor_loop A 0 order phi phi.

(** The bosonic part of [propagate_walkers_bilinear], propagators.py:1463-1470:
    the same loop without the division. *)
Fixpoint boson_loop (A : 'M[F]_p) (fuel : nat) (temp phi : 'M[F]_(p, n)) : 'M[F]_(p, n) :=
  match fuel with
  | 0%N => phi
  | S k => let temp' := A *m temp in boson_loop A k temp' (phi + temp')
  end.
Definition propagate_boson_bilinear (A : 'M[F]_p) (order : nat) (phi : 'M[F]_(p, n)) :=
  boson_loop A order phi phi.
End Taylor.

(** Mean-field shift, propagators.py:374-401 ([PropagatorBase.build]): [im] is
    the imaginary unit, [rho] the mean-field density. *)
Section Build.
Variables (F : fieldType) (conj : {rmorphism F -> F}) (im : F) (p nchol : nat).
Variable L : 'I_nchol -> 'M[F]_p.
Definition mf_shift (rho : 'M[F]_p) (g : 'I_nchol) : F :=
  im * \sum_a \sum_b L g a b * rho a b.
Definition trace_eri : 'M[F]_p :=
  \matrix_(a, b) \sum_g \sum_r conj (L g a r) * L g r b.
Definition shifted_h1e (h1e rho : 'M[F]_p) : 'M[F]_p :=
  h1e - 2%:R^-1 *: trace_eri - \sum_g (mf_shift rho g) *: (im *: L g).
End Build.

(** Force-bias bookkeeping of one walker, propagators.py:651-678, before [rescale_fbias], with
    [sdt] = sqrt(dt); [vb] the force bias, [mfs] the mean-field shift. *)
Section ForceBias.
Variables (F : fieldType) (im sdt : F) (nf : nat).
Implicit Types (xi vb mfs xb : 'I_nf -> F).
Definition xbar vb mfs (g : 'I_nf) : F := - sdt * (im * vb g - mfs g).
Definition xshift xi xb (g : 'I_nf) : F := xi g - xb g.
Definition cfb xi xb : F := \sum_g (xi g - 2%:R^-1 * xb g) * xb g.
Definition cmf xi xb mfs : F := - sdt * \sum_g xshift xi xb g * mfs g.
End ForceBias.

(** Bilinear decoupling, tools.py:227-293.  A field is a pair (electronic
    matrix, bosonic coefficient).  [act] tells whether the mode passes the norm
    test; [is2] is 1/sqrt 2. *)
Section Bilinear.
Variables (F : fieldType) (im is2 : F) (nao nmodes : nat).
Variables (Afac Bfac : 'I_nmodes -> F) (chol : 'I_nmodes -> 'M[F]_nao) (act : 'I_nmodes -> bool).
Definition Lga (m : 'I_nmodes) : 'M[F]_nao := Afac m *: chol m.
Definition zero_field : 'M[F]_nao * F := (0, 0).
Definition scheme1 (m : 'I_nmodes) : seq ('M[F]_nao * F) :=
  if act m then [:: (Lga m, Bfac m); (im *: Lga m, 0); (0, im * Bfac m)]
  else nseq 3 zero_field.
Definition scheme2 (m : 'I_nmodes) : seq ('M[F]_nao * F) :=
  if act m then [:: (is2 *: Lga m, is2 * Bfac m); ((im * is2) *: Lga m, - ((im * is2) * Bfac m))]
  else nseq 2 zero_field.
Definition scheme3 (m : 'I_nmodes) : seq ('M[F]_nao * F) :=
  if act m then [:: (Lga m, Bfac m)] else [:: zero_field].
End Bilinear.

(** Decoupled electron-boson propagation: the shared fields reuse the random
    numbers of the electronic part (propagators.py:640, 1682) with a force bias
    of their own (1690-1692); line 1707 computes their factor and 1820 adds it. *)
Section Decoupled.
Variables (F : fieldType) (nf : nat).
Implicit Types (xi xe xb : 'I_nf -> F).
Definition cfb_boson xi xb : F := \sum_g xi g * xb g - 2%:R^-1 * \sum_g xb g * xb g.
Definition cfb_decoupled xi xe xb : F := cfb xi xe + cfb_boson xi xb.

(** Operator sampled for one shared field e + b: one-body compensation le e
    (propagators.py:399-401) and lb b (1168), and half the square of the field
    shifted by both mean values (cmf at 678 and 1709); in this mode nothing else
    is added to the one-body part (1359-1364).  [le], [lb]: mean values. *)
Definition decoupled_field (A : algType F) (e b : A) (le lb : F) : A :=
  le *: e + lb *: b + 2%:R^-1 *: ((e - le *: 1) + (b - lb *: 1)) ^+ 2.
End Decoupled.

(** Runge-Kutta step, qmd/propagator.py:22-26, for a vector-valued function
    over a module. *)
Definition rk4 (F : fieldType) (V : lmodType F) (f : F -> V -> V) (t0 : F) (y0 : V) (dt : F) : V :=
  let k1 := f t0 y0 in
  let k2 := f (t0 + dt / 2%:R) (y0 + (dt / 2%:R) *: k1) in
  let k3 := f (t0 + dt / 2%:R) (y0 + (dt / 2%:R) *: k2) in
  let k4 := f (t0 + dt) (y0 + dt *: k3) in
  y0 + (dt / 6%:R) *: (k1 + 2%:R *: k2 + 2%:R *: k3 + k4).

(** DIIS error matrix, mqed/diis.py:63-65 (2-dimensional branch): [sdf^H - sdf]
    with sdf = S D F; the orthogonalised variant (89-93) without symmetry
    labels. *)
Section Diis.
Variables (F : fieldType) (conj : {rmorphism F -> F}) (p : nat).
Definition dagger m n (A : 'M[F]_(m, n)) : 'M[F]_(n, m) := (map_mx conj A)^T.
Definition err_orig (s d f : 'M[F]_p) : 'M[F]_p :=
  let sdf := s *m d *m f in dagger sdf - sdf.
Definition err_orth (s d f : 'M[F]_p) q (C : 'M[F]_(p, q)) : 'M[F]_q :=
  let sdf := dagger C *m s *m d *m f *m C in dagger sdf - sdf.
End Diis.
