(** Model of one whole propagation step of openms/qmc/propagators.py for one
    walker: the electronic step ([Phaseless.propagate_walkers]) and the step of
    the coupled electron-boson system ([PhaselessElecBoson.propagate_walkers]),
    up to the factor exp(-dt ehybrid) by which the weight is to be multiplied.
    The pieces (overlaps, Green's functions, force bias, Taylor loop, mean-field
    shift, bosonic matrices) are those of LinModel and EBModel; this file puts
    them together in the order of the code.  [s] stands for sqrt(dt).
    [scipy.linalg.expm] and [numpy.exp] are arguments.  Left out: the clipping
    of the hybrid energy and the phaseless cosine (PhaseModel), the
    decoupled treatment of the coupling (LinModel, C86 and C88). *)
From mathcomp Require Import all_ssreflect all_algebra.
From Verif Require Import LinModel EBModel.
Set Implicit Arguments.
Unset Strict Implicit.
Unset Printing Implicit Defensive.
Import GRing.Theory Num.Theory.
Local Open Scope ring_scope.

Section Step.
Variables (F : numFieldType) (conj : {rmorphism F -> F}) (im : F).
Variables (expm : forall n, 'M[F]_n -> 'M[F]_n) (expf : F -> F).
(** [bias_bound] (298) and [taylor_order] (297) *)
Variables (bound : F) (order : nat).

(** propagators.py:510-533 ([rescale_fbias]), one component *)
Definition rescale (x : F) : F :=
  if bound < `|x| then (if 10%:R ^- 12 < `|x| then x / `|x| else x) else x.

Section Electrons.
Variables (p nf : nat) (L : 'I_nf -> 'M[F]_p).

(** 372 [psi.dot(psi.T.conj()) * 2.0 / ncomponents]; with two components [psi] is
    [hstack([psia, psib])] (trial.py) *)
Definition rho_uhf na nb (Ta : 'M[F]_(p, na)) (Tb : 'M[F]_(p, nb)) : 'M[F]_p :=
  Ta *m (map_mx conj Ta)^T + Tb *m (map_mx conj Tb)^T.
Definition rho_rhf n (T : 'M[F]_(p, n)) : 'M[F]_p := 2%:R *: (T *m (map_mx conj T)^T).

(** 563-566 ([propagate_HS]): i sqrt(dt) sum_n x_n L_n *)
Definition eri_op (s : F) (x : 'I_nf -> F) : 'M[F]_p := (im * s) *: \sum_g x g *: L g.
(** 404 and 1411 [expm(-dt / 2 * shifted_h1e)] *)
Definition exp_h1e (s : F) (h : 'M[F]_p) : 'M[F]_p := expm (- (s ^+ 2 / 2%:R) *: h).
(** 733-740: half a one-body step, the auxiliary fields (573-576, the Taylor
    loop), half a one-body step; one spin component *)
Definition prop_spin n (s : F) (B : 'M[F]_p) (x : 'I_nf -> F) (W : 'M[F]_(p, n)) : 'M[F]_(p, n) :=
  B *m propagate_exp_op (eri_op s x) order (B *m W).

(** 651-653: the force bias, bounded *)
Definition fbias (s : F) (vb mfs : 'I_nf -> F) : 'I_nf -> F :=
  fun g => rescale (xbar im s vb mfs g).

(** 791-800: ratio of the overlaps times exp(cfb + cmf), that is
    exp(-dt ehybrid) *)
Definition factor (ovlp newovlp cf cm : F) : F := newovlp / ovlp * expf (cf + cm).

(** The electronic step (699-757) with one-body matrices [ta], [tb] (already
    shifted) and mean-field shift [mfs]; [xi] are the random fields.  The
    Green's functions are those of the walker before the step. *)
Definition uhf_step na nb (s : F) (ta tb : 'M[F]_p) (mfs xi : 'I_nf -> F)
   (Wa Ta : 'M[F]_(p, na)) (Wb Tb : 'M[F]_(p, nb)) : F * F * F :=
  let vb := vbias_uhf conj L Ta (ghalf conj Wa Ta) Tb (ghalf conj Wb Tb) in
  let xb := fbias s vb mfs in
  let Wa' := prop_spin s (exp_h1e s ta) (xshift xi xb) Wa in
  let Wb' := prop_spin s (exp_h1e s tb) (xshift xi xb) Wb in
  (ovlp_spin conj Wa' Ta * ovlp_spin conj Wb' Tb, cfb xi xb, cmf s xi xb mfs).
Definition rhf_step n (s : F) (t : 'M[F]_p) (mfs xi : 'I_nf -> F)
   (W T : 'M[F]_(p, n)) : F * F * F :=
  let vb := vbias_rhf conj L T (ghalf conj W T) in
  let xb := fbias s vb mfs in
  let W' := prop_spin s (exp_h1e s t) (xshift xi xb) W in
  (ovlp_rhf conj W' T, cfb xi xb, cmf s xi xb mfs).

(** The factor of a bare electronic walker, [build] (335-416) included. *)
Definition uhf_factor na nb (ha hb : 'M[F]_p) (Wa Ta : 'M[F]_(p, na)) (Wb Tb : 'M[F]_(p, nb))
   (xi : 'I_nf -> F) (s : F) : F :=
  let rho := rho_uhf Ta Tb in
  let mfs := mf_shift im L rho in
  let '(o, cf, cm) := uhf_step s (shifted_h1e conj im L ha rho) (shifted_h1e conj im L hb rho)
                        mfs xi Wa Ta Wb Tb in
  factor (ovlp_spin conj Wa Ta * ovlp_spin conj Wb Tb) o cf cm.
Definition rhf_factor n (h : 'M[F]_p) (W T : 'M[F]_(p, n)) (xi : 'I_nf -> F) (s : F) : F :=
  let rho := rho_rhf T in
  let mfs := mf_shift im L rho in
  let '(o, cf, cm) := rhf_step s (shifted_h1e conj im L h rho) mfs xi W T in
  factor (ovlp_rhf conj W T) o cf cm.
End Electrons.

(** The bosonic part in the product treatment of the coupling. *)
Section Bosons.
Variable d : nat.
Definition fock (M : fmat F) : 'M[F]_d := \matrix_(i, j) M i j.
(** 1538-1541 ([propagate_bosons_2nd]); in first quantisation
    ([propagate_bosons_1st], 1563-1567) the function returns at once *)
Definition free_bosons (first : bool) (t : F) (Hb : 'M[F]_d) (phi : 'cV[F]_d) : 'cV[F]_d :=
  if first then phi else expm (- t *: Hb) *m phi.
(** 1712-1720: [Hz] is the matrix of sum_a z_a (b_a^+ + b_a) *)
Definition bilinear_bosons (t : F) (Hz : 'M[F]_d) (phi : 'cV[F]_d) : 'cV[F]_d :=
  expm (- t *: Hz) *m phi.
(** 1790, 1814, 1822 *)
Definition boson_step (first : bool) (s : F) (Hb Hz : 'M[F]_d) (phi : 'cV[F]_d) : 'cV[F]_d :=
  free_bosons first (2%:R^-1 * s ^+ 2) Hb
    (bilinear_bosons (s ^+ 2) Hz (free_bosons first (2%:R^-1 * s ^+ 2) Hb phi)).
(** trial.py:860-866 *)
Definition bovlp (phi psi : 'cV[F]_d) : F := boson_ovlp conj (fun k => phi k 0) (fun k => psi k 0).
End Bosons.

(** The coupled step (1768-1840), product treatment of the coupling
    ([decouple_bilinear] false).  [off] is [turnoff_bosons]; [Q] are the
    displacements [walkers.Qalpha], [z] the contractions of the coupling
    matrices [geb] with the averaged density (1715), both computed from the
    population before the step (1781, [update_GF]).  1359-1364: the one-body
    matrix gets sum_a Q_a g_a. *)
Definition oei p nm (Q : 'I_nm -> F) (geb : 'I_nm -> 'M[F]_p) : 'M[F]_p := \sum_a Q a *: geb a.
Definition coupled_factor p nf (L : 'I_nf -> 'M[F]_p) nm (geb : 'I_nm -> 'M[F]_p) d
   (off first : bool) na nb (ha hb : 'M[F]_p) (Q : 'I_nm -> F) (Hb Hz : 'M[F]_d)
   (Wa Ta : 'M[F]_(p, na)) (Wb Tb : 'M[F]_(p, nb)) (phi psi : 'cV[F]_d)
   (xi : 'I_nf -> F) (s : F) : F :=
  let rho := rho_uhf Ta Tb in
  let mfs := mf_shift im L rho in
  let sh h := shifted_h1e conj im L h rho + (if off then 0 else oei Q geb) in
  let '(o, cf, cm) := uhf_step L s (sh ha) (sh hb) mfs xi Wa Ta Wb Tb in
  let old := ovlp_spin conj Wa Ta * ovlp_spin conj Wb Tb in
  if off then factor old o cf cm
  else factor (old * bovlp phi psi) (o * bovlp (boson_step first s Hb Hz phi) psi) cf cm.

(** 1133-1139: the diagonal matrix of the free bosons, modes as (dimension,
    omega), all of the same dimension (EBModel, [local_eng_boson]) *)
Definition free_matrix (modes : seq (nat * F)) (dim : nat) : fmat F := fun i j =>
  if i == j then (nth (0%N, 0) modes (i %/ dim)).2 * (i %% dim)%:R else 0.
(** 1715 and EBModel: z_a = sum_pq rho_pq g_a,pq *)
Definition zlambda p nm (rho : 'M[F]_p) (geb : 'I_nm -> 'M[F]_p) (a : 'I_nm) : F :=
  \sum_i \sum_j rho i j * geb a i j.
End Step.
