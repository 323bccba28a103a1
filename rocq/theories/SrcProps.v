(** Properties C205-C211: absorbing layers and sources of the field code. *)
From Coq Require Import Reals ZArith List Bool Lra Lia.
From Verif Require Import SrcModel SrcSpec SrcProofs.
Import ListNotations.
Local Open Scope R_scope.

(** C205: the conductivity of two non-overlapping layers is finite everywhere and
    is the sum of a polynomial grading in each of them *)
Theorem C205_profile : forall beps l a, layer_ok l ->
  sigma PI beps l a = Some (graded (peak (sig_l l) (order_l l) (sqrt beps)) (order_l l) (depth_l l a)
                          + graded (peak (sig_r l) (order_r l) (sqrt beps)) (order_r l) (depth_r l a)).
Proof. exact sigma_graded. Qed.
Print Assumptions C205_profile.

Theorem C205_interior : forall beps l a, layer_ok l ->
  IZR (pml_l l) + / 2 <= a <= IZR (size l - pml_r l - 1) -> sigma PI beps l a = Some 0.
Proof. exact sigma_interior. Qed.
Print Assumptions C205_interior.

Theorem C205_increasing : forall beps l a b, layer_ok l -> 0 < beps ->
  (a <= b <= IZR (pml_l l) + / 2 ->
     exists va vb, sigma PI beps l a = Some va /\ sigma PI beps l b = Some vb /\ 0 <= vb <= va) /\
  (IZR (size l - pml_r l - 1) <= a <= b ->
     exists va vb, sigma PI beps l a = Some va /\ sigma PI beps l b = Some vb /\ 0 <= va <= vb).
Proof. exact (fun beps l a b h hb => conj (sigma_mono_l beps l a b h hb) (sigma_mono_r beps l a b h hb)). Qed.
Print Assumptions C205_increasing.

Theorem C205_ends : forall beps l, layer_ok l ->
  sigma PI beps l (/ 2) = Some (peak (sig_l l) (order_l l) (sqrt beps)) /\
  sigma PI beps l (IZR (size l - 1)) = Some (peak (sig_r l) (order_r l) (sqrt beps)).
Proof. exact sigma_ends. Qed.
Print Assumptions C205_ends.

Theorem C205_mirror : forall beps l a, layer_ok l ->
  pml_l l = pml_r l -> order_l l = order_r l -> sig_l l = sig_r l ->
  sigma PI beps l (IZR (size l) - / 2 - a) = sigma PI beps l a.
Proof. exact sigma_mirror. Qed.
Print Assumptions C205_mirror.

(** with a layer of no cells, which is accepted, the conductivity of the first
    cell, or of the last, divides by zero *)
Theorem C205_no_layer_refuted :
  (exists beps l, periodic l = false /\ pml_l l = 0%Z /\ 0 < beps /\ sigma PI beps l 0 = None) /\
  (exists beps l, periodic l = false /\ pml_r l = 0%Z /\ 0 < beps /\ sigma PI beps l (IZR (size l - 1)) = None).
Proof.
  exact (conj (ex_intro _ 1 (ex_intro _ no_layer (conj eq_refl (conj eq_refl (conj Rlt_0_1 (sigma_zero_layer 1))))))
              (ex_intro _ 1 (ex_intro _ no_layer_r (conj eq_refl (conj eq_refl (conj Rlt_0_1 (sigma_zero_layer_r 1))))))).
Qed.
Print Assumptions C205_no_layer_refuted.

Example C205_example : layer_ok (Layer false 1 1 (7 / 2) (7 / 2) 10 10 100) /\
  sigma PI 1 (Layer false 1 1 (7 / 2) (7 / 2) 10 10 100) 50 = Some 0.
Proof.
  assert (h : layer_ok (Layer false 1 1 (7 / 2) (7 / 2) 10 10 100)) by (unfold layer_ok; cbn; repeat split; lra || lia).
  split; [exact h|]. apply sigma_interior; [exact h|]. cbn. lra.
Qed.

(** C206: the update coefficients of the layers are finite, keep the field
    bounded by itself, and damp exactly where the conductivity is positive *)
Theorem C206_coefficients : forall beps eo dt k l a, layer_ok l -> 0 < beps -> 0 < eo -> 0 < dt -> 0 < k ->
  exists s x y, sigma PI beps l a = Some s /\ coefficient PI beps eo dt k l a = Some (x, y) /\
    -1 < x <= 1 /\ 0 < y <= dt / k /\ (x < 1 <-> 0 < s).
Proof. exact coefficient_bounds. Qed.
Print Assumptions C206_coefficients.

Theorem C206_no_layer_refuted : exists beps eo dt k l, periodic l = false /\ 0 < beps /\ 0 < eo /\ 0 < dt /\ 0 < k /\
  coefficient PI beps eo dt k l 0 = None.
Proof.
  exact (ex_intro _ 1 (ex_intro _ 1 (ex_intro _ 1 (ex_intro _ 1 (ex_intro _ no_layer
    (conj eq_refl (conj Rlt_0_1 (conj Rlt_0_1 (conj Rlt_0_1 (conj Rlt_0_1 (coefficient_zero_layer 1 1 1 1)))))))))) ).
Qed.
Print Assumptions C206_no_layer_refuted.

Example C206_example : coefficient PI 1 1 1 1 (Layer false 1 1 (7 / 2) (7 / 2) 10 10 100) 50 = Some (1, 1).
Proof.
  unfold coefficient. rewrite (proj2 C205_example). cbn [obind]. unfold co_minus, co_drive.
  rewrite !cdiv_ok by lra. cbn [obind]. do 2 f_equal; field.
Qed.

(** C207: convolutional layers, in the direction whose size and periodicity the
    code reads (x) *)
Theorem C207_layers : forall c a bl br, cpml_ok c -> (0 < bl)%Z -> (0 < br)%Z -> (bl + br + 2 <= isize c)%Z ->
  (0 <= a <= IZR bl \/ IZR (isize c - br - 1) <= a <= IZR (isize c - 1)) ->
  0 < cpmlbx c a bl br < 1 /\ (exists v, cpmlax c a bl br = Some v /\ -1 < v <= 0) /\
  1 <= kappa_x c a bl br <= kappaC c.
Proof. exact cpml_layer. Qed.
Print Assumptions C207_layers.

Theorem C207_interior : forall c a bl br, cpml_ok c -> IZR bl + / 2 <= a < IZR (isize c - br - 1) ->
  cpmlbx c a bl br = 1 /\ cpmlax c a bl br = Some 0 /\ kappa_x c a bl br = 1.
Proof. exact cpml_interior. Qed.
Print Assumptions C207_interior.

(** in another direction: the last cell of a box of 20 cells in y, inside its
    layer of 5 cells, has no absorption if the box has 40 cells in x *)
Theorem C207_y_refuted : exists c jsize bl br, cpml_ok c /\ (bl + br + 2 <= jsize)%Z /\ (0 < br)%Z /\
  cpmlbx c (IZR (jsize - 1)) bl br = 1 /\ cpmlax c (IZR (jsize - 1)) bl br = Some 0.
Proof.
  exact (ex_intro _ c40 (ex_intro _ 20%Z (ex_intro _ 5%Z (ex_intro _ 5%Z
    (conj c40_ok (conj (Zle_bool_imp_le 12 20 eq_refl) (conj eq_refl cpml_y))))))).
Qed.
Print Assumptions C207_y_refuted.

Example C207_example : cpmlbx c40 20 5 5 = 1 /\ 0 < cpmlbx c40 39 5 5 < 1.
Proof.
  split.
  - apply (C207_interior c40 20 5 5 c40_ok). cbn [isize c40]. replace (40 - 5 - 1)%Z with 34%Z by reflexivity. lra.
  - apply (C207_layers c40 39 5 5 c40_ok); try (cbn; lia). right. cbn [isize c40].
    replace (40 - 5 - 1)%Z with 34%Z by reflexivity. replace (40 - 1)%Z with 39%Z by reflexivity. lra.
Qed.

(** C208: the real and the imaginary source are the two parts of one phasor of
    the pulse's envelope *)
Theorem C208_gaussian : forall w fr ph to td t,
  Gauss_amp w fr ph to td t ^ 2 + iGauss_amp w fr ph to td t ^ 2 =
    (if in_window (to - 3 * td) (to + 3 * td) t then gauss_env td to t ^ 2 else 0) /\
  iGauss_amp w fr ph to td t = Gauss_amp w fr (ph - PI / 2) to td t /\
  Gauss_amp w fr (ph + PI) to td t = - Gauss_amp w fr ph to td t.
Proof.
  exact (fun w fr ph to td t => conj (gauss_phasor w fr ph to td t) (conj (igauss_shift w fr ph to td t) (gauss_neg w fr ph to td t))).
Qed.
Print Assumptions C208_gaussian.

Theorem C208_lorentzian_partial : forall w fr ph to td t, td <> 0%Z ->
  Lorentz_amp w fr ph to td t ^ 2 + iLorentz_amp w fr ph to td t ^ 2 =
  (if (to <=? t)%Z && (t <? to + 8 * td)%Z then exp (- IZR (t - to) / IZR td) ^ 2 else 0).
Proof. exact lorentz_phasor. Qed.
Print Assumptions C208_lorentzian_partial.

(** a continuous source (decay time 0) has a real part and no imaginary one *)
Theorem C208_continuous : forall w fr ph to t,
  Lorentz_amp w fr ph to 0 t = sin (w * fr * IZR (t - to) + ph) /\ iLorentz_amp w fr ph to 0 t = 0.
Proof. exact (fun w fr ph to t => conj eq_refl (lorentz_cw w fr ph to t)). Qed.
Print Assumptions C208_continuous.
(** so the two are not the parts of a phasor of modulus 1 *)
Theorem C208_continuous_refuted : exists w fr ph to t,
  Lorentz_amp w fr ph to 0 t ^ 2 + iLorentz_amp w fr ph to 0 t ^ 2 <> 1.
Proof. exact lorentz_cw_bad. Qed.
Print Assumptions C208_continuous_refuted.

Example C208_example : Gauss_amp 1 1 (PI / 2) 0 1 0 = 1 /\ iGauss_amp 1 1 (PI / 2) 0 1 0 = 0.
Proof.
  unfold Gauss_amp, iGauss_amp, gauss_env. cbn. replace (-1 * ((0 / 1) * ((0 / 1) * 1))) with 0 by field.
  replace (1 * 1 * 0 + PI / 2) with (PI / 2) by ring. rewrite exp_0, sin_PI2, cos_PI2. lra.
Qed.

(** C209: with its phase helper the Gaussian pulse has no zero-frequency part *)
Theorem C209_gaussian : forall w fr to td n,
  sum_from (Gauss_amp w fr (Gaussian_phase w fr to) to td) (to - Z.of_nat n) (2 * n + 1) = 0.
Proof. exact gauss_dc. Qed.
Print Assumptions C209_gaussian.

(** the Lorentzian pulse with its own helper has one *)
Theorem C209_lorentzian_slow : forall w fr to td, (0 < td)%Z -> 0 < w * fr -> w * fr * IZR (8 * td) <= 3 / 2 ->
  0 < sum_from (Lorentz_amp w fr (Lorentzian_phase w fr td) to td) to (Z.to_nat (8 * td)).
Proof. exact lorentz_dc. Qed.
Print Assumptions C209_lorentzian_slow.
Theorem C209_lorentzian_refuted : exists w fr to td,
  sum_from (Lorentz_amp w fr (Lorentzian_phase w fr td) to td) to (Z.to_nat (8 * td)) <> 0.
Proof. exact lorentz_dc_bad. Qed.
Print Assumptions C209_lorentzian_refuted.

Example C209_example : Gauss_amp 1 (PI / 2) (Gaussian_phase 1 (PI / 2) 0) 0 1 1 <> 0 /\
  sum_from (Gauss_amp 1 (PI / 2) (Gaussian_phase 1 (PI / 2) 0) 0 1) (-3) 7 = 0 /\
  0 < sum_from (Lorentz_amp 1 (/ 10) (Lorentzian_phase 1 (/ 10) 1) 0 1) 0 8.
Proof.
  split; [|split].
  - unfold Gauss_amp, Gaussian_phase. cbn [in_window]. replace (in_window (0 - 3 * 1) (0 + 3 * 1) 1) with true by reflexivity.
    replace (1 * (PI / 2) * 1 + - (1 * (PI / 2)) * 0) with (PI / 2) by ring. rewrite sin_PI2.
    unfold gauss_env. pose proof (exp_pos (-1 * (IZR (1 - 0) / 1) ^ 2)). lra.
  - exact (gauss_dc 1 (PI / 2) 0 1 3).
  - apply (lorentz_dc 1 (/ 10) 0 1); [lia | lra | cbn; lra].
Qed.

(** C210: a point source adds exactly its amplitude to the component it names,
    in total over any box that contains its cells, with the sign of the name *)
Theorem C210_total : forall w fr ph to td t c neg i j k f xs ys zs, NoDup xs -> NoDup ys -> NoDup zs ->
  (forall x, i - 1 <= x <= i -> In x xs)%Z -> (forall x, j - 1 <= x <= j -> In x ys)%Z ->
  (forall x, k - 1 <= x <= k -> In x zs)%Z ->
  box_total (Gaussian_dipole_source w PI fr ph to td t c neg i j k f c) xs ys zs =
  box_total (f c) xs ys zs + (if neg then -1 else 1) * Gauss_amp w fr ph to td t /\
  (forall d x y z, d <> c -> Gaussian_dipole_source w PI fr ph to td t c neg i j k f d x y z = f d x y z).
Proof. exact dipole_total. Qed.
Print Assumptions C210_total.

(** it goes in equal parts to the cells next to its node, on the staggered grid *)
Theorem C210_cells : forall w fr ph to td t c neg i j k f x y z,
  let F := Gaussian_dipole_source w PI fr ph to td t c neg i j k f in
  let A := (if neg then -1 else 1) * Gauss_amp w fr ph to td t in
  (next_to i j k (yee c x y z) -> F c x y z = f c x y z + A / (if is_E c then 2 else 4)) /\
  (~ next_to i j k (yee c x y z) -> F c x y z = f c x y z).
Proof. exact dipole_cell. Qed.
Print Assumptions C210_cells.
(** a beam does the same, scaled, and never writes at a negative index *)
Theorem C210_beam : forall w z0 fr amp ph to td t c neg i j k f x y z,
  let F := Gaussian_beam w PI z0 fr amp ph to td t c neg i j k f in
  let A := (if neg then -1 else 1) * Gauss_amp w fr ph to td t in
  (next_to i j k (yee c x y z) -> (0 <= x)%Z -> (0 <= y)%Z -> (0 <= z)%Z ->
     F c x y z = f c x y z + amp * A * (if is_E c then / 2 else z0 / 4)) /\
  (~ (next_to i j k (yee c x y z) /\ (0 <= x /\ 0 <= y /\ 0 <= z)%Z) -> F c x y z = f c x y z).
Proof. exact beam_cell. Qed.
Print Assumptions C210_beam.

(** a plane wave in the plane k: each cell takes the mean of the source at its
    two nodes, and the magnetic field half of it in each of the two planes
    around it; the last cell in x has one node only *)
Theorem C210_wave : forall w z0 wx wy fr lx ly to td t n m k f x y,
  (0 <= x <= Z.of_nat n)%Z -> (0 <= y <= Z.of_nat m)%Z -> (1 <= k)%Z ->
  let F := Gaussian_planewave w PI z0 wx wy fr lx ly to td t (CEx, false) (CHy, false) n m k f in
  let A := pw_amp w wx wy fr lx ly to td t in
  let mean := (A x y + (if (x <? Z.of_nat n)%Z then A (x + 1)%Z y else 0)) / 2 in
  F CEx x y k = f CEx x y k + mean /\
  F CHy x y k = f CHy x y k + z0 * mean / 2 /\ F CHy x y (k - 1)%Z = f CHy x y (k - 1)%Z + z0 * mean / 2 /\
  (forall d a b e, d <> CEx -> d <> CHy -> F d a b e = f d a b e).
Proof. exact planewave_all. Qed.
Print Assumptions C210_wave.

(** the phase of a plane wave agrees with the Bloch condition of a box of one
    lattice constant, 2 pi kx per box *)
Theorem C210_bloch_partial : forall wx wy lx ly i j, lx <> 0%Z ->
  same_angle (pw_phase PI wx wy lx ly (i + lx) j) (pw_phase PI wx wy lx ly i j + 2 * PI * wx).
Proof. exact bloch_ok. Qed.
Print Assumptions C210_bloch_partial.
Theorem C210_bloch_y_partial : forall wx wy lx ly i j, ly <> 0%Z ->
  same_angle (pw_phase PI wx wy lx ly i (j + ly)) (pw_phase PI wx wy lx ly i j + 2 * PI * wy).
Proof. exact bloch_ok_y. Qed.
Print Assumptions C210_bloch_y_partial.
Theorem C210_bloch_refuted : exists wx wy lx ly isize i j, lx <> 0%Z /\
  ~ same_angle (pw_phase PI wx wy lx ly (i + isize) j) (pw_phase PI wx wy lx ly i j + 2 * PI * wx).
Proof. exact bloch_refuted. Qed.
Print Assumptions C210_bloch_refuted.

(** the imaginary part of a beam is the beam a quarter of a period later, except
    for "Hy" *)
Theorem C210_imag_partial : forall w z0 fr amp ph to td t c neg i j k f, c <> CHy \/ neg = true ->
  iGaussian_beam w PI z0 fr amp ph to td t c neg i j k f = Gaussian_beam w PI z0 fr amp (ph - PI / 2) to td t c neg i j k f.
Proof. exact ibeam_ok. Qed.
Print Assumptions C210_imag_partial.
Theorem C210_imag_refuted : exists w z0 fr amp ph to td t i j k f x y z,
  iGaussian_beam w PI z0 fr amp ph to td t CHy false i j k f CHy x y z <>
  Gaussian_beam w PI z0 fr amp (ph - PI / 2) to td t CHy false i j k f CHy x y z.
Proof.
  exact (ex_intro _ 0 (ex_intro _ 2 (ex_intro _ 1 (ex_intro _ 1 (ex_intro _ 0 (ex_intro _ 0%Z (ex_intro _ 1%Z (ex_intro _ 0%Z
    (ex_intro _ 1%Z (ex_intro _ 1%Z (ex_intro _ 1%Z (ex_intro _ (fun _ _ _ _ => 0) (ex_intro _ 1%Z (ex_intro _ 1%Z (ex_intro _ 1%Z
      ibeam_bad))))))))))))))).
Qed.
Print Assumptions C210_imag_refuted.

(** an externally driven plane wave never drives the magnetic field *)
Theorem C210_external : forall z0 ext n m k f x y z, external_planewave z0 ext CEx CHy n m k f CHy x y z = f CHy x y z.
Proof. exact external_H. Qed.
Print Assumptions C210_external.
Theorem C210_external_refuted : exists z0 ext n m k f x y,
  external_planewave z0 ext CEx CHy n m k f CEx x y k <> f CEx x y k /\
  forall x' y' z', external_planewave z0 ext CEx CHy n m k f CHy x' y' z' = f CHy x' y' z'.
Proof. exact external_bad. Qed.
Print Assumptions C210_external_refuted.

Example C210_example : Gaussian_dipole_source 1 PI 1 (PI / 2) 0 1 0 CEz false 5 5 5 (fun _ _ _ _ => 0) CEz 5%Z 5%Z 4%Z = / 2.
Proof.
  unfold Gaussian_dipole_source, signed_phase. rewrite (proj1 C208_example). cbn. unfold share. cbn. lra.
Qed.

(** C211: the random dipoles: in every update call c serves dipole c, and each
    dipole keeps its own orientation until its own renewal *)
Theorem C211_independent : forall n t dss d0, (0 < n)%nat -> (0 <= t)%Z -> (forall ds, In ds dss -> length ds = n) ->
  exists xss s, steps t dss istart = Some (map (combine (seq 0 n)) xss, s) /\
    (forall xs, In xs xss -> length xs = n) /\
    forall c, (c < n)%nat ->
      map (fun xs => nth c xs (Slot 0 0 0 t)) xss = life t (Slot 0 0 0 t) (map (fun ds => nth c ds d0) dss).
Proof. exact dipoles_independent. Qed.
Print Assumptions C211_independent.

Theorem C211_renewed_partial : forall t x ds, (t <= s_tau x)%Z -> (forall d, In d ds -> 1 <= snd d)%Z ->
  forall u y, nth_error (life t x ds) u = Some y -> (t + Z.of_nat u < s_tau y)%Z.
Proof. exact life_ahead. Qed.
Print Assumptions C211_renewed_partial.

(** a waiting time that rounds to zero freezes the dipole for good *)
Theorem C211_stuck : forall t th ph ep ds,
  life t (Slot 0 0 0 t) ((th, ph, ep, 0%Z) :: ds) = repeat (Slot th ph ep t) (S (length ds)).
Proof. exact life_stuck. Qed.
Print Assumptions C211_stuck.
Theorem C211_stuck_refuted : exists t x ds, (t <= s_tau x)%Z /\ (forall d, In d ds -> 0 <= snd d)%Z /\
  ~ forall u y, nth_error (life t x ds) u = Some y -> (t + Z.of_nat u < s_tau y)%Z.
Proof. exact life_stuck_bad. Qed.
Print Assumptions C211_stuck_refuted.

Theorem C211_current : forall a x, -1 <= s_theta x <= 1 ->
  let '(jx, jy, jz) := dipole_current a x in jx ^ 2 + jy ^ 2 + jz ^ 2 = a ^ 2.
Proof. exact current_norm. Qed.
Print Assumptions C211_current.

Example C211_example : option_map fst (steps 3 [[(1, 2, 3, 2%Z); (4, 5, 6, 1%Z)]; [(7, 8, 9, 1%Z); (10, 11, 12, 3%Z)]] istart) =
  Some [[(0%nat, Slot 1 2 3 5); (1%nat, Slot 4 5 6 4)]; [(0%nat, Slot 1 2 3 5); (1%nat, Slot 10 11 12 7)]].
Proof. reflexivity. Qed.

(** a dipole that joins after the first update has no slot: the call reads
    behind the end of the arrays *)
Theorem C211_joining_refuted : exists t (d : draw), steps t [[d]] istart <> None /\ steps t [[d]; [d; d]] istart = None.
Proof. exact (ex_intro _ 0%Z (ex_intro _ (0, 0, 0, 1%Z) (conj (fun e => eq_ind (steps 0 [[(0, 0, 0, 1%Z)]] istart) (fun o => match o with None => False | Some _ => True end) I None e) eq_refl))). Qed.
Print Assumptions C211_joining_refuted.
