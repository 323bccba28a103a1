From Coq Require Import Reals List Lra Lia.
From Verif Require Import Base HypModel HypSpec HypProofs.
Import ListNotations.
Local Open Scope R_scope.

(** C255: with a density and an array of masses there is one frequency for each
    mass, positive, and its square is that of the plasma in units of hbar *)
Theorem C255_plasmon hbar e eps me given n ms : 0 < hbar -> 0 < e -> 0 < eps -> 0 < me -> 0 < n -> Forall (fun m => 0 < m) ms ->
  exists fs, init hbar e eps me given (Some n) (Array ms) = Ok (Array fs) /\
    Forall2 (fun m f => 0 < f /\ (f / hbar) ^ 2 = plasma2 (n * 10 ^ 27) e eps (m * me)) ms fs.
Proof.
  intros h1 h2 h3 h4 h5 h6. eexists. split; [reflexivity|].
  induction h6 as [|m l hm hl IH]; cbn [map]; constructor; [|exact IH]. split.
  - unfold plasmon. apply Rmult_lt_0_compat; [apply Rmult_lt_0_compat; lra|]. apply sqrt_lt_R0.
    apply Rdiv_lt_0_compat; [apply Rmult_lt_0_compat; [lra|apply pow_lt; lra]|repeat apply Rmult_lt_0_compat; lra].
  - now apply plasmon_sq.
Qed.
Print Assumptions C255_plasmon.

(** frequencies that are given are kept when there is no density, and replaced when there is *)
Theorem C255_given hbar e eps me given mass : init hbar e eps me given None mass = Ok given /\
  (forall other n, init hbar e eps me given (Some n) mass = init hbar e eps me other (Some n) mass).
Proof. split; [reflexivity|]. intros other n. destruct mass; reflexivity. Qed.
Print Assumptions C255_given.

(** a metal set up with one mass, as the gold of line 154, has a frequency but no conductivity *)
Theorem C255_isotropic_refuted : exists n m : R, 0 < n /\ 0 < m /\ forall hbar e eps me given inter ss eta wl,
  exists f, init hbar e eps me given (Some n) (Scalar m) = Ok f /\ get_conductivity f inter ss eta wl = Err TypeError.
Proof. exists 59, (11 / 10). repeat split; try lra. intros. eexists. split; reflexivity. Qed.
Print Assumptions C255_isotropic_refuted.

Example C255_example : plasma2 12 2 3 4 = 4 /\ Forall (fun m => 0 < m) [1 / 5; 1].
Proof. split; [unfold plasma2; field|repeat constructor; lra]. Qed.

(** C256: there is a row for each frequency and a number for each component: the
    Drude term of the component with weight [wp], and the interband term with its
    documented imaginary part.  Missing: the weight should be epsilon0 wp^2, and the
    step should be that of the component *)
Theorem C256_components_partial wps inter ss eta wl k j w wp w0 s : eta <> 0 -> off w w0 ->
  nth_error wl k = Some w -> nth_error wps j = Some wp -> nth_error inter j = Some w0 -> nth_error ss j = Some s ->
  exists rows row x z, get_conductivity (Array wps) inter ss eta wl = Ok rows /\ length rows = length wl /\
    nth_error rows k = Some row /\ nth_error row j = Some x /\ is_drude wp eta w z /\
    snd x = snd (cadd z (interband s w0 w)) /\
    fst x = fst z + s * INR (length (filter (fun a => if Rlt_dec a w then true else false) wps)).
Proof.
  intros h0 _ h1 h2 h3 h4. destruct (entry wps inter ss eta wl k j w wp w0 s h1 h2 h3 h4) as (rows & row & e1 & e2 & e3 & e4).
  destruct (sigma1_form wps eta w wp w0 s h0) as (z & hz & e5). rewrite e5 in e4.
  exists rows, row, (fst z + s * steps wps w, snd z + snd (interband s w0 w)), z.
  repeat split; try assumption. cbn [fst]. now rewrite steps_count.
Qed.
Print Assumptions C256_components_partial.

(** the metal absorbs and never amplifies *)
Theorem C256_passive wps inter ss eta wl k j w wp w0 s : 0 < eta -> 0 <= wp -> 0 <= s -> off w w0 ->
  nth_error wl k = Some w -> nth_error wps j = Some wp -> nth_error inter j = Some w0 -> nth_error ss j = Some s ->
  exists rows row x, get_conductivity (Array wps) inter ss eta wl = Ok rows /\
    nth_error rows k = Some row /\ nth_error row j = Some x /\ 0 <= fst x.
Proof.
  intros a1 a2 a3 _ h1 h2 h3 h4. destruct (entry wps inter ss eta wl k j w wp w0 s h1 h2 h3 h4) as (rows & row & e1 & _ & e3 & e4).
  exists rows, row, (sigma1 wps eta w (wp, (w0, s))). repeat split; try assumption. now apply passive.
Qed.
Print Assumptions C256_passive.

(** one component whose transition lies at its plasmon frequency is as documented,
    but for the weight of the Drude term *)
Theorem C256_single_partial wp s eta w : eta <> 0 -> off w wp -> exists z,
  is_drude wp eta w z /\ get_conductivity (Array [wp]) [wp] [s] eta [w] = Ok [[cadd z (interband s wp w)]].
Proof.
  intros h _. destruct (equal_freqs wp eta w s h) as (z & hz & e). exists z. split; [exact hz|].
  cbn [get_conductivity map combine]. now rewrite e.
Qed.
Print Assumptions C256_single_partial.

(** the Drude weight is that of the frequency, not of its square: four times the
    electrons conduct only twice as well *)
Theorem C256_drude_refuted : exists k : R, 0 < k /\ k ^ 2 <> k /\ forall hbar e eps me n m eta w, eta <> 0 ->
  exists z, is_drude (plasmon hbar e eps me n m) eta w z /\ is_drude (k * plasmon hbar e eps me n m) eta w (k * fst z, k * snd z) /\
    get_conductivity (Array [plasmon hbar e eps me n m]) [1] [0] eta [w] = Ok [[z]] /\
    get_conductivity (Array [plasmon hbar e eps me (k ^ 2 * n) m]) [1] [0] eta [w] = Ok [[(k * fst z, k * snd z)]].
Proof.
  exists 2. repeat split; try lra. intros hbar e eps me n m eta w h.
  pose proof (sumsq w eta h). exists (drude (plasmon hbar e eps me n m) eta w). split; [now apply drude_is|]. split; [|split].
  - unfold is_drude, cmul, drude. cbn [fst snd]. f_equal; field; lra.
  - cbn [get_conductivity map combine]. unfold sigma1. do 3 f_equal. unfold drude. cbn [fst snd]. f_equal; ring.
  - cbn [get_conductivity map combine]. rewrite plasmon_scale by lra. unfold sigma1, drude. cbn [fst snd].
    do 3 f_equal. f_equal; field; lra.
Qed.
Print Assumptions C256_drude_refuted.

(** the step sits at the plasmon frequency: there is interband absorption below the
    transition, and none above it *)
Theorem C256_threshold_refuted : exists wp1 wp2 w0 w s eta : R, w < w0 /\ 0 < s /\ 0 < eta /\
  (exists x z, get_conductivity (Array [wp1]) [w0] [s] eta [w] = Ok [[x]] /\ is_drude wp1 eta w z /\
     fst (interband s w0 w) = 0 /\ fst x = fst z + s) /\
  (exists w' x z, w0 < w' /\ get_conductivity (Array [wp2]) [w0] [s] eta [w'] = Ok [[x]] /\ is_drude wp2 eta w' z /\
     fst (interband s w0 w') = s /\ fst x = fst z).
Proof.
  exists 1, 5, 3, 2, 1, 1. repeat split; try lra.
  - exists (sigma1 [1] 1 2 (1, (3, 1))), (drude 1 1 2). split; [reflexivity|]. split; [apply drude_is; lra|].
    unfold interband, theta, sigma1, steps. cbn [fst snd fold_left]. split.
    + destruct (Rlt_dec 0 (2 - 3)); lra.
    + destruct (Rlt_dec 1 2); lra.
  - exists 4, (sigma1 [5] 1 4 (5, (3, 1))), (drude 5 1 4). split; [lra|]. split; [reflexivity|]. split; [apply drude_is; lra|].
    unfold interband, theta, sigma1, steps. cbn [fst snd fold_left]. split.
    + destruct (Rlt_dec 0 (4 - 3)); lra.
    + destruct (Rlt_dec 5 4); lra.
Qed.
Print Assumptions C256_threshold_refuted.

(** the components are mixed: another direction's plasmon frequency changes this one *)
Theorem C256_mixing_refuted : exists wp a b w0 w eta : R, 0 < eta /\ off w w0 /\ forall s, s <> 0 -> 
  exists x y u v, get_conductivity (Array [wp; a]) [w0; w0] [s; s] eta [w] = Ok [[x; u]] /\
    get_conductivity (Array [wp; b]) [w0; w0] [s; s] eta [w] = Ok [[y; v]] /\ x <> y.
Proof.
  exists 1, 1, 3, 5, 2, 1. repeat split; try lra. intros s hs.
  do 4 eexists. split; [reflexivity|]. split; [reflexivity|].
  unfold sigma1, steps. cbn [fst snd fold_left]. intro h. apply (f_equal fst) in h. cbn [fst] in h.
  destruct (Rlt_dec 1 2); [|lra]. destruct (Rlt_dec 3 2); [lra|]. apply hs. lra.
Qed.
Print Assumptions C256_mixing_refuted.

(** the dielectric function is never returned *)
Theorem C256_dielectric_refuted : exists wl : list R, wl <> [] /\ forall eps : list (R * R), get_dielectric wl <> Some eps.
Proof. exists [1]. split; discriminate. Qed.
Print Assumptions C256_dielectric_refuted.

Example C256_example : is_drude 2 1 1 (1, 1) /\ drude 2 1 1 = (1, 1) /\ off 1 3 /\ steps [1; 3] 2 = 1.
Proof.
  repeat split; try lra.
  - unfold is_drude, cmul. cbn. f_equal; ring.
  - unfold drude. f_equal; field.
  - unfold steps. cbn. destruct (Rlt_dec 1 2), (Rlt_dec 3 2); lra.
Qed.
