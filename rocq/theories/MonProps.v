(** What is proved about the monitors of the FDTD library. *)
From Coq Require Import Reals ZArith List Bool Lra Lia.
From Verif Require Import MonModel MonSpec MonProofs.
Import ListNotations.
Local Open Scope R_scope.

(** C212: fields of the whole box from the stored part of a box with mirrors *)
Theorem C212_field_partial : forall (b : box) (A F : arrays) kd a i j k,
  even_box b -> symmetric b F -> inner_node b i j k ->
  (forall kd a i j k, in_store b i j k -> A kd a i j k = F kd a i j k) ->
  field b A kd a i j k = node F kd a i j k.
Proof. exact whole_field. Qed.
Print Assumptions C212_field_partial.
Theorem C212_quantity_partial : forall eo uo ups (b : box) (A : arrays) (e : axis -> grid) (F : arrays) (f : axis -> grid) q i j k,
  even_box b -> symmetric b F -> eps_symmetric b f -> inner_node b i j k ->
  (forall kd a i j k, in_store b i j k -> A kd a i j k = F kd a i j k) ->
  (forall a i j k, in_store b i j k -> e a i j k = f a i j k) ->
  grid_value eo uo ups b A e q i j k = value_of eo uo ups (fun kd a => node F kd a i j k) (whole_eps f i j k) q.
Proof. exact whole_value. Qed.
Print Assumptions C212_quantity_partial.
(** the mean of the neighbours belongs to the node: exact for linear fields *)
Theorem C212_node : forall c0 cx cy cz A kd a i j k, stores_affine c0 cx cy cz A kd a ->
  node A kd a i j k = affine c0 cx cy cz (IZR i) (IZR j) (IZR k).
Proof. exact node_affine. Qed.
Print Assumptions C212_node.
(** energy flow, power and energies from the fields *)
Theorem C212_values : forall eo uo ups f ep,
  (forall a, value_of eo uo ups f ep (QS a) = cross (f KE) (f KH) a) /\
  value_of eo uo ups f ep QJE = dot (f KE) (f KJ) /\
  value_of eo uo ups f ep QE2 = dot (f KE) (f KE) /\ value_of eo uo ups f ep QH2 = dot (f KH) (f KH) /\
  value_of eo uo ups f ep QEEnergy = eo * ep * dot (f KE) (f KE) / 2 /\
  value_of eo uo ups f ep QEMEnergy = eo * ep * dot (f KE) (f KE) / 2 + uo * ups * dot (f KH) (f KH) / 2.
Proof. exact values. Qed.
Print Assumptions C212_values.
(** with an odd number of cells the image is taken at the wrong node *)
Theorem C212_odd_refuted : exists b F, symmetric b F /\ (2 <= pisize b)%Z /\ inner_node b 2 1 1 /\
  field b F KE AX 2 1 1 <> node F KE AX 2 1 1.
Proof. exact odd_box. Qed.
Print Assumptions C212_odd_refuted.
(** a box of four cells, plane at node 2: Ex at node 3 is read at node 1 *)
Definition b4 : box := Box 4 9 9 3 8 8 1 0 0.
Definition F4 : arrays := fun kd a i j k => match kd, a with KE, AX => IZR ((2 * i - 3) * (2 * i - 3)) | KH, AY => IZR (2 * (2 * i - 3) * (2 * i - 3)) | _, _ => 0 end.
Example C212_example : even_box b4 /\ symmetric b4 F4 /\ inner_node b4 3 1 1 /\ ~ in_store b4 4 1 1 /\
  field b4 F4 KE AX 3 1 1 = 5 /\ field b4 F4 KH AY 3 1 1 = 10.
Proof.
  split; [|split; [|split; [|split; [|split]]]].
  - split; [|split; intro; discriminate]. intros _. exists 2%Z. split; reflexivity.
  - split; [|split; intro; discriminate]. intros _ kd a i j k. change (isize b4 / 2)%Z with 2%Z.
    destruct kd, a; cbn [half_step axis_eqb negb F4 reflect sgn]; try ring;
    change (xparity b4) with 1%Z; rewrite <- mult_IZR; f_equal; ring.
  - split; [|split; intro; discriminate]. intros _. cbn. lia.
  - intros (h & _). specialize (h eq_refl). cbn in h. lia.
  - unfold field, factor, folded, image. cbn. lra.
  - unfold field, factor, folded, image. cbn. lra.
Qed.

(** C213: copies of a periodic box *)
Theorem C213_replica_partial : forall b Re Im kx h kd a i j k, (0 <= h)%Z ->
  replica b Re Im (angle_x PI kx h) kd a i j k =
  fst (turns (Z.to_nat h) (2 * PI * kx) (field b Re kd a i j k, field b Im kd a i j k)).
Proof. exact replica_x. Qed.
Print Assumptions C213_replica_partial.
Theorem C213_replica_xy_partial : forall b Re Im kx ky h kd a i j k, (0 <= h)%Z ->
  replica b Re Im (angle_xy PI kx ky h 0) kd a i j k =
  fst (turns 0 (2 * PI * ky) (turns (Z.to_nat h) (2 * PI * kx) (field b Re kd a i j k, field b Im kd a i j k))).
Proof. exact replica_xy. Qed.
Print Assumptions C213_replica_xy_partial.
(** with copies in both directions the factor 2 pi of the second is missing *)
Theorem C213_xy_refuted : exists b Re Im kx ky h v, (0 <= h)%Z /\ (0 <= v)%Z /\
  replica b Re Im (angle_xy PI kx ky h v) KE AX 1 1 1 <>
  fst (turns (Z.to_nat v) (2 * PI * ky) (turns (Z.to_nat h) (2 * PI * kx) (field b Re KE AX 1 1 1, field b Im KE AX 1 1 1))).
Proof.
  exact (ex_intro _ b0 (ex_intro _ ones (ex_intro _ zeros (ex_intro _ 0 (ex_intro _ 1 (ex_intro _ 0%Z (ex_intro _ 1%Z
    (conj (Z.le_refl 0) (conj Z.le_0_1 replica_xy_bad))))))))).
Qed.
Print Assumptions C213_xy_refuted.
(** no multiple of the period is ever printed *)
Theorem C213_columns : forall isize m h, (1 <= isize)%Z -> ~ In (h * isize)%Z (map (place isize) (columns isize m)).
Proof. exact columns_miss. Qed.
Print Assumptions C213_columns.
Theorem C213_columns_refuted : exists isize m x, (1 <= isize)%Z /\ In (x - 1)%Z (map (place isize) (columns isize m)) /\
  In (x + 1)%Z (map (place isize) (columns isize m)) /\ ~ In x (map (place isize) (columns isize m)).
Proof. exact columns_gap. Qed.
Print Assumptions C213_columns_refuted.
Example C213_example : replica b0 ones zeros (angle_x PI (/ 2) 1) KE AX 1 1 1 = -1 /\
  map (place 3) (columns 3 2) = [1; 2; 4; 5]%Z.
Proof.
  split; [|reflexivity]. unfold replica, angle_x, field, factor, folded, image. cbn.
  replace (2 * PI * 1 * / 2) with PI by field. rewrite cos_PI, sin_PI. unfold ones, zeros. lra.
Qed.

(** C214: the flux through the surface of the domain *)
Theorem C214_gauss_partial : forall d S, plain_domain d -> pmljl d = pmljr d -> (5 | lattice_z d)%Z ->
  Poynting_total d S = total_div d S (zrange (x_lo d + 1) (x_hi d)) (zrange (y_lo d + 1) (y_hi d)) (zrange (z_lo d + 1) (z_hi d)).
Proof. exact gauss. Qed.
Print Assumptions C214_gauss_partial.
Theorem C214_free_partial : forall d S, plain_domain d -> pmljl d = pmljr d -> (5 | lattice_z d)%Z ->
  (forall i j k, div d S i j k = 0) -> Poynting_total d S = 0.
Proof. exact gauss_free. Qed.
Print Assumptions C214_free_partial.
(** layers of different thickness in y: the wrong one is used for the upper face *)
Theorem C214_y_refuted : exists d S, plain_domain d /\ (5 | lattice_z d)%Z /\ (forall i j k, div d S i j k = 0) /\ Poynting_total d S <> 0.
Proof. exact (ex_intro _ dy (ex_intro _ Sy_ (conj dy_plain (conj (Z.divide_0_r 5) (conj Sy_free dy_total))))). Qed.
Print Assumptions C214_y_refuted.
(** a lattice constant that 5 does not divide: one layer of the sides is lost *)
Theorem C214_z_refuted : exists d S, plain_domain d /\ pmljl d = pmljr d /\ (forall i j k, div d S i j k = 0) /\ Poynting_total d S <> 0.
Proof. exact (ex_intro _ dz (ex_intro _ Sz_ (conj dz_plain (conj eq_refl (conj Sz_free dz_total))))). Qed.
Print Assumptions C214_z_refuted.
(** upper, lower and side part together count two strips twice *)
Theorem C214_parts_partial : forall d S ka kb, plain_domain d -> pmljl d = pmljr d -> (5 | lattice_z d)%Z ->
  (z_lo d + 1 <= kb)%Z -> (kb <= ka)%Z -> (ka <= z_hi d)%Z ->
  SumUpper d S ka + SumLower d S kb + Poynting_side d S ka kb =
  Poynting_total d S + (flux_x d S [ka] + flux_y d (y_hi d) S [ka]) + (flux_x d S [kb] + flux_y d (y_hi d) S [kb]).
Proof. exact (fun d S ka kb h => parts d S h ka kb). Qed.
Print Assumptions C214_parts_partial.
Theorem C214_parts_refuted : exists d S ka kb, plain_domain d /\ pmljl d = pmljr d /\ (5 | lattice_z d)%Z /\
  (z_lo d + 1 <= kb)%Z /\ (kb < ka)%Z /\ (ka <= z_hi d)%Z /\
  SumUpper d S ka + SumLower d S kb + Poynting_side d S ka kb <> Poynting_total d S.
Proof. exact dp_parts_all. Qed.
Print Assumptions C214_parts_refuted.
Example C214_example : plain_domain dp /\ pmljl dp = pmljr dp /\ (5 | lattice_z dp)%Z /\ Poynting_total dp Sx_ = 16.
Proof.
  split; [exact dp_plain|]. split; [reflexivity|]. split; [apply Z.divide_0_r|].
  unfold Poynting_total, flux_x, flux_y, flux_zp, flux_zn, sum2.
  change (is_ dp) with [1; 2]%Z. change (js_ dp) with [1; 2]%Z. change (ks_ dp) with [4; 3; 2; 1]%Z.
  change (x_hi dp) with 2%Z. change (x_lo dp) with 0%Z.
  unfold sum_over, Sx_, dp. cbn [fold_right ds_x ds_y ds_nz]. lra.
Qed.

(** C215: the electric energy in a Drude metal *)
Theorem C215_group : forall einf wp go w, w <> 0 ->
  derivable_pt_lim (fun x => x * drude einf wp go x) w (eps_m3 einf + eps_m2 wp go w).
Proof. exact group_eps. Qed.
Print Assumptions C215_group.
Theorem C215_weight : forall einf wp go w, w <> 0 ->
  eps_m einf wp go w = (drude einf wp go w + (eps_m3 einf + eps_m2 wp go w)) / 2 /\
  eps_m einf wp go w = einf - wp ^ 2 * go ^ 2 / (w ^ 2 + go ^ 2) ^ 2.
Proof. exact eps_m_mean. Qed.
Print Assumptions C215_weight.
(** the two parts do not add up to the energy of the first function *)
Theorem C215_sum_refuted : exists einf wp go w, 0 < w /\ eps_m2 wp go w + eps_m3 einf <> eps_m einf wp go w.
Proof. exact (ex_intro _ 1 (ex_intro _ 1 (ex_intro _ 1 (ex_intro _ 2 (conj Rlt_0_2 parts_differ))))). Qed.
Print Assumptions C215_sum_refuted.
(** an energy may be negative *)
Theorem C215_sign_refuted : exists einf wp go w, 1 <= einf /\ 0 < w /\ eps_m einf wp go w < 0.
Proof. exact (ex_intro _ 1 (ex_intro _ 10 (ex_intro _ 1 (ex_intro _ 1 (conj (Rle_refl 1) (conj Rlt_0_1 eps_m_negative)))))). Qed.
Print Assumptions C215_sign_refuted.
Theorem C215_kinetic_refuted : exists wp go w, 0 < w /\ 0 < go /\ eps_m2 wp go w < 0.
Proof. exact (ex_intro _ 1 (ex_intro _ 2 (ex_intro _ 1 (conj Rlt_0_1 (conj Rlt_0_2 kinetic_negative))))). Qed.
Print Assumptions C215_kinetic_refuted.
Example C215_example : eps_m 3 2 1 1 = 2 /\ eps_m2 2 0 1 + eps_m3 3 = 7.
Proof. unfold eps_m, eps_m2, eps_m3. lra. Qed.

(** C216: the far field on a map *)
Theorem C216_direction : forall tnum i j, (i <> half tnum \/ j <> half tnum) ->
  dist tnum i j * cos (calc_phi PI tnum i j) = IZR (i - half tnum) /\
  dist tnum i j * sin (calc_phi PI tnum i j) = IZR (j - half tnum).
Proof. exact direction. Qed.
Print Assumptions C216_direction.
Theorem C216_range_partial : forall m theta phi, (0 <= m)%Z ->
  let '(fp, fq, cp, cq) := corners (2 * m + 1) (p_of (2 * m + 1) theta phi) (q_of (2 * m + 1) theta phi) in
  (0 <= fp < 2 * m + 1 /\ 0 <= fq < 2 * m + 1 /\ 0 <= cp < 2 * m + 1 /\ 0 <= cq < 2 * m + 1)%Z.
Proof. exact in_array. Qed.
Print Assumptions C216_range_partial.
(** an even number of samples: the interpolation reads past the end *)
Theorem C216_even_refuted : exists rcnum tnum i j, (0 < rcnum)%Z /\ circle_out tnum i j = true /\ / 50 <= calc_theta PI tnum i j /\
  (let '(_, _, cp, _) := corners rcnum (p_of rcnum (calc_theta PI tnum i j) (calc_phi PI tnum i j))
                           (q_of rcnum (calc_theta PI tnum i j) (calc_phi PI tnum i j)) in (rcnum <= cp)%Z).
Proof. exact (ex_intro _ 2%Z (ex_intro _ 4%Z (ex_intro _ 3%Z (ex_intro _ 2%Z (conj Z.lt_0_2 even_overrun))))). Qed.
Print Assumptions C216_even_refuted.
Theorem C216_value : forall a b c e rcnum tnum i j u, (forall m n, u m n = bilinear a b c e (IZR m) (IZR n)) ->
  circle_out tnum i j = true -> / 50 <= calc_theta PI tnum i j -> (i <> half tnum \/ j <> half tnum) ->
  into_polar PI u rcnum tnum i j =
  bilinear a b c e
    (IZR (half rcnum) * (1 + sin (calc_theta PI tnum i j) * (IZR (i - half tnum) / dist tnum i j)))
    (IZR (half rcnum) * (1 + sin (calc_theta PI tnum i j) * (IZR (j - half tnum) / dist tnum i j))).
Proof. exact polar_value. Qed.
Print Assumptions C216_value.
Example C216_example : circle_out 4 2 1 = true /\ / 50 <= calc_theta PI 4 2 1 /\ (1 <> half 4)%Z /\ circle_out 4 0 0 = false.
Proof.
  assert (hd : dist 4 2 1 = 1) by (unfold dist; cbn; apply sqrt_1).
  split; [unfold circle_out; cbn; destruct (Rlt_dec (/ 10) 0); [lra | reflexivity]|].
  split; [unfold calc_theta; rewrite hd; cbn; pose proof PI2_1; lra|]. split; [discriminate|].
  unfold circle_out; cbn. destruct (Rlt_dec (/ 10) 7); [reflexivity | lra].
Qed.

(** C217: the place of the largest value *)
Theorem C217_max : forall C (v : C -> R) l c0, In c0 l -> -12345 < v c0 ->
  exists c, In c l /\ max_detect v l = (v c, Some c) /\ forall c', In c' l -> v c' <= v c.
Proof. exact @max_detected. Qed.
Print Assumptions C217_max.
Theorem C217_first : forall C (v : C -> R) l1 c l2, -12345 < v c ->
  (forall c', In c' l1 -> v c' < v c) -> (forall c', In c' l2 -> v c' <= v c) ->
  max_detect v (l1 ++ c :: l2) = (v c, Some c).
Proof. exact @max_first. Qed.
Print Assumptions C217_first.
(** nothing is found in an empty block, or when every value is at most -12345 *)
Theorem C217_none : forall C (v : C -> R) l, (forall c, In c l -> v c <= -12345) -> max_detect v l = (-12345, None).
Proof. exact @max_none. Qed.
Print Assumptions C217_none.
Example C217_example : max_detect (fun z => IZR (z * (4 - z))) [0; 1; 2; 3]%Z = (IZR 4, Some 2%Z).
Proof.
  apply (C217_first Z (fun z => IZR (z * (4 - z))) [0; 1]%Z 2%Z [3]%Z); [cbn; lra | |];
  intros c'; cbn [In]; intuition (subst; cbn; lra).
Qed.
