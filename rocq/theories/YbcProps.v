(** Theorems about the boundary conditions of the field update
    (openms/lib/fdtd/timeupdate.c) and the grid sizes (parameter.c).
    Every theorem is closed by [exact] of a lemma of the proof files. *)
From mathcomp Require Import all_ssreflect all_algebra.
From Verif Require Import YeeModel YeeSpec YbcModel YbcSpec.
From Verif Require YeeProofs YbcProofs YbcMirror YbcSizes YbcLin YbcMore.
Set Implicit Arguments.
Unset Strict Implicit.
Unset Printing Implicit Defensive.
Import Order.TTheory GRing.Theory Num.Theory.
Local Open Scope ring_scope.

Local Notation inside z := (interior (pisize z) (pjsize z) (pksize z)).

(** C199.  Rectangular lattice.  After every step with a wave vector the real
    and imaginary fields obtain the phase of the wave vector from one unit cell
    to the next, and both solve Maxwell's equations in every cell, the cells at
    the seam included. *)
Theorem C199_bloch : forall (R : realFieldType) (p : par R) z (w : phases R) S,
  periodic_sizes z -> use_periodic_x z || use_periodic_y z -> wave_x w != 0 \/ wave_y w != 0 -> phases_ok w ->
  (forall i j k, inside z i j k -> cell_ok p i j k) ->
  (forall i j k, inside z i j k -> mepsilon p i j k <> 100%:R) ->
  let T := propagate_bc p z w false S in
  (use_periodic_x z -> seam_Ex z T (cos_x w) (sin_x w) /\ seam_Hx z T (cos_x w) (sin_x w)) /\
  (use_periodic_y z ->
     seam_Ey z T 0 (cos_y w) (sin_y w) (cos_y w) (sin_y w) /\
     seam_Hy z T 0 (cos_y w) (sin_y w) (cos_y w) (sin_y w)) /\
  forall i j k, inside z i j k ->
    laws p (cre S) (cre T) i j k /\ laws p (cim S) (cim T) i j k.
Proof.
exact (fun R p z w S hz hu hb hw hok hm =>
  @YbcProofs.bloch_step R p z w false hz (fun h => False_rect _ (Bool.diff_false_true h)) hok S (YbcMore.bloch_of hb) hw hu hm).
Qed.
Print Assumptions C199_bloch.
(** Without a wave vector the real fields simply repeat. *)
Theorem C199_gamma : forall (R : realFieldType) (p : par R) z (w : phases R) S,
  periodic_sizes z -> wave_x w = 0 -> wave_y w = 0 ->
  (forall i j k, inside z i j k -> cell_ok p i j k) ->
  let T := propagate_bc p z w false S in
  (use_periodic_x z -> seam_Ex z (twice T) 1 0 /\ seam_Hx z (twice T) 1 0) /\
  (use_periodic_y z -> seam_Ey z (twice T) 0 1 0 1 0 /\ seam_Hy z (twice T) 0 1 0 1 0) /\
  forall i j k, inside z i j k -> laws p (cre S) (cre T) i j k.
Proof.
exact (fun R p z w S hz h1 h2 hok =>
  @YbcProofs.gamma_step R p z w false hz (fun h => False_rect _ (Bool.diff_false_true h)) hok S (YbcMore.gamma_of h1 h2)).
Qed.
Print Assumptions C199_gamma.

(** C200.  Triangular lattice, even number of cells in x: the same with the next
    row displaced by half a unit cell. *)
Theorem C200_bloch : forall (R : realFieldType) (p : par R) z (w : phases R) S,
  periodic_sizes z -> use_periodic_x z -> use_periodic_y z -> ~~ odd (isize z) ->
  wave_x w != 0 \/ wave_y w != 0 -> phases_ok w ->
  (forall i j k, inside z i j k -> cell_ok p i j k) ->
  (forall i j k, inside z i j k -> mepsilon p i j k <> 100%:R) ->
  let T := propagate_bc p z w true S in
  [/\ seam_Ex z T (cos_x w) (sin_x w), seam_Hx z T (cos_x w) (sin_x w),
      seam_Ey z T (isize z)./2 (cos_1 w) (sin_1 w) (cos_2 w) (sin_2 w),
      seam_Hy z T (isize z)./2 (cos_1 w) (sin_1 w) (cos_2 w) (sin_2 w) &
      forall i j k, inside z i j k ->
        laws p (cre S) (cre T) i j k /\ laws p (cim S) (cim T) i j k].
Proof. exact (fun R p z w S hz hx hy ho hb => YbcMore.tri_bloch (p := p) S hz hx hy ho (YbcMore.bloch_of hb)). Qed.
Print Assumptions C200_bloch.
Theorem C200_gamma : forall (R : realFieldType) (p : par R) z (w : phases R) S,
  periodic_sizes z -> use_periodic_x z -> use_periodic_y z -> ~~ odd (isize z) -> wave_x w = 0 -> wave_y w = 0 ->
  (forall i j k, inside z i j k -> cell_ok p i j k) ->
  let T := propagate_bc p z w true S in
  [/\ seam_Ex z (twice T) 1 0, seam_Hx z (twice T) 1 0,
      seam_Ey z (twice T) (isize z)./2 1 0 1 0, seam_Hy z (twice T) (isize z)./2 1 0 1 0 &
      forall i j k, inside z i j k -> laws p (cre S) (cre T) i j k].
Proof. exact (fun R p z w S hz hx hy ho h1 h2 => YbcMore.tri_gamma (p := p) S hz hx hy ho (YbcMore.gamma_of h1 h2)). Qed.
Print Assumptions C200_gamma.
(** With an odd number of cells a column of the upper row is never written. *)
Theorem C200_odd_refuted : forall R : realFieldType, exists (p : par R) z (w : phases R) S,
  [/\ periodic_sizes z, use_periodic_x z, use_periodic_y z, odd (isize z) & ~~ bloch w] /\
  (forall i j k, inside z i j k -> cell_ok p i j k) /\
  ~ seam_Ey z (twice (propagate_bc p z w true S)) (isize z)./2 1 0 1 0.
Proof. exact YbcMore.tri_odd_full. Qed.
Print Assumptions C200_odd_refuted.

Definition w_quarter (R : realFieldType) : phases R := Ph 4%:R^-1 0 0 1 1 0 0 1 1 0.
Example C199_C200_ex (R : realFieldType) :
  let z := YbcSizes.set_up 2 2 3 0 0 0 true true in
  [/\ periodic_sizes z, use_periodic_x z && use_periodic_y z && ~~ odd (isize z),
      bloch (w_quarter R), phases_ok (w_quarter R) &
      forall i j k, inside z i j k -> cell_ok (YbcMore.p_one (0 : R)) i j k /\
        mepsilon (YbcMore.p_one (0 : R)) i j k <> 100%:R] /\ inside z 2 2 1.
Proof.
move=> z; split=> //; split=> //; first by rewrite /bloch /= invr_neq0 // pnatr_eq0.
  by split; rewrite /unit_phase /= !expr1n !expr0n /= ?add0r ?addr0.
move=> i j k _; split; first exact: YbcMore.one_ok.
by apply/eqP; rewrite /= eq_sym pnatr_eq0.
Qed.

(** C201.  Superposition: where no molecules are, the step turns a linear
    combination of fields into the same linear combination, whatever the media,
    the absorbing layers and the boundaries. *)
Theorem C201_superposition : forall (R : realFieldType) (p : par R) (a b : R) z (w : phases R) tri S T U,
  (forall i j k, inside z i j k -> mepsilon p i j k <> 100%:R) ->
  mixed_c a b S T U ->
  mixed_c a b (propagate_bc p z w tri S) (propagate_bc p z w tri T) (propagate_bc p z w tri U).
Proof. exact YbcLin.superposition. Qed.
Print Assumptions C201_superposition.
(** In a cell with molecules (marked by mepsilon = 100) the loop for the
    imaginary field has no such branch: even with no molecular current the same
    numbers give a real field 1 and an imaginary field 1/100. *)
Theorem C201_imaginary_refuted : forall R : realFieldType, exists (p : par R) (s : state R),
  molecular_cell p 1 1 1 /\ dP p 1%N 1%N 1%N = V3 0 0 0 /\ dP_old p 1%N 1%N 1%N = V3 0 0 0 /\
  vx (fE (E_cell p s 1 1 1) 1%N 1%N 1%N) = 1 /\
  vx (fE (iE_cell p s 1 1 1) 1%N 1%N 1%N) = 100%:R^-1.
Proof. exact YbcMore.mol_im_full. Qed.
Print Assumptions C201_imaginary_refuted.
Example C201_ex (R : realFieldType) : let s := YbcMore.s_tri R in
  mixed_c 2%:R 3%:R s s (Cst (St (YbcMore.one_at 3 1 1 (V3 5%:R 0 0)) (YbcMore.nil_arr R)
    (YbcMore.nil_arr R) (YbcMore.nil_arr R) (YbcMore.nil_arr R)) (cim s)).
Proof.
have h0 : mixed_v 2%:R 3%:R (V3 0 0 0) (V3 0 0 0) (V3 0 0 0 : v3 R).
  by split=> /=; rewrite !mulr0 addr0.
split=> i j k; split=> //; rewrite /= /YbcMore.one_at /put; case: ifP => // _.
by split=> /=; rewrite ?mulr1 ?mulr0 ?addr0 -?natrD.
Qed.

(** C202.  One mirror plane, even or odd, in any direction: fields that are
    mirror images of themselves stay so, all the cells in front of the plane
    solve Maxwell's equations, and so do the components that lie in the plane. *)
Theorem C202_mirror : forall (R : realFieldType) (p : par R) z (w : phases R) d even tri S,
  one_mirror d even z ->
  (forall i j k, inside z i j k -> cell_ok p i j k) ->
  mirror_E d even (plane d z) (fE (cre S)) -> mirror_H d even (plane d z) (fH (cre S)) ->
  let T := propagate_bc p z w tri S in
  [/\ mirror_E d even (plane d z) (fE (cre T)), mirror_H d even (plane d z) (fH (cre T)),
      forall n a b, on_plane d (inside z) n a b -> n <> plane d z ->
        on_plane d (laws p (cre S) (cre T)) n a b &
      forall a b, on_plane d (inside z) (plane d z) a b ->
        on_plane d (vacuum_cell p) (plane d z) a b ->
        (forall e, e <> d -> on_plane d (ampere_in e p (cre S) (cre T)) (plane d z) a b) /\
        on_plane d (faraday_in d p (cre S) (cre T)) (plane d z) a b].
Proof.
exact (fun R p z w d even tri S hm hok hE hH =>
  And4 (YbcMirror.mir_E p w hm tri hE) (YbcMirror.mir_H p w hm tri hH)
       (@YbcMirror.mir_laws R p z w d even hm tri S hok)
       (@YbcMirror.mir_plane R p z w d even hm tri S hok hE hH)).
Qed.
Print Assumptions C202_mirror.
Example C202_ex (R : realFieldType) : let z := YbcSizes.set_up 6 4 4 (-1) 0 0 false false in
  let E := YbcMore.one_at 2 1 1 (V3 1 0 0) in
  one_mirror DX false z /\ plane DX z = 3%N /\ inside z 3 1 1 /\
  mirror_E DX false (plane DX z) (put E 3 1 1 (V3 (-1 : R) 0 0)).
Proof.
move=> z E; split; first by split=> // -[].
split=> //; split=> // a b; rewrite /E /YbcMore.one_at /put /= /cx /=; split=> //.
by case: ifP => _ /=; rewrite ?mulN1r ?oppr0.
Qed.

(** C203.  Sizes set in the order box, mirror planes, periodic boundaries: all
    the array elements read or written by the boundary updates and by the cell
    updates exist. *)
Theorem C203_bounds : forall (R : realFieldType) i j k x y z x_on y_on (w : phases R) tri,
  (0 < i)%N -> (0 < j)%N -> (0 < k)%N ->
  let s := periodic_boundary x_on y_on (Hz_parity x y z (default_sizes i j k)) in
  (forall l, touches (E_boundary s w tri) l \/ touches (H_boundary s w tri) l -> allocated s l) /\
  (forall a b c l, inside s a b c -> neighbour a b c l -> allocated s l).
Proof. exact YbcSizes.set_up_bounds. Qed.
Print Assumptions C203_bounds.
(** In the other order the boundary update writes past the end of the arrays. *)
Theorem C203_order_refuted : forall (R : realFieldType) (w : phases R),
  let s := Hz_parity 1 0 0 (periodic_boundary true false (default_sizes 10 10 10)) in
  exists l, touches (E_boundary s w false) l /\ ~ allocated s l.
Proof. exact YbcSizes.wrong_order. Qed.
Print Assumptions C203_order_refuted.
Example C203_ex (R : realFieldType) :
  let s := periodic_boundary true false (Hz_parity 0 0 1 (default_sizes 10 10 10)) in
  [/\ misize s = 12%N, mksize s = 7%N & touches (Hz_parity_update R s false) (Hat false Lx 3 4 5)].
Proof.
move=> s; split=> //; exists (copy R (Hat false Lx 3 4 5) (Hat false Lx 3 4 4)).
split; last by left.
exact: (mem_nth (copy R (Hat false Lx 0 0 0) (Hat false Lx 0 0 0))
  (s := Hz_parity_update R s false) (n := 57) isT).
Qed.

(** C204.  The spacings are the smallest integers in the ratio that the
    resolutions ask for; a resolution of 0 divides by zero. *)
Theorem C204_spacings : forall lx ly lz : nat, (0 < lx)%N -> (0 < ly)%N -> (0 < lz)%N ->
  exists dx dy dz l,
  [/\ spacings lx ly lz = Some (dx, dy, dz), (dx * lx = l)%N, (dy * ly = l)%N, (dz * lz = l)%N &
      forall m, (lx %| m)%N -> (ly %| m)%N -> (lz %| m)%N -> (l %| m)%N] /\
  [/\ (0 < dx)%N, (0 < dy)%N & (0 < dz)%N].
Proof. exact YbcSizes.spacings_ok. Qed.
Print Assumptions C204_spacings.
Theorem C204_zero : forall lx ly lz : nat, (lx == 0%N) || (ly == 0%N) || (lz == 0%N) ->
  spacings lx ly lz = None.
Proof. exact YbcSizes.spacings_zero. Qed.
Print Assumptions C204_zero.
(** A Courant parameter S with S^2 > 3 is enough for the stability condition of
    C196, for all resolutions. *)
Theorem C204_courant : forall (R : realFieldType) (p : par R) (lx ly lz dx dy dz : nat) (em c S : R),
  spacings lx ly lz = Some (dx, dy, dz) -> ds_x p = dx%:R -> ds_y p = dy%:R ->
  0 < c -> c ^+ 2 * (uo p * eo p) = 1 -> ups p = 1 -> 1 <= em ->
  0 < S -> 3%:R < S ^+ 2 -> dt p = 1 / c / S ->
  courant p dz%:R em.
Proof. exact YbcMore.courant_S. Qed.
Print Assumptions C204_courant.
(** Layers with fewer grid points than the densest one get a positive spacing ... *)
Theorem C204_layers : forall lx ly lz l n : nat, lcm3 lx ly lz = Some l -> (0 < n <= lz)%N ->
  (0 < lx)%N -> (0 < ly)%N -> (0 < spacing_z l n)%N.
Proof. exact YbcSizes.spacing_z_pos. Qed.
Print Assumptions C204_layers.
(** ... but not the right one: the quotient of integers is cut off. *)
Theorem C204_layers_refuted : exists lx ly lz l n : nat,
  [/\ lcm3 lx ly lz = Some l, (0 < n <= lz)%N & (spacing_z l n * n != l)%N].
Proof. by exists 10%N, 10%N, 10%N, 10%N, 4%N. Qed.
Print Assumptions C204_layers_refuted.
Example C204_ex : spacings 10 20 15 = Some (6, 3, 4)%N /\ spacings 7 7 7 = Some (1, 1, 1)%N.
Proof. by []. Qed.
