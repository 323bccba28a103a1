(* The Courant condition from the spacings, and the states that refute the
   unrestricted claims of YbcProps. *)
From mathcomp Require Import all_ssreflect all_algebra.
From Verif Require Import YeeModel YeeSpec YeeProofs YbcModel YbcSpec YbcProg YbcProofs YbcMirror YbcSizes.
Set Implicit Arguments.
Unset Strict Implicit.
Unset Printing Implicit Defensive.
Import Order.TTheory GRing.Theory Num.Theory.
Local Open Scope ring_scope.

Section More.
Variable R : realFieldType.

Lemma courant_S (p : par R) (lx ly lz dx dy dz : nat) (em c S : R) :
  spacings lx ly lz = Some (dx, dy, dz) -> ds_x p = dx%:R -> ds_y p = dy%:R ->
  0 < c -> c ^+ 2 * (uo p * eo p) = 1 -> ups p = 1 -> 1 <= em ->
  0 < S -> 3%:R < S ^+ 2 -> dt p = 1 / c / S ->
  courant p dz%:R em.
Proof.
move=> hs hx hy hc hcc hu hem hS hS2 hdt.
have [l0 [p1 p2 p3]] : (0 < lx)%N /\ [/\ (0 < dx)%N, (0 < dy)%N & (0 < dz)%N].
  case: (posnP lx) => [e|h1]; first by move: hs; rewrite spacings_zero // e.
  case: (posnP ly) => [e|h2]; first by move: hs; rewrite spacings_zero // e orbT.
  case: (posnP lz) => [e|h3]; first by move: hs; rewrite spacings_zero // e orbT.
  have [dx' [dy' [dz' [l [[e _ _ _ _] [q1 q2 q3]]]]]] := spacings_ok h1 h2 h3.
  by move: hs; rewrite e => -[<- <- <-].
rewrite /courant hx hy hu mulr1 hdt.
have inv n : (0 < n)%N -> ((n%:R : R) ^+ 2)^-1 <= 1.
  move=> hn; rewrite invf_le1 ?exprn_gt0 ?ltr0n //.
  by rewrite exprn_ege1 // ler1n.
have h3 : invsq (dx%:R : R) dy%:R dz%:R <= 3%:R.
  have -> : 3%:R = 1 + 1 + 1 :> R by rewrite -[3%N]/(1 + 1 + 1)%N !natrD.
  by rewrite /invsq !ler_add // inv.
have cn : c != 0 by rewrite gt_eqF.
have Sn : S != 0 by rewrite gt_eqF.
have e1 : uo p * eo p = (c ^+ 2)^-1.
  apply: (mulfI (expf_neq0 2 cn)); rewrite hcc divff //; exact: expf_neq0.
rewrite e1 div1r exprMn !exprVn.
apply: (@lt_le_trans _ _ ((c ^+ 2)^-1)); last first.
  by rewrite ler_pmulr // invr_gt0 exprn_gt0.
apply: (@le_lt_trans _ _ ((c ^+ 2)^-1 * (S ^+ 2)^-1 * 3%:R)).
  by rewrite ler_wpmul2l // mulr_ge0 // invr_ge0 exprn_ge0 // ltW.
rewrite -mulrA gtr_pmulr ?invr_gt0 ?exprn_gt0 //.
by rewrite mulrC ltr_pdivr_mulr ?exprn_gt0 // mul1r.
Qed.

(* an empty box, one unit of everything *)
Definition p_one (m : R) : par R :=
  Par 1 1 1 1 1 1 (fun _ => 1) 1 1 1
    (fun _ => 0) (fun _ => 0) (fun _ => 0) (fun _ => 0) (fun _ => 0) (fun _ => 0)
    (fun _ _ _ => V3 1 1 1) (fun _ _ _ => m) (fun _ _ _ => 0) (fun _ _ _ => 0)
    (fun _ _ _ => true) (fun _ _ _ => V3 0 0 0) (fun _ _ _ => V3 0 0 0).
Definition nil_arr : arr R := fun _ _ _ => V3 0 0 0.
Definition one_at (i j k : nat) (v : v3 R) : arr R := put nil_arr i j k v.
Definition w_gamma : phases R := Ph 0 0 1 0 1 0 1 0 1 0.

(* one unit of Ex in the last column of a triangular lattice with three cells *)
Definition z_tri : sizes := set_up 3 2 3 0 0 0 true true.
Definition s_tri : cst R :=
  Cst (St (one_at 3 1 1 (V3 1 0 0)) nil_arr nil_arr nil_arr nil_arr)
      (St nil_arr nil_arr nil_arr nil_arr nil_arr).

Lemma one_ok i j k : cell_ok (p_one 0) i j k.
Proof.
have n1 : (1 : R) <> 0 by apply/eqP; exact: oner_neq0.
by split=> //; split=> //; split=> [[]|[]].
Qed.

Lemma bloch_of (w : phases R) : wave_x w != 0 \/ wave_y w != 0 -> bloch w.
Proof. by move/orP. Qed.
Lemma gamma_of (w : phases R) : wave_x w = 0 -> wave_y w = 0 -> ~~ bloch w.
Proof. by move=> h1 h2; rewrite /bloch h1 h2 eqxx. Qed.
Lemma tri_bloch (p : par R) z (w : phases R) S :
  periodic_sizes z -> use_periodic_x z -> use_periodic_y z -> ~~ odd (isize z) ->
  bloch w -> phases_ok w ->
  (forall i j k, interior (pisize z) (pjsize z) (pksize z) i j k -> cell_ok p i j k) ->
  (forall i j k, interior (pisize z) (pjsize z) (pksize z) i j k -> mepsilon p i j k <> 100%:R) ->
  let T := propagate_bc p z w true S in
  [/\ seam_Ex z T (cos_x w) (sin_x w), seam_Hx z T (cos_x w) (sin_x w),
      seam_Ey z T (isize z)./2 (cos_1 w) (sin_1 w) (cos_2 w) (sin_2 w),
      seam_Hy z T (isize z)./2 (cos_1 w) (sin_1 w) (cos_2 w) (sin_2 w) &
      forall i j k, interior (pisize z) (pjsize z) (pksize z) i j k ->
        laws p (cre S) (cre T) i j k /\ laws p (cim S) (cim T) i j k].
Proof.
move=> hz hx hy ho hb hw hok hm T.
have hu : use_periodic_x z || use_periodic_y z by rewrite hx.
have [h1 [h2 h3]] := @bloch_step R p z w true hz (fun _ => And3 hx hy ho) hok S hb hw hu hm.
by have [? ?] := h1 hx; have [? ?] := h2 hy; split.
Qed.
Lemma tri_gamma (p : par R) z (w : phases R) S :
  periodic_sizes z -> use_periodic_x z -> use_periodic_y z -> ~~ odd (isize z) -> ~~ bloch w ->
  (forall i j k, interior (pisize z) (pjsize z) (pksize z) i j k -> cell_ok p i j k) ->
  let T := propagate_bc p z w true S in
  [/\ seam_Ex z (twice T) 1 0, seam_Hx z (twice T) 1 0,
      seam_Ey z (twice T) (isize z)./2 1 0 1 0, seam_Hy z (twice T) (isize z)./2 1 0 1 0 &
      forall i j k, interior (pisize z) (pjsize z) (pksize z) i j k ->
        laws p (cre S) (cre T) i j k].
Proof.
move=> hz hx hy ho hb hok T.
have [h1 [h2 h3]] := @gamma_step R p z w true hz (fun _ => And3 hx hy ho) hok S hb.
by have [? ?] := h1 hx; have [? ?] := h2 hy; split.
Qed.

Lemma E_only p z (w : phases R) S HB l : (forall x, x \in HB -> x.1.1.1.2 = true) ->
  l.1.1.2 = false -> l.1.1.1 = false -> get (exec HB (H_half p z w S)) l = get S l.
Proof.
move=> hH; case: l => [[[im h] c] [[i j] k]] /= -> ->.
have [h3 _ _ _] := exec_keeps (H_half p z w S) hH false.
have [aE _ _] := @halfH_keeps R p z w S false.
by move: h3 aE; rewrite /get => -> ->.
Qed.
Lemma half_get p z (w : phases R) S c i j k :
  get (E_half p z w S) (Eat false c i j k) =
  comp c (fE (sweep (E_cell p) (cells (pisize z) (pjsize z) (pksize z)) (cre S)) i j k).
Proof. by []. Qed.

Lemma tri_odd : let T := propagate_bc (p_one 0) z_tri w_gamma true s_tri in
  ~ seam_Ey z_tri (twice T) (yshift z_tri true) 1 0 1 0.
Proof.
move=> T; have ps : periodic_sizes z_tri by [].
have nb : ~~ bloch w_gamma by rewrite /bloch /= eqxx.
have EB : E_boundary z_tri w_gamma true = E_Gamma_x R z_tri ++ E_Gamma_Ywall R z_tri.
  by rewrite (proj1 (@Eb_gamma R z_tri w_gamma true ps nb)).
have HB : H_boundary z_tri w_gamma true = H_Gamma_x R z_tri ++ H_Gamma_Ywall R z_tri.
  by rewrite (proj2 (@Eb_gamma R z_tri w_gamma true ps nb)).
pose S1 := E_half (p_one 0) z_tri w_gamma s_tri.
have hH (x : asg R) : x \in H_Gamma_x R z_tri ++ H_Gamma_Ywall R z_tri -> x.1.1.1.2 = true.
  have : all (fun x : asg R => x.1.1.1.2) (H_Gamma_x R z_tri ++ H_Gamma_Ywall R z_tri) by [].
  by move/allP => h hx; apply: h.
have eT l : l.1.1.2 = false -> l.1.1.1 = false ->
  get T l = get (exec (E_Gamma_x R z_tri ++ E_Gamma_Ywall R z_tri) S1) l.
  by move=> h1 h2; rewrite /T /propagate_bc EB HB E_only.
have out l : l \notin [seq x.1 | x <- E_Gamma_x R z_tri ++ E_Gamma_Ywall R z_tri] ->
  l.1.1.2 = false -> l.1.1.1 = false -> get T l = get S1 l.
  move=> hl h1 h2; rewrite eT //; apply: exec_out => a ha e; move: hl.
  by rewrite -e map_f.
move=> /(_ 3%N 1%N isT isT (@cx R) (or_introl erefl)) [h _].
have e1 : get T (Eat false Lx 1 3 1) = 0.
  rewrite out //.
  rewrite half_get.
  by rewrite (@sweepE_out R (p_one 0) z_tri) //; case=> _ [].
have e2 : get T (Eat false Lx 3 1 1) = 1.
  rewrite out //.
  rewrite half_get.
  have hi : interior (pisize z_tri) (pjsize z_tri) (pksize z_tri) 3 1 1 by [].
  have n1 : (1 : R) <> 0 by apply/eqP; exact: oner_neq0.
  have ok : cell_ok (p_one 0) 3 1 1.
    split; first by [].
    split; first by [].
    by split=> [[]|[]].
  have [lv _] := sweepE_law (cre s_tri) hi ok.
  have [+ _ _] := lv (conj erefl erefl).
  have -> : eo (p_one 0) = 1 by [].
  have -> : dt (p_one 0) = 1 by [].
  have -> : cx (epsilon (p_one 0)) 3%N 1%N 1%N = 1 by [].
  have -> : cx (fE (cre s_tri)) 3%N 1%N 1%N = 1 by [].
  have -> : by_ (ds_y (p_one 0)) (cz (fH (cre s_tri))) 3%N 1%N 1%N = 0 by rewrite /by_ subrr mul0r.
  have -> : bz (dual (ds_nz (p_one 0))) (cy (fH (cre s_tri))) 3%N 1%N 1%N = 0 by rewrite /bz subrr mul0r.
  have -> : cx (no_current R) 3%N 1%N 1%N = 0 by [].
  by rewrite !mul1r !divr1 !subr0 => /eqP; rewrite subr_eq0 => /eqP.
have k1 : cx (fE (cre T)) 1%N 3%N 1%N = 0 := e1.
have k2 : cx (fE (cre T)) 3%N 1%N 1%N = 1 := e2.
have : cx (fE (cre T)) 1%N 3%N 1%N =
  1 * cx (fE (cre T)) 3%N 1%N 1%N - 0 * cx (fE (cre T)) 3%N 1%N 1%N := h.
by rewrite k1 k2 mul0r mul1r subr0 => /eqP; rewrite eq_sym oner_eq0.
Qed.

Lemma tri_odd_full : exists (p : par R) z (w : phases R) S,
  [/\ periodic_sizes z, use_periodic_x z, use_periodic_y z, odd (isize z) & ~~ bloch w] /\
  (forall i j k, interior (pisize z) (pjsize z) (pksize z) i j k -> cell_ok p i j k) /\
  ~ seam_Ey z (twice (propagate_bc p z w true S)) (isize z)./2 1 0 1 0.
Proof.
exists (p_one 0), z_tri, w_gamma, s_tri; split; first by split=> //; rewrite /bloch /= eqxx.
by split; [move=> i j k _; exact: one_ok | exact: tri_odd].
Qed.

(* a curl of one unit in a cell with mepsilon = 100 *)
Definition s_mol : state R :=
  St nil_arr (one_at 1 1 1 (V3 0 0 1)) nil_arr nil_arr nil_arr.
Lemma mol_im :
  molecular_cell (p_one 100%:R) 1 1 1 /\
  vx (fE (E_cell (p_one 100%:R) s_mol 1 1 1) 1%N 1%N 1%N) = 1 /\
  vx (fE (iE_cell (p_one 100%:R) s_mol 1 1 1) 1%N 1%N 1%N) = 100%:R^-1.
Proof.
have h0 : (100%:R == 0 :> R) = false by rewrite pnatr_eq0.
have h1 : (100%:R == 1000%:R :> R) = false by rewrite eqr_nat.
have h2 : (2%:R != 0 :> R) by rewrite pnatr_eq0.
have h3 : (100%:R != 0 :> R) by rewrite h0.
split; first by [].
rewrite /E_cell /iE_cell /= h0 eqxx h1 /=; split.
  by rewrite !subr0 !divr1 !addr0 !mul0r !subr0 add0r mulr1.
rewrite /metal_e /metal_bm /metal_km /=.
rewrite !mul0r !mulr0 !addr0 !subr0 !mul0r !divr1 !mulr1 ?addr0 ?subr0 ?mulr1 ?mulr0 ?add0r.
by rewrite invfM mulrA divff // mul1r.
Qed.
Lemma mol_im_full : exists (p : par R) (s : state R),
  molecular_cell p 1 1 1 /\ dP p 1%N 1%N 1%N = V3 0 0 0 /\ dP_old p 1%N 1%N 1%N = V3 0 0 0 /\
  vx (fE (E_cell p s 1 1 1) 1%N 1%N 1%N) = 1 /\
  vx (fE (iE_cell p s 1 1 1) 1%N 1%N 1%N) = 100%:R^-1.
Proof. by exists (p_one 100%:R), s_mol; have [? [? ?]] := mol_im. Qed.
End More.
