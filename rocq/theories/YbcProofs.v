(* Proofs for YbcProps. *)
From mathcomp Require Import all_ssreflect all_algebra.
From Verif Require Import YeeModel YeeSpec YeeProofs YbcModel YbcSpec YbcProg.
Set Implicit Arguments.
Unset Strict Implicit.
Unset Printing Implicit Defensive.
Import GRing.Theory Num.Theory Order.TTheory.
Local Open Scope ring_scope.

Section Bloch.
Variable R : realFieldType.
Variables (p : par R) (z : sizes) (w : phases R) (tri : bool).
Local Notation pi := (pisize z).
Local Notation pj := (pjsize z).
Local Notation pk := (pksize z).
Hypothesis hz : periodic_sizes z.
Hypothesis htri : tri -> [/\ use_periodic_x z, use_periodic_y z & ~~ odd (isize z)].

Lemma par_none im : Ez_parity_update R z im = [::] /\ Hz_parity_update R z im = [::].
Proof.
have [_ _ [h1 [h2 h3]]] := hz.
by rewrite /Ez_parity_update /Hz_parity_update h1 h2 h3 /=.
Qed.

Definition EXp : seq (asg R) := if use_periodic_x z then E_periodic_x z w else [::].
Definition EYp : seq (asg R) := if use_periodic_y z then
  (if tri then E_periodic_Ywall z w else E_periodic_y z w) else [::].
Definition HXp : seq (asg R) := if use_periodic_x z then H_periodic_x z w else [::].
Definition HYp : seq (asg R) := if use_periodic_y z then
  (if tri then H_periodic_Ywall z w else H_periodic_y z w) else [::].
Definition EXg : seq (asg R) := if use_periodic_x z then E_Gamma_x R z else [::].
Definition EYg : seq (asg R) := if use_periodic_y z then
  (if tri then E_Gamma_Ywall R z else E_Gamma_y R z) else [::].
Definition HXg : seq (asg R) := if use_periodic_x z then H_Gamma_x R z else [::].
Definition HYg : seq (asg R) := if use_periodic_y z then
  (if tri then H_Gamma_Ywall R z else H_Gamma_y R z) else [::].

Lemma Eb_bloch : bloch w -> E_boundary z w tri = EXp ++ EYp /\ H_boundary z w tri = HXp ++ HYp.
Proof.
move=> hb; rewrite /E_boundary /H_boundary /EXp /EYp /HXp /HYp hb !andbT !andbF /=.
have [-> ->] := par_none false; have [-> ->] := par_none true.
by rewrite !if_same !cats0.
Qed.
Lemma Eb_gamma : ~~ bloch w ->
  E_boundary z w tri = EXg ++ EYg /\ H_boundary z w tri = HXg ++ HYg.
Proof.
move=> /negbTE hb; rewrite /E_boundary /H_boundary /EXg /EYg /HXg /HYg /complex hb !andbT !andbF /=.
have [-> ->] := par_none false.
by rewrite !cats0.
Qed.

Lemma szx : use_periodic_x z -> pi = (isize z).+1 /\ (0 < isize z)%N.
Proof. by case: hz => h _ _; exact: h. Qed.
Lemma szy : use_periodic_y z -> pj = (jsize z).+1 /\ (0 < jsize z)%N.
Proof. by case: hz => _ h _; exact: h. Qed.
Lemma szt : tri -> pi = (isize z).+1.
Proof. by case/htri => h _ _; case: (szx h). Qed.

Lemma EXp_d a : a \in EXp -> on_x z false a.
Proof. rewrite /EXp; case: ifP => // _; exact: Ex_dst. Qed.
Lemma HXp_d a : a \in HXp -> on_x z true a.
Proof. rewrite /HXp; case: ifP => // _; exact: Hx_dst. Qed.
Lemma EXg_d a : a \in EXg -> on_x z false a.
Proof. rewrite /EXg; case: ifP => // _; exact: EGx_dst. Qed.
Lemma HXg_d a : a \in HXg -> on_x z true a.
Proof. rewrite /HXg; case: ifP => // _; exact: HGx_dst. Qed.
Lemma EXp_s a : a \in EXp -> pi = (isize z).+1.
Proof. by rewrite /EXp; case: ifP => // h _; case: (szx h). Qed.
Lemma HXp_s a : a \in HXp -> pi = (isize z).+1.
Proof. by rewrite /HXp; case: ifP => // h _; case: (szx h). Qed.
Lemma EXg_s a : a \in EXg -> pi = (isize z).+1.
Proof. by rewrite /EXg; case: ifP => // h _; case: (szx h). Qed.
Lemma HXg_s a : a \in HXg -> pi = (isize z).+1.
Proof. by rewrite /HXg; case: ifP => // h _; case: (szx h). Qed.
Lemma EYp_s a : a \in EYp -> pj = (jsize z).+1.
Proof. by rewrite /EYp; case: ifP => // h _; case: (szy h). Qed.
Lemma HYp_s a : a \in HYp -> pj = (jsize z).+1.
Proof. by rewrite /HYp; case: ifP => // h _; case: (szy h). Qed.
Lemma EYg_s a : a \in EYg -> pj = (jsize z).+1.
Proof. by rewrite /EYg; case: ifP => // h _; case: (szy h). Qed.
Lemma HYg_s a : a \in HYg -> pj = (jsize z).+1.
Proof. by rewrite /HYg; case: ifP => // h _; case: (szy h). Qed.
Lemma EYp_d a : a \in EYp -> on_y z false a.
Proof.
rewrite /EYp; case: ifP => // _; case: ifP => h; last exact: Ey_dst.
exact: (Ewall_dst (szt h)).
Qed.
Lemma HYp_d a : a \in HYp -> on_y z true a.
Proof.
rewrite /HYp; case: ifP => // _; case: ifP => h; last exact: Hy_dst.
exact: (Hwall_dst (szt h)).
Qed.
Lemma EYg_d a : a \in EYg -> on_y z false a.
Proof.
rewrite /EYg; case: ifP => // _; case: ifP => h; last exact: EGy_dst.
exact: (EGwall_dst w (szt h)).
Qed.
Lemma HYg_d a : a \in HYg -> on_y z true a.
Proof.
rewrite /HYg; case: ifP => // _; case: ifP => h; last exact: HGy_dst.
exact: (HGwall_dst w (szt h)).
Qed.
Lemma EXp_f : functional EXp.
Proof. rewrite /EXp; case: ifP => // _; exact: Ex_fun. Qed.
Lemma HXp_f : functional HXp.
Proof. rewrite /HXp; case: ifP => // _; exact: Hx_fun. Qed.
Lemma EXg_f : functional EXg.
Proof. rewrite /EXg; case: ifP => // _; exact: EGx_fun. Qed.
Lemma HXg_f : functional HXg.
Proof. rewrite /HXg; case: ifP => // _; exact: HGx_fun. Qed.
Lemma EYp_f : functional EYp.
Proof.
rewrite /EYp; case: ifP => // _; case: ifP => h; last exact: Ey_fun.
by have [_ _ ho] := htri h; apply: (Ewall_fun (szt h)).
Qed.
Lemma HYp_f : functional HYp.
Proof.
rewrite /HYp; case: ifP => // _; case: ifP => h; last exact: Hy_fun.
by have [_ _ ho] := htri h; apply: (Hwall_fun (szt h)).
Qed.
Lemma EYg_f : functional EYg.
Proof.
rewrite /EYg; case: ifP => // _; case: ifP => h; last exact: EGy_fun.
by have [_ _ ho] := htri h; apply: (EGwall_fun w (szt h)).
Qed.
Lemma HYg_f : functional HYg.
Proof.
rewrite /HYg; case: ifP => // _; case: ifP => h; last exact: HGy_fun.
by have [_ _ ho] := htri h; apply: (HGwall_fun w (szt h)).
Qed.

Definition EPv := bnd_val EXp_d EYp_d EXp_s EYp_s EXp_f EYp_f.
Definition HPv := bnd_val HXp_d HYp_d HXp_s HYp_s HXp_f HYp_f.
Definition EGv := bnd_val EXg_d EYg_d EXg_s EYg_s EXg_f EYg_f.
Definition HGv := bnd_val HXg_d HYg_d HXg_s HYg_s HXg_f HYg_f.
Definition EPk := bnd_keep EXp_d EYp_d EXp_s EYp_s.
Definition HPk := bnd_keep HXp_d HYp_d HXp_s HYp_s.
Definition EGk := bnd_keep EXg_d EYg_d EXg_s EYg_s.
Definition HGk := bnd_keep HXg_d HYg_d HXg_s HYg_s.

(* members of the programs *)
Lemma in_x1 (a : asg R) j k body : (1 <= j < pj)%N -> (1 <= k < pk)%N -> a \in body j k ->
  a \in loop2 pj pk body.
Proof. by move=> h1 h2 h; apply/mem_loop2; exists j, k. Qed.
Lemma in_y1 (a : asg R) j k body : (1 <= j < pi)%N -> (1 <= k < pk)%N -> a \in body j k ->
  a \in loop2 pi pk body.
Proof. by move=> h1 h2 h; apply/mem_loop2; exists j, k. Qed.

Lemma inner_x1 im h c j k : use_periodic_x z -> (1 <= j < pj)%N -> (1 <= k < pk)%N ->
  inner z (im, h, c, (1%N, j, k)) /\ inner z (im, h, c, (isize z, j, k)).
Proof.
move=> hx hj hk; have [e h0] := szx hx; rewrite /inner /= e; split; split=> //.
by rewrite h0 ltnS leqnn.
Qed.
Lemma inner_y1 im h c i k : use_periodic_y z -> (1 <= i < pi)%N -> (1 <= k < pk)%N ->
  inner z (im, h, c, (i, 1%N, k)) /\ inner z (im, h, c, (i, jsize z, k)).
Proof.
move=> hx hj hk; have [e h0] := szy hx; rewrite /inner /= e; split; split=> //; split=> //.
by rewrite h0 ltnS leqnn.
Qed.

Lemma get_cmp (S : cst R) im i j k :
  [/\ cx (fE (part im S)) i j k = get S (Eat im Lx i j k),
      cy (fE (part im S)) i j k = get S (Eat im Ly i j k) &
      cz (fE (part im S)) i j k = get S (Eat im Lz i j k)] /\
  [/\ cx (fH (part im S)) i j k = get S (Hat im Lx i j k),
      cy (fH (part im S)) i j k = get S (Hat im Ly i j k) &
      cz (fH (part im S)) i j k = get S (Hat im Lz i j k)].
Proof. by case: im. Qed.

Ltac src := move=> t; rewrite !inE => /orP [] /eqP -> /=.
Ltac here := rewrite /forw_re /forw_im /back_re /back_im ?addn1 !in_cons !eqxx ?orbT.

Lemma seamEx S : use_periodic_x z ->
  seam_Ex z (exec (EXp ++ EYp) S) (cos_x w) (sin_x w).
Proof.
move=> hx j k hj hk cmp hc.
have I im c := inner_x1 im false c hx hj hk.
have main c : (c = Ly \/ c = Lz) ->
  turned (cos_x w) (sin_x w) (get (exec (EXp ++ EYp) S) (Eat false c 1 j k))
    (get (exec (EXp ++ EYp) S) (Eat true c 1 j k))
    (get (exec (EXp ++ EYp) S) (Eat false c (isize z).+1 j k))
    (get (exec (EXp ++ EYp) S) (Eat true c (isize z).+1 j k)).
  move=> hcc; rewrite !(EPk _ (proj1 (I _ _))).
  rewrite (@EPv _ _ [:: (cos_x w, Eat false c 1 j k); (- sin_x w, Eat true c 1 j k)]).
  - rewrite (@EPv _ _ [:: (sin_x w, Eat false c 1 j k); (cos_x w, Eat true c 1 j k)]).
    + by rewrite !rhs2 /turned mulNr.
    + rewrite mem_cat /EXp hx; apply/orP; left; apply/mem_loop2; exists j, k; split=> //.
      by case: hcc => ->; here.
    + by src; have [] := I false c; have [] := I true c.
  - rewrite mem_cat /EXp hx; apply/orP; left; apply/mem_loop2; exists j, k; split=> //.
    by case: hcc => ->; here.
  - by src; have [] := I false c; have [] := I true c.
by case: hc => ->; [apply: (main Ly); left | apply: (main Lz); right].
Qed.

Lemma back_turned (c s u v : R) : unit_phase c s ->
  turned c s (c * u + s * v) (- s * u + c * v) u v.
Proof.
rewrite /unit_phase => h; split.
  rewrite mulrDr [s * (_ + _)]mulrDr opprD mulNr mulrN opprK.
  rewrite addrACA !mulrA -mulrDl -!expr2 h mul1r [s * c]mulrC subrr.
  by rewrite addr0.
rewrite !mulrDr !mulrA addrACA mulrN [c * s]mulrC mulNr subrr add0r.
by rewrite -mulrDl -!expr2 addrC h mul1r.
Qed.

Lemma seamHx S : use_periodic_x z -> unit_phase (cos_x w) (sin_x w) ->
  seam_Hx z (exec (HXp ++ HYp) S) (cos_x w) (sin_x w).
Proof.
move=> hx hu j k hj hk cmp hc.
have I im c := inner_x1 im true c hx hj hk.
have main c : (c = Ly \/ c = Lz) ->
  turned (cos_x w) (sin_x w) (get (exec (HXp ++ HYp) S) (Hat false c 0 j k))
    (get (exec (HXp ++ HYp) S) (Hat true c 0 j k))
    (get (exec (HXp ++ HYp) S) (Hat false c (isize z) j k))
    (get (exec (HXp ++ HYp) S) (Hat true c (isize z) j k)).
  move=> hcc; rewrite !(HPk _ (proj2 (I _ _))).
  rewrite (@HPv _ _ [:: (cos_x w, Hat false c (isize z) j k); (sin_x w, Hat true c (isize z) j k)]).
  - rewrite (@HPv _ _ [:: (- sin_x w, Hat false c (isize z) j k); (cos_x w, Hat true c (isize z) j k)]).
    + by rewrite !rhs2; exact: back_turned.
    + rewrite mem_cat /HXp hx; apply/orP; left; apply/mem_loop2; exists j, k; split=> //.
      by case: hcc => ->; here.
    + by src; have [] := I false c; have [] := I true c.
  - rewrite mem_cat /HXp hx; apply/orP; left; apply/mem_loop2; exists j, k; split=> //.
    by case: hcc => ->; here.
  - by src; have [] := I false c; have [] := I true c.
by case: hc => ->; [apply: (main Ly); left | apply: (main Lz); right].
Qed.

Lemma seamEy1 S c s i f k cmp : use_periodic_y z -> (1 <= i < pi)%N -> (1 <= k < pk)%N ->
  (forall a, a \in E_Ywall_body z c s i f k -> a \in EYp) ->
  cmp = @cx R \/ cmp = @cz R ->
  let T := exec (EXp ++ EYp) S in
  turned c s (cmp (fE (cre T)) i 1%N k) (cmp (fE (cim T)) i 1%N k)
    (cmp (fE (cre T)) f (jsize z).+1 k) (cmp (fE (cim T)) f (jsize z).+1 k).
Proof.
move=> hy hi hk hm hc /=.
have I im c := inner_y1 im false c hy hi hk.
have main d : (d = Lx \/ d = Lz) ->
  turned c s (get (exec (EXp ++ EYp) S) (Eat false d i 1 k))
    (get (exec (EXp ++ EYp) S) (Eat true d i 1 k))
    (get (exec (EXp ++ EYp) S) (Eat false d f (jsize z).+1 k))
    (get (exec (EXp ++ EYp) S) (Eat true d f (jsize z).+1 k)).
  move=> hd; rewrite !(EPk _ (proj1 (I _ _))).
  rewrite (@EPv _ _ [:: (c, Eat false d i 1 k); (- s, Eat true d i 1 k)]).
  - rewrite (@EPv _ _ [:: (s, Eat false d i 1 k); (c, Eat true d i 1 k)]).
    + by rewrite !rhs2 /turned mulNr.
    + rewrite mem_cat; apply/orP; right; apply: hm; rewrite /E_Ywall_body.
      by case: hd => ->; here.
    + by src; have [] := I false d; have [] := I true d.
  - rewrite mem_cat; apply/orP; right; apply: hm; rewrite /E_Ywall_body.
    by case: hd => ->; here.
  - by src; have [] := I false d; have [] := I true d.
by case: hc => ->; [apply: (main Lx); left | apply: (main Lz); right].
Qed.
Lemma seamHy1 S c s i f k cmp : use_periodic_y z -> (1 <= f < pi)%N -> (1 <= k < pk)%N ->
  (forall a, a \in H_Ywall_body z c s i f k -> a \in HYp) -> unit_phase c s ->
  cmp = @cx R \/ cmp = @cz R ->
  let T := exec (HXp ++ HYp) S in
  turned c s (cmp (fH (cre T)) i 0%N k) (cmp (fH (cim T)) i 0%N k)
    (cmp (fH (cre T)) f (jsize z) k) (cmp (fH (cim T)) f (jsize z) k).
Proof.
move=> hy hi hk hm hu hc /=.
have I im c := inner_y1 im true c hy hi hk.
have main d : (d = Lx \/ d = Lz) ->
  turned c s (get (exec (HXp ++ HYp) S) (Hat false d i 0 k))
    (get (exec (HXp ++ HYp) S) (Hat true d i 0 k))
    (get (exec (HXp ++ HYp) S) (Hat false d f (jsize z) k))
    (get (exec (HXp ++ HYp) S) (Hat true d f (jsize z) k)).
  move=> hd; rewrite !(HPk _ (proj2 (I _ _))).
  rewrite (@HPv _ _ [:: (c, Hat false d f (jsize z) k); (s, Hat true d f (jsize z) k)]).
  - rewrite (@HPv _ _ [:: (- s, Hat false d f (jsize z) k); (c, Hat true d f (jsize z) k)]).
    + by rewrite !rhs2; exact: back_turned.
    + rewrite mem_cat; apply/orP; right; apply: hm; rewrite /H_Ywall_body.
      by case: hd => ->; here.
    + by src; have [] := I false d; have [] := I true d.
  - rewrite mem_cat; apply/orP; right; apply: hm; rewrite /H_Ywall_body.
    by case: hd => ->; here.
  - by src; have [] := I false d; have [] := I true d.
by case: hc => ->; [apply: (main Lx); left | apply: (main Lz); right].
Qed.

(* the phases and the displacement of the y boundary *)
Lemma wall_used i : tri -> (1 <= i < pi)%N ->
  if (i + Uxh z < pi)%N then used z w i (i + Uxh z)%N (cos_1 w) (sin_1 w)
  else used z w i (i + Uxh z - isize z)%N (cos_2 w) (sin_2 w).
Proof.
move=> ht /andP [h1 h2]; case: ifP => h.
  by apply: used_low; split=> //; rewrite h1 ltn_subRL addnC.
apply: used_upp; split; first by rewrite h2 andbT leq_subLR addnC leqNgt h.
by have [_ _ ho] := htri ht; rewrite -(U_even ho) subnDr.
Qed.

Lemma seamEy S : use_periodic_y z ->
  seam_Ey z (exec (EXp ++ EYp) S) (yshift z tri) (ycos w tri) (ysin w tri) (ycos2 w tri) (ysin2 w tri).
Proof.
move=> hy i k hi hk cmp hc; rewrite /yshift -/(Uxh z) /ycos /ysin /ycos2 /ysin2.
case: (boolP tri) => [ht|/negbTE ht].
  have := wall_used ht hi; case: ifP => _ hu; apply: seamEy1 => // a ha;
  rewrite /EYp hy ht; apply/mem_wall; by do 5 eexists; split; eauto.
rewrite addn0; case/andP: (hi) => _ ->; apply: seamEy1 => // a ha.
by rewrite /EYp hy ht; apply/mem_loop2; exists i, k.
Qed.
Lemma seamHy S : use_periodic_y z -> phases_ok w ->
  seam_Hy z (exec (HXp ++ HYp) S) (yshift z tri) (ycos w tri) (ysin w tri) (ycos2 w tri) (ysin2 w tri).
Proof.
move=> hy [u1 u2 u3 u4] i k hi hk cmp hc; rewrite /yshift -/(Uxh z) /ycos /ysin /ycos2 /ysin2.
case: (boolP tri) => [ht|/negbTE ht].
  have := wall_used ht hi; case: ifP => _ hu;
  have [_ hf] := used_rng (szt ht) hu; apply: seamHy1 => // a ha;
  rewrite /HYp hy ht; apply/mem_wall; by do 5 eexists; split; eauto.
rewrite addn0; case/andP: (hi) => _ ->; apply: seamHy1 => // a ha.
by rewrite /HYp hy ht; apply/mem_loop2; exists i, k.
Qed.

(* the step *)
Hypothesis hok : forall i j k, interior pi pj pk i j k -> cell_ok p i j k.

Lemma fE_final EB HB S im : (forall a : asg R, a \in HB -> a.1.1.1.2 = true) ->
  fE (part im (exec HB (H_half p z w (exec EB (E_half p z w S))))) =
  fE (part im (exec EB (E_half p z w S))).
Proof.
move=> eH; set S2 := exec EB _.
have [h3 _ _ _] := exec_keeps (H_half p z w S2) eH im.
have [aE _ _] := halfH_keeps p z w S2 im.
by rewrite -!/(part im _) in h3 aE; rewrite h3.
Qed.

Lemma bloch_step S : bloch w -> phases_ok w ->
  (use_periodic_x z || use_periodic_y z) ->
  (forall i j k, interior pi pj pk i j k -> mepsilon p i j k <> 100%:R) ->
  let T := propagate_bc p z w tri S in
  (use_periodic_x z -> seam_Ex z T (cos_x w) (sin_x w) /\ seam_Hx z T (cos_x w) (sin_x w)) /\
  (use_periodic_y z -> seam_Ey z T (yshift z tri) (ycos w tri) (ysin w tri) (ycos2 w tri) (ysin2 w tri) /\
                       seam_Hy z T (yshift z tri) (ycos w tri) (ysin w tri) (ycos2 w tri) (ysin2 w tri)) /\
  forall i j k, interior pi pj pk i j k ->
    laws p (cre S) (cre T) i j k /\ laws p (cim S) (cim T) i j k.
Proof.
move=> hb hp hu hm T.
have [eE eH] := Eb_bloch hb.
have kH : forall a : asg R, a \in HXp ++ HYp -> a.1.1.1.2 = true.
  by move=> a; apply: (bnd_array HXp_d HYp_d).
have kE : forall a : asg R, a \in EXp ++ EYp -> a.1.1.1.2 = false.
  by move=> a; apply: (bnd_array EXp_d EYp_d).
have fin im : fE (part im T) = fE (part im (exec (EXp ++ EYp) (E_half p z w S))).
  by rewrite /T /propagate_bc eE eH; exact: fE_final.
have f0 := fin false; have f1 := fin true; rewrite /part in f0 f1.
split=> [hx|].
  split; first by rewrite /seam_Ex f0 f1; exact: seamEx.
  by rewrite /T /propagate_bc eE eH; apply: seamHx; case: hp.
split=> [hy|].
  split; first by rewrite /seam_Ey f0 f1; exact: seamEy.
  by rewrite /T /propagate_bc eE eH; apply: seamHy.
move=> i j k h; rewrite /T /propagate_bc eE eH.
have cw : complex z w by rewrite /complex hu hb.
by split; [apply: (@step_laws R p z w _ _ kE kH (fun _ _ _ => True) (fun S l h _ => EPk S h) (fun S l h _ => HPk S h) hok false)
          |apply: (@step_laws R p z w _ _ kE kH (fun _ _ _ => True) (fun S l h _ => EPk S h) (fun S l h _ => HPk S h) hok true)].
Qed.

(* zero wave vector: the real fields alone *)
Lemma turned10 (u u' : R) : u' = u -> turned 1 0 u u u' u'.
Proof. by move=> ->; split; rewrite mul1r mul0r ?subr0 ?add0r. Qed.
Ltac src1 := move=> t; rewrite !inE => /eqP -> /=.
Ltac here1 := rewrite /copy ?addn1 !in_cons !eqxx ?orbT.
Lemma gseamEx S : use_periodic_x z -> seam_Ex z (twice (exec (EXg ++ EYg) S)) 1 0.
Proof.
move=> hx j k hj hk cmp hc; have I c := inner_x1 false false c hx hj hk.
have main c : (c = Ly \/ c = Lz) ->
  get (exec (EXg ++ EYg) S) (Eat false c (isize z).+1 j k) =
  get (exec (EXg ++ EYg) S) (Eat false c 1 j k).
  move=> hcc; rewrite (EGk _ (proj1 (I _))).
  rewrite (@EGv _ _ [:: (1, Eat false c 1 j k)]); first by rewrite rhs1 mul1r.
  - rewrite mem_cat /EXg hx; apply/orP; left; apply/mem_loop2; exists j, k; split=> //.
    by case: hcc => ->; here1.
  - by src1; have [] := I c.
by apply: turned10; case: hc => ->; [apply: (main Ly); left | apply: (main Lz); right].
Qed.
Lemma gseamHx S : use_periodic_x z -> seam_Hx z (twice (exec (HXg ++ HYg) S)) 1 0.
Proof.
move=> hx j k hj hk cmp hc; have I c := inner_x1 false true c hx hj hk.
have main c : (c = Ly \/ c = Lz) ->
  get (exec (HXg ++ HYg) S) (Hat false c (isize z) j k) =
  get (exec (HXg ++ HYg) S) (Hat false c 0 j k).
  move=> hcc; rewrite (HGk _ (proj2 (I _))).
  rewrite (@HGv _ (Hat false c 0 j k) [:: (1, Hat false c (isize z) j k)]);
    first by rewrite rhs1 mul1r.
  - rewrite mem_cat /HXg hx; apply/orP; left; apply/mem_loop2; exists j, k; split=> //.
    by case: hcc => ->; here1.
  - by src1; have [] := I c.
by apply: turned10; case: hc => ->; [apply: (main Ly); left | apply: (main Lz); right].
Qed.
Lemma gseamEy1 S i f k cmp : use_periodic_y z -> (1 <= i < pi)%N -> (1 <= k < pk)%N ->
  (forall a, a \in E_GYwall_body R z i f k -> a \in EYg) ->
  cmp = @cx R \/ cmp = @cz R ->
  let T := exec (EXg ++ EYg) S in
  cmp (fE (cre T)) f (jsize z).+1 k = cmp (fE (cre T)) i 1%N k.
Proof.
move=> hy hi hk hm hc /=; have I c := inner_y1 false false c hy hi hk.
have main d : (d = Lx \/ d = Lz) ->
  get (exec (EXg ++ EYg) S) (Eat false d f (jsize z).+1 k) =
  get (exec (EXg ++ EYg) S) (Eat false d i 1 k).
  move=> hd; rewrite (EGk _ (proj1 (I _))).
  rewrite (@EGv _ _ [:: (1, Eat false d i 1 k)]); first by rewrite rhs1 mul1r.
  - rewrite mem_cat; apply/orP; right; apply: hm; rewrite /E_GYwall_body.
    by case: hd => ->; here1.
  - by src1; have [] := I d.
by case: hc => ->; [apply: (main Lx); left | apply: (main Lz); right].
Qed.
Lemma gseamHy1 S i f k cmp : use_periodic_y z -> (1 <= f < pi)%N -> (1 <= k < pk)%N ->
  (forall a, a \in H_GYwall_body R z i f k -> a \in HYg) ->
  cmp = @cx R \/ cmp = @cz R ->
  let T := exec (HXg ++ HYg) S in
  cmp (fH (cre T)) f (jsize z) k = cmp (fH (cre T)) i 0%N k.
Proof.
move=> hy hi hk hm hc /=; have I c := inner_y1 false true c hy hi hk.
have main d : (d = Lx \/ d = Lz) ->
  get (exec (HXg ++ HYg) S) (Hat false d f (jsize z) k) =
  get (exec (HXg ++ HYg) S) (Hat false d i 0 k).
  move=> hd; rewrite (HGk _ (proj2 (I _))).
  rewrite (@HGv _ (Hat false d i 0 k) [:: (1, Hat false d f (jsize z) k)]);
    first by rewrite rhs1 mul1r.
  - rewrite mem_cat; apply/orP; right; apply: hm; rewrite /H_GYwall_body.
    by case: hd => ->; here1.
  - by src1; have [] := I d.
by case: hc => ->; [apply: (main Lx); left | apply: (main Lz); right].
Qed.
Lemma gseamEy S : use_periodic_y z -> seam_Ey z (twice (exec (EXg ++ EYg) S)) (yshift z tri) 1 0 1 0.
Proof.
move=> hy i k hi hk cmp hc; rewrite /yshift -/(Uxh z).
case: (boolP tri) => [ht|/negbTE ht].
  have := wall_used ht hi; case: ifP => _ hu; apply: turned10; apply: gseamEy1 => // a ha;
  rewrite /EYg hy ht; apply: (proj2 (@mem_wall R z w (fun _ _ => @E_GYwall_body R z) a));
  by do 5 eexists; split; eauto.
rewrite addn0; case/andP: (hi) => _ ->; apply: turned10; apply: gseamEy1 => // a ha.
by rewrite /EYg hy ht; apply/mem_loop2; exists i, k.
Qed.
Lemma gseamHy S : use_periodic_y z -> seam_Hy z (twice (exec (HXg ++ HYg) S)) (yshift z tri) 1 0 1 0.
Proof.
move=> hy i k hi hk cmp hc; rewrite /yshift -/(Uxh z).
case: (boolP tri) => [ht|/negbTE ht].
  have := wall_used ht hi; case: ifP => _ hu; have [_ hf] := used_rng (szt ht) hu;
  apply: turned10; apply: gseamHy1 => // a ha;
  rewrite /HYg hy ht; apply: (proj2 (@mem_wall R z w (fun _ _ => @H_GYwall_body R z) a));
  by do 5 eexists; split; eauto.
rewrite addn0; case/andP: (hi) => _ ->; apply: turned10; apply: gseamHy1 => // a ha.
by rewrite /HYg hy ht; apply/mem_loop2; exists i, k.
Qed.

Lemma gamma_step S : ~~ bloch w ->
  let T := propagate_bc p z w tri S in
  (use_periodic_x z -> seam_Ex z (twice T) 1 0 /\ seam_Hx z (twice T) 1 0) /\
  (use_periodic_y z -> seam_Ey z (twice T) (yshift z tri) 1 0 1 0 /\
                       seam_Hy z (twice T) (yshift z tri) 1 0 1 0) /\
  forall i j k, interior pi pj pk i j k -> laws p (cre S) (cre T) i j k.
Proof.
move=> hb T.
have [eE eH] := Eb_gamma hb.
have kH : forall a : asg R, a \in HXg ++ HYg -> a.1.1.1.2 = true.
  by move=> a; apply: (bnd_array HXg_d HYg_d).
have kE : forall a : asg R, a \in EXg ++ EYg -> a.1.1.1.2 = false.
  by move=> a; apply: (bnd_array EXg_d EYg_d).
have fin : fE (part false T) = fE (part false (exec (EXg ++ EYg) (E_half p z w S))).
  by rewrite /T /propagate_bc eE eH; exact: fE_final.
rewrite /part in fin.
split=> [hx|].
  split; first by rewrite /seam_Ex /= fin; exact: (gseamEx (E_half p z w S)).
  by rewrite /T /propagate_bc eE eH; apply: gseamHx.
split=> [hy|].
  split; first by rewrite /seam_Ey /= fin; exact: (gseamEy (E_half p z w S)).
  by rewrite /T /propagate_bc eE eH; apply: gseamHy.
move=> i j k h; rewrite /T /propagate_bc eE eH.
by apply: (@step_laws R p z w _ _ kE kH (fun _ _ _ => True) (fun S l h _ => EGk S h) (fun S l h _ => HGk S h) hok false).
Qed.
End Bloch.
