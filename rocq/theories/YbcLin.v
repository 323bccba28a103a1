(* Proof of the superposition principle for YbcModel, and of the refutations. *)
From mathcomp Require Import all_ssreflect all_algebra.
From Verif Require Import YeeModel YeeSpec YeeProofs YbcModel YbcSpec YbcProg.
Set Implicit Arguments.
Unset Strict Implicit.
Unset Printing Implicit Defensive.
Import GRing.Theory Num.Theory.
Local Open Scope ring_scope.

Section Lin.
Variable R : realFieldType.
Variables (p : par R) (a b : R).

Definition islin (x y u : R) : Prop := u = a * x + b * y.
Lemma lin_add x y u x' y' u' : islin x y u -> islin x' y' u' -> islin (x + x') (y + y') (u + u').
Proof. by rewrite /islin => -> ->; rewrite !mulrDr addrACA. Qed.
Lemma lin_opp x y u : islin x y u -> islin (- x) (- y) (- u).
Proof. by rewrite /islin => ->; rewrite !mulrN opprD. Qed.
Lemma lin_mull k x y u : islin x y u -> islin (k * x) (k * y) (k * u).
Proof. by rewrite /islin => ->; rewrite mulrDr !(mulrCA k). Qed.
Lemma lin_mulr k x y u : islin x y u -> islin (x * k) (y * k) (u * k).
Proof. by rewrite /islin => ->; rewrite mulrDl !mulrA. Qed.
Lemma lin0 : islin 0 0 0.
Proof. by rewrite /islin !mulr0 addr0. Qed.

Ltac lins := repeat first [assumption | apply: lin_opp | apply: lin_mull | apply: lin_mulr
  | apply: lin_add].

Section Cell.
Variables s t u : state R.
Hypothesis h : mixed a b s t u.

Lemma mixE i j k : mixed_v a b (fE s i j k) (fE t i j k) (fE u i j k). Proof. by have [] := h i j k. Qed.
Lemma mixH i j k : mixed_v a b (fH s i j k) (fH t i j k) (fH u i j k). Proof. by have [] := h i j k. Qed.
Lemma mixD i j k : mixed_v a b (fD s i j k) (fD t i j k) (fD u i j k). Proof. by have [] := h i j k. Qed.
Lemma mixB i j k : mixed_v a b (fB s i j k) (fB t i j k) (fB u i j k). Proof. by have [] := h i j k. Qed.
Lemma mixJ i j k : mixed_v a b (fJ s i j k) (fJ t i j k) (fJ u i j k). Proof. by have [] := h i j k. Qed.

Lemma mix_put f g r i j k v w x i' j' k' :
  (forall i j k, mixed_v a b (f i j k) (g i j k) (r i j k)) -> mixed_v a b v w x ->
  mixed_v a b (put f i j k v i' j' k') (put g i j k w i' j' k') (put r i j k x i' j' k').
Proof. by move=> h1 h2; rewrite /put; case: ifP. Qed.

Lemma mix_curlH i j k :
  mixed_v a b (curlH p (fH s) i j k) (curlH p (fH t) i j k) (curlH p (fH u) i j k).
Proof.
have [x1 y1 z1] := mixH i j k; have [x2 y2 z2] := mixH (i - 1) j k.
have [x3 y3 z3] := mixH i (j - 1) k; have [x4 y4 z4] := mixH i j (k - 1).
by split=> /=; lins.
Qed.
Lemma mix_curlE i j k :
  mixed_v a b (curlE p (fE s) i j k) (curlE p (fE t) i j k) (curlE p (fE u) i j k).
Proof.
have [x1 y1 z1] := mixE i j k; have [x2 y2 z2] := mixE i.+1 j k.
have [x3 y3 z3] := mixE i j.+1 k; have [x4 y4 z4] := mixE i j k.+1.
by split=> /=; lins.
Qed.
Lemma mix0 : mixed_v a b (V3 0 0 0) (V3 0 0 0) (V3 0 0 0).
Proof. by split=> /=; exact: lin0. Qed.

Lemma mix_metal i j k e e' e'' c c' c'' q q' q'' : islin e e' e'' -> islin c c' c'' -> islin q q' q'' ->
  islin (metal_e p i j k e c q) (metal_e p i j k e' c' q') (metal_e p i j k e'' c'' q'').
Proof. by move=> *; rewrite /metal_e; lins. Qed.

Definition mixed_a (f g r : arr R) : Prop := forall i j k, mixed_v a b (f i j k) (g i j k) (r i j k).
Lemma mix_setE f g r : mixed_a f g r -> mixed a b (set_E s f) (set_E t g) (set_E u r).
Proof. by move=> hh i j k; split=> //; [exact: mixH|exact: mixD|exact: mixB|exact: mixJ]. Qed.
Lemma mix_setH f g r : mixed_a f g r -> mixed a b (set_H s f) (set_H t g) (set_H u r).
Proof. by move=> hh i j k; split=> //; [exact: mixE|exact: mixD|exact: mixB|exact: mixJ]. Qed.
Lemma mix_setED f g r f' g' r' : mixed_a f g r -> mixed_a f' g' r' ->
  mixed a b (set_ED s f f') (set_ED t g g') (set_ED u r r').
Proof. by move=> h1 h2 i j k; split=> //; [exact: mixH|exact: mixB|exact: mixJ]. Qed.
Lemma mix_setEJ f g r f' g' r' : mixed_a f g r -> mixed_a f' g' r' ->
  mixed a b (set_EJ s f f') (set_EJ t g g') (set_EJ u r r').
Proof. by move=> h1 h2 i j k; split=> //; [exact: mixH|exact: mixD|exact: mixB]. Qed.
Lemma mix_setHB f g r f' g' r' : mixed_a f g r -> mixed_a f' g' r' ->
  mixed a b (set_HB s f f') (set_HB t g g') (set_HB u r r').
Proof. by move=> h1 h2 i j k; split=> //; [exact: mixE|exact: mixD|exact: mixJ]. Qed.

Section At.
Variables i j k : nat.
Lemma mix_normalE : mixed a b (normal_E_field_update p s i j k) (normal_E_field_update p t i j k)
  (normal_E_field_update p u i j k).
Proof.
have [e1 e2 e3] := mixE i j k; have [c1 c2 c3] := mix_curlH i j k.
by apply: mix_setE => i' j' k'; apply: mix_put; [exact: mixE | split; lins].
Qed.
Lemma mix_pcmE : mixed a b (pcm_E_field_update s i j k) (pcm_E_field_update t i j k)
  (pcm_E_field_update u i j k).
Proof. by apply: mix_setE => i' j' k'; apply: mix_put; [exact: mixE | exact: mix0]. Qed.
Lemma mix_metalE : mixed a b (metal_E_field_update p s i j k) (metal_E_field_update p t i j k)
  (metal_E_field_update p u i j k).
Proof.
have [e1 e2 e3] := mixE i j k; have [c1 c2 c3] := mix_curlH i j k; have [q1 q2 q3] := mixJ i j k.
have m1 := mix_metal i j k e1 c1 q1; have m2 := mix_metal i j k e2 c2 q2.
have m3 := mix_metal i j k e3 c3 q3.
by apply: mix_setEJ => i' j' k'; apply: mix_put; [exact: mixE|split|exact: mixJ
  |split; rewrite [vx _]/= [vy _]/= [vz _]/= /metal_j; lins].
Qed.
Lemma mix_pmlE : mixed a b (pml_E_field_update p s i j k) (pml_E_field_update p t i j k)
  (pml_E_field_update p u i j k).
Proof.
have [e1 e2 e3] := mixE i j k; have [c1 c2 c3] := mix_curlH i j k; have [q1 q2 q3] := mixD i j k.
by apply: mix_setED => i' j' k'; apply: mix_put; [exact: mixE|split; lins|exact: mixD|split; lins].
Qed.
Lemma mix_normalH : mixed a b (normal_H_field_update p s i j k) (normal_H_field_update p t i j k)
  (normal_H_field_update p u i j k).
Proof.
have [e1 e2 e3] := mixH i j k; have [c1 c2 c3] := mix_curlE i j k.
by apply: mix_setH => i' j' k'; apply: mix_put; [exact: mixH | split; lins].
Qed.
Lemma mix_pcmH : mixed a b (pcm_H_field_update s i j k) (pcm_H_field_update t i j k)
  (pcm_H_field_update u i j k).
Proof. by apply: mix_setH => i' j' k'; apply: mix_put; [exact: mixH | exact: mix0]. Qed.
Lemma mix_pmlH : mixed a b (pml_H_field_update p s i j k) (pml_H_field_update p t i j k)
  (pml_H_field_update p u i j k).
Proof.
have [e1 e2 e3] := mixH i j k; have [c1 c2 c3] := mix_curlE i j k; have [q1 q2 q3] := mixB i j k.
by apply: mix_setHB => i' j' k'; apply: mix_put; [exact: mixH|split; lins|exact: mixB|split; lins].
Qed.
Lemma mix_iEcell : mixed a b (iE_cell p s i j k) (iE_cell p t i j k) (iE_cell p u i j k).
Proof.
rewrite /iE_cell; case: ifP => _; first exact: mix_normalE.
case: ifP => _; first exact: mix_metalE.
case: ifP => _; first exact: mix_metalE.
case: ifP => _; first exact: mix_pcmE.
by case: ifP => _; [exact: mix_pmlE|].
Qed.
Lemma mix_Hcell : mixed a b (H_cell p s i j k) (H_cell p t i j k) (H_cell p u i j k).
Proof.
rewrite /H_cell; case: ifP => _; first exact: mix_normalH.
case: ifP => _; first exact: mix_normalH.
case: ifP => _; first exact: mix_pcmH.
by case: ifP => _; [exact: mix_pmlH|].
Qed.
End At.
End Cell.

Lemma mix_sweep (f : state R -> nat -> nat -> nat -> state R) cs s t u :
  (forall s t u i j k, mixed a b s t u -> mixed a b (f s i j k) (f t i j k) (f u i j k)) ->
  mixed a b s t u -> mixed a b (sweep f cs s) (sweep f cs t) (sweep f cs u).
Proof.
by move=> hf; elim: cs s t u => [|c cs ih] s t u h //=; apply: ih; exact: hf.
Qed.

(* the assignments of the boundaries *)
Lemma mix_get S T U l : mixed_c a b S T U -> islin (get S l) (get T l) (get U l).
Proof.
case: l => [[[im h] c] [[i j] k]] [h1 h2].
rewrite /get; case: im; [have [+ + _ _ _] := h2 i j k | have [+ + _ _ _] := h1 i j k];
  move=> [x1 y1 z1] [x2 y2 z2]; by case: h; case: c => [[]|].
Qed.
Lemma mix_rhs S T U e : mixed_c a b S T U -> islin (rhs S e) (rhs T e) (rhs U e).
Proof.
move=> h; rewrite /rhs; elim: e => [|x e ih]; first by rewrite !big_nil; exact: lin0.
by rewrite !big_cons; apply: lin_add => //; apply: lin_mull; exact: mix_get.
Qed.
Lemma mix_put1 S T U l x y r : mixed_c a b S T U -> islin x y r ->
  mixed_c a b (put1 S l x) (put1 T l y) (put1 U l r).
Proof.
case: l => [[[im h] c] [[i j] k]] [h1 h2] hx.
have go s t u : mixed a b s t u ->
  mixed a b (put1s s h c i j k x) (put1s t h c i j k y) (put1s u h c i j k r).
  move=> hm; rewrite /put1s /putf; case: h.
    apply: mix_setH => // i' j' k'; apply: mix_put; first exact: (mixH hm).
    by have [p1 p2 p3] := mixH hm i j k; case: c => [[]|]; split.
  apply: mix_setE => // i' j' k'; apply: mix_put; first exact: (mixE hm).
  by have [p1 p2 p3] := mixE hm i j k; case: c => [[]|]; split.
by rewrite /put1; case: im; split=> //; apply: go.
Qed.
Lemma mix_exec prog S T U : mixed_c a b S T U ->
  mixed_c a b (exec prog S) (exec prog T) (exec prog U).
Proof.
elim: prog S T U => [|x prog ih] S T U h //; rewrite !exec_cons; apply: ih.
by apply: mix_put1 => //; exact: mix_rhs.
Qed.

Lemma superposition z w tri S T U :
  (forall i j k, interior (pisize z) (pjsize z) (pksize z) i j k -> mepsilon p i j k <> 100%:R) ->
  mixed_c a b S T U ->
  mixed_c a b (propagate_bc p z w tri S) (propagate_bc p z w tri T) (propagate_bc p z w tri U).
Proof.
move=> hm h; rewrite /propagate_bc; apply: mix_exec.
have hE s t u : mixed a b s t u -> mixed a b (sweep (E_cell p) (grid_cells z) s)
  (sweep (E_cell p) (grid_cells z) t) (sweep (E_cell p) (grid_cells z) u).
  by move=> hh; rewrite /grid_cells -!sweep_no_mol //; apply: mix_sweep => // *; exact: mix_iEcell.
have hiE s t u : mixed a b s t u -> mixed a b (sweep (iE_cell p) (grid_cells z) s)
  (sweep (iE_cell p) (grid_cells z) t) (sweep (iE_cell p) (grid_cells z) u).
  by move=> hh; apply: mix_sweep => // *; exact: mix_iEcell.
have hHh s t u : mixed a b s t u -> mixed a b (sweep (H_cell p) (grid_cells z) s)
  (sweep (H_cell p) (grid_cells z) t) (sweep (H_cell p) (grid_cells z) u).
  by move=> hh; apply: mix_sweep => // *; exact: mix_Hcell.
suff go2 V W X : mixed_c a b V W X ->
  mixed_c a b (H_half p z w V) (H_half p z w W) (H_half p z w X).
  apply: go2; apply: mix_exec; case: h => h1 h2; split; first exact: hE.
  by rewrite /E_half /=; case: ifP => _ //; exact: hiE.
case=> h1 h2; split; first exact: hHh.
by rewrite /H_half /=; case: ifP => _ //; exact: hHh.
Qed.
End Lin.
