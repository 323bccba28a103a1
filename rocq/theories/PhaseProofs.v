(** Proofs about the weight update, force-bias bound and reductions. *)
From Coq Require Import Reals List String Lra Lia Psatz.
From Verif Require Import Base PhaseModel PhaseSpec.
Import ListNotations.
Open Scope R_scope.

Lemma sumsq_nonneg x y : 0 <= x * x + y * y. Proof. nra. Qed.
Lemma cabs_nonneg z : 0 <= cabs z. Proof. apply sqrt_pos. Qed.
Lemma cabs_sq z : cabs z * cabs z = re z * re z + im z * im z.
Proof. unfold cabs. apply sqrt_def, sumsq_nonneg. Qed.
Lemma cabs_scale k z : 0 <= k -> cabs (cscale k z) = k * cabs z.
Proof.
  intros H. unfold cabs, cscale, re, im. simpl.
  replace (k * fst z * (k * fst z) + k * snd z * (k * snd z))
    with (k * k * (fst z * fst z + snd z * snd z)) by ring.
  rewrite sqrt_mult; [|nra|apply sumsq_nonneg]. rewrite sqrt_square; auto.
Qed.
Lemma cabs_lt b z : 0 <= b -> b < cabs z <-> b * b < re z * re z + im z * im z.
Proof. intros H. rewrite <- cabs_sq. pose proof (cabs_nonneg z). split; intros; nra. Qed.

(** ** Force bias *)
Lemma rescale_within b f : cabs f <= b -> rescale1 b f = f.
Proof. intros H. unfold rescale1. destruct (Rlt_dec b (cabs f)); [lra|reflexivity]. Qed.

Lemma rescale_beyond b f : b < cabs f -> 1 / 1000000000000 < cabs f ->
  rescale1 b f = cscale (/ cabs f) f.
Proof.
  intros H1 H2. unfold rescale1. destruct (Rlt_dec b (cabs f)); [|lra].
  destruct (Rlt_dec (1 / 1000000000000) (cabs f)); [reflexivity|lra].
Qed.

Lemma rescale_direction b f : exists k, 0 < k /\ rescale1 b f = cscale k f.
Proof.
  unfold rescale1. assert (E : f = cscale 1 f) by (destruct f; unfold cscale, re, im; simpl; f_equal; ring).
  destruct (Rlt_dec b (cabs f)); [|exists 1; split; [lra|exact E]].
  destruct (Rlt_dec (1 / 1000000000000) (cabs f)); [|exists 1; split; [lra|exact E]].
  exists (/ cabs f). split; [|reflexivity]. apply Rinv_0_lt_compat. lra.
Qed.

Lemma rescale_bounded b f : 1 <= b -> cabs (rescale1 b f) <= b.
Proof.
  intros Hb. destruct (Rle_lt_dec (cabs f) b) as [H|H].
  - rewrite rescale_within; auto.
  - rewrite rescale_beyond by lra. rewrite cabs_scale.
    + rewrite Rinv_l; lra.
    + left. apply Rinv_0_lt_compat. lra.
Qed.

Lemma rescale_half : exists b f, 0 < b /\ b < cabs (rescale1 b f).
Proof.
  exists (/ 2), (1, 0). split; [lra|].
  assert (E : cabs (1, 0) = 1) by (unfold cabs, re, im; simpl; replace (1*1+0*0) with 1 by ring; apply sqrt_1).
  rewrite rescale_beyond; rewrite ?E; try lra.
  rewrite cabs_scale; rewrite ?E; lra.
Qed.

(** The code projects on the disc exactly when the bound is one. *)
Lemma rescale_projection_iff b : 1 / 1000000000000 < b ->
  (forall f, is_projection b (re f) (im f) (re (rescale1 b f)) (im (rescale1 b f))) <-> b = 1.
Proof.
  intros Hb. split.
  - intros H. specialize (H (2 * b, 0)).
    assert (E : cabs (2 * b, 0) = 2 * b).
    { unfold cabs, re, im. simpl. replace (2*b*(2*b)+0*0) with (2*b*(2*b)) by ring.
      apply sqrt_square. lra. }
    destruct H as [_ H]. unfold re at 1 2, im at 1 2 in H. simpl in H.
    destruct H as [H _]; [nra|].
    rewrite <- cabs_sq in H. rewrite rescale_beyond in H by lra.
    rewrite cabs_scale in H by (left; apply Rinv_0_lt_compat; lra).
    rewrite Rinv_l in H by lra. nra.
  - intros -> f. split.
    + intros H. assert (Hc : cabs f <= 1) by (pose proof (cabs_sq f); pose proof (cabs_nonneg f); nra).
      rewrite rescale_within by exact Hc. auto.
    + intros H. assert (Hc : 1 < cabs f) by (apply cabs_lt; lra).
      rewrite rescale_beyond by lra. split.
      * rewrite <- cabs_sq. rewrite cabs_scale by (left; apply Rinv_0_lt_compat; lra).
        rewrite Rinv_l by lra. ring.
      * exists (/ cabs f). split; [apply Rinv_0_lt_compat; lra|]. split; reflexivity.
Qed.

Lemma rescale_count b n fs :
  snd (rescale_fbias b n fs) = n <-> Forall (fun f => cabs f <= b) fs.
Proof.
  unfold rescale_fbias. simpl. induction fs as [|f fs IH]; simpl.
  - rewrite Nat.add_0_r. split; auto.
  - destruct (Rlt_dec b (cabs f)) as [H|H]; simpl.
    + split; [lia|]. intros K. inversion K; subst. lra.
    + rewrite IH. split; intros K; [constructor; [lra|exact K]|inversion K; auto].
Qed.

(** ** Hybrid weights *)
Lemma exp_le a b : a <= b -> exp a <= exp b.
Proof. intros [H| ->]; [left; apply exp_increasing; exact H|right; reflexivity]. Qed.

Lemma factor_range x : 0 <= Rmax 0 (cos x) <= 1.
Proof. split; [apply Rmax_l|]. apply Rmax_lub; [lra|apply COS_bound]. Qed.

Lemma hybrid_nonneg dt eb w i : 0 <= weight w -> 0 <= weight (hybrid_step dt eb w i).
Proof.
  intros H. unfold hybrid_step. cbn [weight]. pose proof (factor_range (hyb_phase i)).
  apply Rmult_le_pos; [exact H|]. apply Rmult_le_pos; [left; apply exp_pos|lra].
Qed.

Lemma ehybrid_range dt eb i : 0 <= eb ->
  eshift i - eb <= ehybrid dt eb i <= eshift i + eb.
Proof.
  intros H. unfold ehybrid. destruct (Req_EM_T _ 0); [lra|].
  unfold clip, Rmin, Rmax. repeat destruct (Rle_dec _ _); lra.
Qed.

Lemma hybrid_bound dt eb w i sprev :
  0 <= dt -> 0 <= eb -> 0 <= weight w -> sprev - eb <= ehyb w ->
  weight (hybrid_step dt eb w i) <= weight w * exp (dt * (eb + / 2 * (eshift i - sprev))).
Proof.
  intros Hd He Hw Hs. unfold hybrid_step. cbn [weight].
  pose proof (ehybrid_range dt eb i He) as [L _]. pose proof (factor_range (hyb_phase i)) as [F1 F2].
  apply Rmult_le_compat_l; [exact Hw|].
  assert (X : exp (- dt * (/ 2 * (ehybrid dt eb i + ehyb w) - eshift i))
              <= exp (dt * (eb + / 2 * (eshift i - sprev)))) by (apply exp_le; nra).
  pose proof (exp_pos (- dt * (/ 2 * (ehybrid dt eb i + ehyb w) - eshift i))). nra.
Qed.

Fixpoint last_shift (s : R) (l : list inputs) : R :=
  match l with [] => s | i :: r => last_shift (eshift i) r end.

Lemma hybrid_run_bound dt eb : 0 <= dt -> 0 <= eb -> forall l w sprev,
  0 <= weight w -> sprev - eb <= ehyb w ->
  0 <= weight (hybrid_run dt eb w l)
    <= weight w * exp (dt * (INR (length l) * eb + / 2 * (last_shift sprev l - sprev))).
Proof.
  intros Hd He. induction l as [|i l IH]; intros w sprev Hw Hs.
  - cbn. rewrite Rmult_0_l, Rminus_eq_0, Rmult_0_r, Rplus_0_r, Rmult_0_r, exp_0. lra.
  - cbn [hybrid_run fold_left]. fold (hybrid_run dt eb (hybrid_step dt eb w i) l).
    assert (Hw' := hybrid_nonneg dt eb w i Hw).
    assert (Hs' : eshift i - eb <= ehyb (hybrid_step dt eb w i)).
    { unfold hybrid_step. cbn [ehyb]. apply ehybrid_range. exact He. }
    destruct (IH _ (eshift i) Hw' Hs') as [A B]. split; [exact A|].
    eapply Rle_trans; [exact B|].
    pose proof (hybrid_bound dt eb w i sprev Hd He Hw Hs) as S1.
    cbn [last_shift]. replace (length (i :: l)) with (S (length l)) by reflexivity.
    rewrite S_INR.
    replace (dt * ((INR (length l) + 1) * eb + / 2 * (last_shift (eshift i) l - sprev)))
      with (dt * (eb + / 2 * (eshift i - sprev))
            + dt * (INR (length l) * eb + / 2 * (last_shift (eshift i) l - eshift i))) by ring.
    rewrite exp_plus, <- Rmult_assoc. apply Rmult_le_compat_r; [left; apply exp_pos|exact S1].
Qed.

Lemma cos_neg_mid x : PI / 2 <= x <= 3 * (PI / 2) -> cos x <= 0.
Proof. intros [A B]. apply cos_le_0; lra. Qed.

Lemma hybrid_phase_kill dt eb w i :
  PI / 2 <= Rabs (im (cfb i)) <= 3 * (PI / 2) -> weight (hybrid_step dt eb w i) = 0.
Proof.
  intros H. unfold hybrid_step. cbn [weight]. unfold hyb_phase. rewrite cos_neg.
  assert (C0 : cos (im (cfb i)) <= 0).
  { unfold Rabs in H. destruct (Rcase_abs (im (cfb i))).
    - rewrite <- cos_neg. apply cos_neg_mid. exact H.
    - apply cos_neg_mid. exact H. }
  rewrite Rmax_left by exact C0. ring.
Qed.

Lemma hybrid_dead dt eb l : forall w, weight w = 0 -> weight (hybrid_run dt eb w l) = 0.
Proof.
  induction l as [|i l IH]; intros w H; [exact H|].
  cbn [hybrid_run fold_left]. apply IH. unfold hybrid_step. cbn [weight]. rewrite H. ring.
Qed.

Lemma rsum_app l1 l2 : rsum (l1 ++ l2) = rsum l1 + rsum l2.
Proof. unfold rsum. induction l1; simpl; [ring|rewrite IHl1; ring]. Qed.

(** the rotated walker survives the hybrid scheme *)
Lemma hybrid_rotated : exists (dt eb : R) (w : walker) (i : inputs),
  0 < dt /\ 0 < eb /\ re (ratio i) < 0 /\ im (ratio i) = 0 /\ cfb i = (0, 0) /\ cmf i = (0, 0) /\
  weight w < weight (hybrid_step dt eb w i).
Proof.
  exists 1, 1, (Walker 1 (-1)), (Inputs (-1, 0) (0, 0) (0, 0) 0).
  repeat split; try (unfold re, im; simpl; lra).
  unfold hybrid_step, hyb_phase, ehybrid. cbn [weight ehyb ratio cfb cmf eshift].
  assert (E : cabs (-1, 0) = 1).
  { unfold cabs, re, im. simpl. replace (-1 * -1 + 0 * 0) with 1 by ring. apply sqrt_1. }
  rewrite E. destruct (Req_EM_T 1 0); [lra|]. rewrite ln_1.
  unfold re, im. simpl. rewrite Ropp_0, cos_0.
  replace (- (0 + 0 + 0) / 1) with 0 by field.
  unfold clip. rewrite Rmax_left by lra. rewrite Rmin_left by lra.
  rewrite Rmax_right by lra. rewrite !Rmult_1_l, !Rmult_1_r.
  replace (-1 * (/ 2 * (0 + -1) - 0)) with (/ 2) by field.
  rewrite <- exp_0 at 1. apply exp_increasing. lra.
Qed.

Lemma local_rotated dt eloc w i :
  cabs (cmulc (ratio i) (cexp (cmf i))) <> 0 ->
  re (cmulc (ratio i) (cexp (cmf i))) <= 0 -> weight (local_step dt eloc w i) = 0.
Proof.
  intros N H. unfold local_step. cbn [weight]. unfold cos_angle.
  destruct (Req_EM_T _ 0); [contradiction|].
  rewrite Rmax_left; [ring|].
  set (z := cmulc _ _) in *. pose proof (cabs_nonneg z).
  unfold Rdiv. assert (0 < / cabs z) by (apply Rinv_0_lt_compat; lra). nra.
Qed.

Lemma local_nonneg dt eloc w i : 0 <= weight w -> 0 <= weight (local_step dt eloc w i).
Proof.
  intros H. unfold local_step. cbn [weight]. apply Rmult_le_pos; [exact H|].
  apply Rmult_le_pos; [left; apply exp_pos|apply Rmax_l].
Qed.

(** ** Options *)
Lemma scheme_default dt eb eloc w i :
  update_weight (scheme_of default_scheme_arg None) dt eb eloc w i = Err ValueError.
Proof. reflexivity. Qed.
Lemma scheme_default_ex : exists dt eb eloc w i, 0 < dt /\ 0 < weight w /\
  update_weight (scheme_of default_scheme_arg None) dt eb eloc w i = Err ValueError.
Proof.
  exists 1, 1, 0, (Walker 1 0), (Inputs (1, 0) (0, 0) (0, 0) 0).
  split; [lra|]. split; [simpl; lra|reflexivity].
Qed.
Lemma scheme_named s u dt eb eloc w i :
  (s = "hybrid" \/ s = "local")%string -> u = None \/ u = Some (Some s) ->
  update_weight (scheme_of (Some s) u) dt eb eloc w i
  = Ok (if String.eqb s "hybrid" then hybrid_step dt eb w i else local_step dt eloc w i).
Proof. intros [-> | ->] [-> | ->]; reflexivity. Qed.
Lemma ehybrid_values dt eb i : 0 <= eb ->
  (ratio i = (0, 0) -> ehybrid dt eb i = eshift i + eb) /\
  (cabs (ratio i) <> 0 ->
   eshift i - eb <= - (ln (cabs (ratio i)) + re (cfb i) + re (cmf i)) / dt <= eshift i + eb ->
   ehybrid dt eb i = - (ln (cabs (ratio i)) + re (cfb i) + re (cmf i)) / dt).
Proof.
  intros He. unfold ehybrid. split.
  - intros ->. destruct (Req_EM_T _ 0) as [|n]; [reflexivity|]. exfalso. apply n.
    unfold cabs, re, im. cbn [fst snd]. rewrite Rmult_0_l, Rplus_0_r. apply sqrt_0.
  - intros N H. destruct (Req_EM_T _ 0); [contradiction|]. unfold clip.
    unfold Rmin, Rmax. destruct H. repeat destruct (Rle_dec _ _); lra.
Qed.

(** ** Reductions *)
Lemma rsum_concat {X} (f : X -> R) ranks :
  rsum (map (fun l => rsum (map f l)) ranks) = total f ranks.
Proof.
  change (total f ranks) with (rsum (map f (concat ranks))).
  induction ranks as [|l r IH]; [reflexivity|].
  cbn [map concat]. rewrite map_app, rsum_app, <- IH. reflexivity.
Qed.

Lemma base_energy ranks r : (r < length ranks)%nat ->
  local_energy ranks r = (total (fun x => ww x * we x) ranks, total ww ranks).
Proof.
  intros H. unfold local_energy, allreduce. destruct (Nat.ltb_spec 1 (length ranks)).
  - f_equal; [exact (rsum_concat (fun x => ww x * we x) ranks)|exact (rsum_concat ww ranks)].
  - destruct ranks as [|l [|? ?]]; simpl in *; try lia.
    destruct r; [|lia]. unfold total. simpl. rewrite app_nil_r. reflexivity.
Qed.

Lemma eb_energy_norm ranks r : (r < length ranks)%nat ->
  snd (local_energy_eb ranks r) = total ww ranks.
Proof. intros H. unfold local_energy_eb. cbn [snd]. rewrite base_energy by exact H. reflexivity. Qed.

Lemma eb_energy_one l :
  fst (local_energy_eb [l] 0) = total (fun x => ww x * (we x + (wb x + wg x))) [l].
Proof. unfold local_energy_eb, dotw, total. simpl. rewrite app_nil_r. reflexivity. Qed.

Lemma eb_energy_two : exists ranks, length ranks = 2%nat /\
  forall r, (r < 2)%nat -> fst (local_energy_eb ranks r)
    <> total (fun x => ww x * (we x + (wb x + wg x))) ranks.
Proof.
  exists [[Wen 1 (-1) 0 0]; [Wen 1 (-1) 0 0]]. split; [reflexivity|]. intros r Hr.
  destruct r as [|[|?]]; try lia; unfold local_energy_eb, dotw, total; simpl; lra.
Qed.

(** P identical ranks: the reported ratio is the true one divided by P. *)
Lemma eb_energy_identical l n r : (r < n)%nat -> rsum (map ww l) <> 0 ->
  let ranks := repeat l n in
  fst (local_energy_eb ranks r) / snd (local_energy_eb ranks r)
  = (total (fun x => ww x * (we x + (wb x + wg x))) ranks / total ww ranks) / INR n.
Proof.
  intros Hr Hn ranks. rewrite eb_energy_norm by (unfold ranks; rewrite repeat_length; exact Hr).
  unfold local_energy_eb. cbn [fst]. unfold ranks.
  assert (N : nth r (repeat l n) [] = l).
  { apply (repeat_spec n l). apply nth_In. rewrite repeat_length. exact Hr. }
  rewrite N.
  assert (T : forall f : wen -> R, total f (repeat l n) = INR n * rsum (map f l)).
  { intros f. rewrite <- rsum_concat. clear. induction n; [simpl; ring|].
    cbn [repeat map]. unfold rsum at 1. cbn [fold_right]. fold (rsum (map (fun l0 => rsum (map f l0)) (repeat l n))).
    rewrite IHn, S_INR. ring. }
  rewrite !T. unfold dotw.
  assert (INR n <> 0) by (apply not_0_INR; lia). field. auto.
Qed.

(** ** Gather *)
Section GatherP.
Context {A E : Type} (zero : E) (f : A -> E).

Lemma upd_app (l1 : list E) y r x : upd (l1 ++ y :: r) (length l1) x = l1 ++ x :: r.
Proof. induction l1; simpl; [reflexivity|rewrite IHl1; reflexivity]. Qed.

Lemma write_block (l : list E) : forall pre mid post, length mid = length l ->
  write (pre ++ mid ++ post) (length pre) l = pre ++ l ++ post.
Proof.
  induction l as [|x l IH]; intros pre mid post H; destruct mid as [|m mid]; try discriminate; [reflexivity|].
  cbn [write]. cbn [app]. rewrite upd_app.
  replace (pre ++ x :: mid ++ post) with ((pre ++ [x]) ++ mid ++ post) by (rewrite <- app_assoc; reflexivity).
  replace (S (length pre)) with (length (pre ++ [x])) by (rewrite app_length; simpl; lia).
  rewrite IH by (simpl in H; lia). rewrite <- app_assoc. reflexivity.
Qed.

Fixpoint offs (o : nat) (ls : list (list E)) : list nat :=
  match ls with [] => [] | l :: r => o :: offs (o + length l)%nat r end.

Lemma displs_offs (ls : list (list E)) : displs_of (map (@length E) ls) = offs 0 ls.
Proof.
  unfold displs_of. rewrite map_length.
  assert (G : forall o pre, list_sum (map (@length E) pre) = o ->
    map (fun i => list_sum (firstn i (map (@length E) (pre ++ ls)))) (seq (length pre) (length ls))
    = offs o ls).
  { induction ls as [|l ls IH]; intros o pre H; [reflexivity|].
    cbn [length seq map offs]. f_equal.
    - rewrite map_app, firstn_app, firstn_all2 by (rewrite map_length; lia).
      rewrite map_length, Nat.sub_diag. cbn. rewrite app_nil_r. exact H.
    - specialize (IH (o + length l)%nat (pre ++ [l])).
      rewrite <- app_assoc in IH. cbn [app] in IH. rewrite app_length in IH. cbn [length] in IH.
      rewrite Nat.add_1_r in IH. apply IH.
      rewrite map_app, list_sum_app, H. cbn. lia. }
  exact (G 0%nat [] eq_refl).
Qed.

Lemma gather_blocks (ls : list (list E)) : forall done,
  fold_left (fun buf dl => write buf (fst dl) (snd dl)) (combine (offs (length done) ls) ls)
    (done ++ repeat zero (list_sum (map (@length E) ls))) = done ++ concat ls.
Proof.
  induction ls as [|l ls IH]; intros done; cbn; [reflexivity|].
  rewrite repeat_app.
  rewrite write_block by apply repeat_length.
  rewrite app_assoc. rewrite <- app_length. rewrite IH. rewrite <- app_assoc. reflexivity.
Qed.

Lemma exx_gather (parts : list (list A)) :
  exx_chunked zero f (length (concat parts)) (displs_of (map (@length A) parts)) parts
  = map f (concat parts).
Proof.
  unfold exx_chunked, gatherv.
  assert (L : map (@length A) parts = map (@length E) (map (map f) parts)).
  { rewrite map_map. apply map_ext. intros. rewrite map_length. reflexivity. }
  assert (N : length (concat parts) = list_sum (map (@length E) (map (map f) parts))).
  { rewrite <- L. clear. induction parts; [reflexivity|]. simpl. rewrite app_length, IHparts. reflexivity. }
  rewrite L, N, displs_offs.
  pose proof (gather_blocks (map (map f) parts) []) as G. cbn [length app] in G. rewrite G.
  symmetry. apply concat_map.
Qed.
End GatherP.

(** a walker orthogonal to the trial keeps a positive weight *)
Lemma hybrid_zero_overlap dt eb w c m s :
  0 < weight w -> 0 < cos (im c) ->
  0 < weight (hybrid_step dt eb w (Inputs (0, 0) c m s)).
Proof.
  intros Hw Hc. unfold hybrid_step, hyb_phase. cbn [weight cfb]. rewrite cos_neg.
  rewrite Rmax_right by lra. apply Rmult_lt_0_compat; [exact Hw|].
  apply Rmult_lt_0_compat; [apply exp_pos|exact Hc].
Qed.
Lemma hybrid_zero_ex : exists dt eb w i, 0 < dt /\ 0 < weight w /\ ratio i = (0, 0) /\
  0 < weight (hybrid_step dt eb w i).
Proof.
  exists 1, 1, (Walker 1 0), (Inputs (0, 0) (0, 0) (0, 0) 0).
  split; [lra|]. split; [simpl; lra|]. split; [reflexivity|].
  apply hybrid_zero_overlap; [simpl; lra|]. unfold im. simpl. rewrite cos_0. lra.
Qed.
Lemma local_zero_ex : exists dt eloc w i, 0 < dt /\ 0 < weight w /\ ratio i = (0, 0) /\
  0 < weight (local_step dt eloc w i).
Proof.
  exists 1, 0, (Walker 1 0), (Inputs (0, 0) (0, 0) (0, 0) 0).
  split; [lra|]. split; [simpl; lra|]. split; [reflexivity|].
  unfold local_step. cbn [weight ratio cmf]. unfold cos_angle.
  assert (E : cabs (cmulc (0, 0) (cexp (0, 0))) = 0).
  { unfold cabs, cmulc, re, im. cbn [fst snd]. rewrite !Rmult_0_l, Rminus_0_r, Rplus_0_r, Rmult_0_l, Rplus_0_r. apply sqrt_0. }
  rewrite E. destruct (Req_EM_T 0 0); [|lra]. rewrite Rmax_right by lra.
  rewrite Rmult_0_r, exp_0. lra.
Qed.

(** examples *)
Lemma ex_hybrid : let i := Inputs (2, 0) (0, PI) (0, 0) 0 in
  PI / 2 <= Rabs (im (cfb i)) <= 3 * (PI / 2) /\ 0 < cabs (ratio i).
Proof.
  cbn [cfb ratio]. unfold im. cbn [snd]. pose proof PI_RGT_0. rewrite Rabs_right by lra.
  split; [lra|]. unfold cabs, re, im. cbn [fst snd]. apply sqrt_lt_R0. lra.
Qed.
Lemma ex_local : let z := cmulc (-1, 0) (cexp (0, 0)) in cabs z <> 0 /\ re z <= 0.
Proof.
  cbn zeta. unfold cmulc, cexp, re, im. cbn [fst snd]. rewrite exp_0, cos_0, sin_0.
  unfold cabs, re, im. cbn [fst snd]. split; [|lra].
  replace (_ + _) with 1 by ring. rewrite sqrt_1. lra.
Qed.
