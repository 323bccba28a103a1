(** Proofs about the monitors. *)
From Coq Require Import Reals ZArith List Bool Lra Lia Permutation.
From Verif Require Import MonModel MonSpec.
Import ListNotations.
Local Open Scope R_scope.

(** ** Mirror planes *)
Ltac zeq := repeat first [reflexivity | lia | f_equal].
Lemma node_x par c F kd a i j k : sym_x par c F ->
  node F kd a (2 * c - i) j k = sgn par (half_step kd a AX) * node F kd a i j k.
Proof.
  intro h. assert (hh : forall kd a i j k, F kd a i j k = F kd a i j k) by reflexivity.
  assert (ht : forall kd a, half_step kd a AX = true -> forall i j k, F kd a (2 * c - i)%Z j k = IZR par * F kd a (i - 1)%Z j k).
  { intros kd' a' e i' j' k'. specialize (h kd' a' (i' - 1)%Z j' k'). rewrite e in h. unfold reflect, sgn in h.
    rewrite <- h. f_equal; lia. }
  assert (ht1 : forall kd a, half_step kd a AX = true -> forall i j k, F kd a (2 * c - i - 1)%Z j k = IZR par * F kd a i j k).
  { intros kd' a' e i' j' k'. specialize (h kd' a' i' j' k'). rewrite e in h. unfold reflect, sgn in h.
    rewrite <- h. f_equal; lia. }
  assert (hf : forall kd a, half_step kd a AX = false -> forall i j k, F kd a (2 * c - i)%Z j k = - IZR par * F kd a i j k).
  { intros kd' a' e i' j' k'. specialize (h kd' a' i' j' k'). rewrite e in h. unfold reflect, sgn in h. exact h. }
  destruct kd, a; cbn [node half_step axis_eqb negb sgn];
  rewrite ?ht1, ?ht, ?hf by reflexivity; unfold Rdiv; ring.
Qed.
Lemma node_y par c F kd a i j k : sym_y par c F ->
  node F kd a i (2 * c - j) k = sgn par (half_step kd a AY) * node F kd a i j k.
Proof.
  intro h.
  assert (ht : forall kd a, half_step kd a AY = true -> forall i j k, F kd a i (2 * c - j)%Z k = IZR par * F kd a i (j - 1)%Z k).
  { intros kd' a' e i' j' k'. specialize (h kd' a' i' (j' - 1)%Z k'). rewrite e in h. unfold reflect, sgn in h.
    rewrite <- h. f_equal; lia. }
  assert (ht1 : forall kd a, half_step kd a AY = true -> forall i j k, F kd a i (2 * c - j - 1)%Z k = IZR par * F kd a i j k).
  { intros kd' a' e i' j' k'. specialize (h kd' a' i' j' k'). rewrite e in h. unfold reflect, sgn in h.
    rewrite <- h. f_equal; lia. }
  assert (hf : forall kd a, half_step kd a AY = false -> forall i j k, F kd a i (2 * c - j)%Z k = - IZR par * F kd a i j k).
  { intros kd' a' e i' j' k'. specialize (h kd' a' i' j' k'). rewrite e in h. unfold reflect, sgn in h. exact h. }
  destruct kd, a; cbn [node half_step axis_eqb negb sgn];
  rewrite ?ht1, ?ht, ?hf by reflexivity; unfold Rdiv; ring.
Qed.
Lemma node_z par c F kd a i j k : sym_z par c F ->
  node F kd a i j (2 * c - k) = sgn par (half_step kd a AZ) * node F kd a i j k.
Proof.
  intro h.
  assert (ht : forall kd a, half_step kd a AZ = true -> forall i j k, F kd a i j (2 * c - k)%Z = IZR par * F kd a i j (k - 1)%Z).
  { intros kd' a' e i' j' k'. specialize (h kd' a' i' j' (k' - 1)%Z). rewrite e in h. unfold reflect, sgn in h.
    rewrite <- h. f_equal; lia. }
  assert (ht1 : forall kd a, half_step kd a AZ = true -> forall i j k, F kd a i j (2 * c - k - 1)%Z = IZR par * F kd a i j k).
  { intros kd' a' e i' j' k'. specialize (h kd' a' i' j' k'). rewrite e in h. unfold reflect, sgn in h.
    rewrite <- h. f_equal; lia. }
  assert (hf : forall kd a, half_step kd a AZ = false -> forall i j k, F kd a i j (2 * c - k)%Z = - IZR par * F kd a i j k).
  { intros kd' a' e i' j' k'. specialize (h kd' a' i' j' k'). rewrite e in h. unfold reflect, sgn in h. exact h. }
  destruct kd, a; cbn [node half_step axis_eqb negb sgn];
  rewrite ?ht1, ?ht, ?hf by reflexivity; unfold Rdiv; ring.
Qed.
Lemma turn_sgn kd a d par : turn kd a d par = sgn par (half_step kd a d).
Proof. unfold turn, sgn, half_step. destruct kd, (axis_eqb a d); reflexivity. Qed.
Lemma mirrored_sq par hs : mirrored par = true -> sgn par hs * sgn par hs = 1.
Proof.
  unfold mirrored. rewrite orb_true_iff, !Z.eqb_eq. intros [-> | ->]; unfold sgn; destruct hs; lra.
Qed.

(** one direction: the factor undoes the reflection *)
Lemma fold_x b F kd a i j k : symmetric b F -> even_box b ->
  factor kd a AX (pisize b) (xparity b) i * node F kd a (image (isize b) (pisize b) (xparity b) i) j k = node F kd a i j k.
Proof.
  intros (hs & _ & _) (he & _ & _). unfold factor, image, folded. destruct (pisize b <=? i)%Z; cbn [andb]; [|ring].
  destruct (mirrored (xparity b)) eqn:e; [|ring]. destruct (he e) as (c & e1 & e2).
  specialize (hs eq_refl). rewrite e1 in *. replace (2 * c / 2)%Z with c in hs by (rewrite Z.mul_comm, Z.div_mul; lia).
  rewrite (node_x _ c F kd a i j k hs), turn_sgn, <- Rmult_assoc, mirrored_sq by exact e. ring.
Qed.
Lemma fold_y b F kd a i j k : symmetric b F -> even_box b ->
  factor kd a AY (pjsize b) (yparity b) j * node F kd a i (image (jsize b) (pjsize b) (yparity b) j) k = node F kd a i j k.
Proof.
  intros (_ & hs & _) (_ & he & _). unfold factor, image, folded. destruct (pjsize b <=? j)%Z; cbn [andb]; [|ring].
  destruct (mirrored (yparity b)) eqn:e; [|ring]. destruct (he e) as (c & e1 & e2).
  specialize (hs eq_refl). rewrite e1 in *. replace (2 * c / 2)%Z with c in hs by (rewrite Z.mul_comm, Z.div_mul; lia).
  rewrite (node_y _ c F kd a i j k hs), turn_sgn, <- Rmult_assoc, mirrored_sq by exact e. ring.
Qed.
Lemma fold_z b F kd a i j k : symmetric b F -> even_box b ->
  factor kd a AZ (pksize b) (zparity b) k * node F kd a i j (image (ksize b) (pksize b) (zparity b) k) = node F kd a i j k.
Proof.
  intros (_ & _ & hs) (_ & _ & he). unfold factor, image, folded. destruct (pksize b <=? k)%Z; cbn [andb]; [|ring].
  destruct (mirrored (zparity b)) eqn:e; [|ring]. destruct (he e) as (c & e1 & e2).
  specialize (hs eq_refl). rewrite e1 in *. replace (2 * c / 2)%Z with c in hs by (rewrite Z.mul_comm, Z.div_mul; lia).
  rewrite (node_z _ c F kd a i j k hs), turn_sgn, <- Rmult_assoc, mirrored_sq by exact e. ring.
Qed.
Lemma image_stored size psize par i : halved size psize par -> inner size par i ->
  stored size psize par (image size psize par i) /\ stored size psize par (image size psize par i - 1).
Proof.
  unfold halved, inner, stored, image. destruct (mirrored par); [|split; discriminate].
  intros h hi. destruct (h eq_refl) as (c & e1 & e2). specialize (hi eq_refl). rewrite andb_true_r.
  destruct (psize <=? i)%Z eqn:e; [apply Z.leb_le in e | apply Z.leb_gt in e]; split; intros _; lia.
Qed.
Lemma whole_field b A F kd a i j k : even_box b -> symmetric b F -> inner_node b i j k ->
  (forall kd a i j k, in_store b i j k -> A kd a i j k = F kd a i j k) ->
  field b A kd a i j k = node F kd a i j k.
Proof.
  intros hb hs (hi & hj & hk) hA. unfold field.
  set (i' := image _ _ _ i). set (j' := image _ _ _ j). set (k' := image _ _ _ k).
  assert (hn : node A kd a i' j' k' = node F kd a i' j' k').
  { pose proof hb as (hx & hy & hz).
    destruct (image_stored _ _ _ i hx hi) as (sx1 & sx2). destruct (image_stored _ _ _ j hy hj) as (sy1 & sy2).
    destruct (image_stored _ _ _ k hz hk) as (sz1 & sz2). fold i' in sx1, sx2. fold j' in sy1, sy2. fold k' in sz1, sz2.
    destruct kd, a; cbn [node]; rewrite !hA by (unfold in_store; auto); reflexivity. }
  rewrite hn. rewrite !Rmult_assoc. unfold i', j', k'.
  rewrite (fold_z b F kd a _ _ k hs hb).
  rewrite (fold_y b F kd a _ j k hs hb). apply (fold_x b F kd a i j k hs hb).
Qed.

(** the permittivity *)
Lemma eps_x c e i j k : eps_sym_x c e -> whole_eps e (2 * c - i) j k = whole_eps e i j k.
Proof.
  intro h. unfold whole_eps.
  pose proof (h AX (i - 1)%Z j k) as h1. pose proof (h AX i j k) as h2. pose proof (h AY i j k) as h3.
  pose proof (h AY i (j - 1)%Z k) as h4. pose proof (h AZ i j k) as h5. pose proof (h AZ i j (k - 1)%Z) as h6.
  unfold reflect in *. cbn [axis_eqb] in *.
  replace (2 * c - 1 - (i - 1))%Z with (2 * c - i)%Z in h1 by lia.
  replace (2 * c - 1 - i)%Z with (2 * c - i - 1)%Z in h2 by lia.
  rewrite h1, h2, h3, h4, h5, h6. unfold Rdiv; ring.
Qed.
Lemma eps_y c e i j k : eps_sym_y c e -> whole_eps e i (2 * c - j) k = whole_eps e i j k.
Proof.
  intro h. unfold whole_eps.
  pose proof (h AY i (j - 1)%Z k) as h1. pose proof (h AY i j k) as h2. pose proof (h AX i j k) as h3.
  pose proof (h AX (i - 1)%Z j k) as h4. pose proof (h AZ i j k) as h5. pose proof (h AZ i j (k - 1)%Z) as h6.
  unfold reflect in *. cbn [axis_eqb] in *.
  replace (2 * c - 1 - (j - 1))%Z with (2 * c - j)%Z in h1 by lia.
  replace (2 * c - 1 - j)%Z with (2 * c - j - 1)%Z in h2 by lia.
  rewrite h1, h2, h3, h4, h5, h6. unfold Rdiv; ring.
Qed.
Lemma eps_z c e i j k : eps_sym_z c e -> whole_eps e i j (2 * c - k) = whole_eps e i j k.
Proof.
  intro h. unfold whole_eps.
  pose proof (h AZ i j (k - 1)%Z) as h1. pose proof (h AZ i j k) as h2. pose proof (h AX i j k) as h3.
  pose proof (h AX (i - 1)%Z j k) as h4. pose proof (h AY i j k) as h5. pose proof (h AY i (j - 1)%Z k) as h6.
  unfold reflect in *. cbn [axis_eqb] in *.
  replace (2 * c - 1 - (k - 1))%Z with (2 * c - k)%Z in h1 by lia.
  replace (2 * c - 1 - k)%Z with (2 * c - k - 1)%Z in h2 by lia.
  rewrite h1, h2, h3, h4, h5, h6. unfold Rdiv; ring.
Qed.
Lemma whole_eps_ok b e f i j k : even_box b -> eps_symmetric b f -> inner_node b i j k ->
  (forall a i j k, in_store b i j k -> e a i j k = f a i j k) ->
  eps b e i j k = whole_eps f i j k.
Proof.
  intros hb hs (hi & hj & hk) hA. unfold eps. cbv zeta.
  set (i' := image _ _ _ i). set (j' := image _ _ _ j). set (k' := image _ _ _ k).
  assert (hn : (e AX i' j' k' + e AX (i' - 1)%Z j' k' + e AY i' j' k' + e AY i' (j' - 1)%Z k' + e AZ i' j' k' + e AZ i' j' (k' - 1)%Z) / 6
             = whole_eps f i' j' k').
  { pose proof hb as (hx & hy & hz).
    destruct (image_stored _ _ _ i hx hi) as (sx1 & sx2). destruct (image_stored _ _ _ j hy hj) as (sy1 & sy2).
    destruct (image_stored _ _ _ k hz hk) as (sz1 & sz2). fold i' in sx1, sx2. fold j' in sy1, sy2. fold k' in sz1, sz2.
    unfold whole_eps. rewrite !hA by (unfold in_store; auto). reflexivity. }
  rewrite hn. clear hn. destruct hs as (h1 & h2 & h3). destruct hb as (b1 & b2 & b3).
  assert (d2 : forall c, (2 * c / 2 = c)%Z) by (intro c; rewrite Z.mul_comm, Z.div_mul; lia).
  assert (ex : forall j k, whole_eps f i' j k = whole_eps f i j k).
  { intros y z. unfold i', image. destruct (pisize b <=? i)%Z; cbn [andb]; [|reflexivity].
    destruct (mirrored (xparity b)) eqn:e0; [|reflexivity]. destruct (b1 e0) as (c & e1 & _). specialize (h1 eq_refl).
    rewrite e1 in *. rewrite d2 in h1. apply eps_x; exact h1. }
  assert (ey : forall i k, whole_eps f i j' k = whole_eps f i j k).
  { intros x z. unfold j', image. destruct (pjsize b <=? j)%Z; cbn [andb]; [|reflexivity].
    destruct (mirrored (yparity b)) eqn:e0; [|reflexivity]. destruct (b2 e0) as (c & e1 & _). specialize (h2 eq_refl).
    rewrite e1 in *. rewrite d2 in h2. apply eps_y; exact h2. }
  assert (ez : forall i j, whole_eps f i j k' = whole_eps f i j k).
  { intros x y. unfold k', image. destruct (pksize b <=? k)%Z; cbn [andb]; [|reflexivity].
    destruct (mirrored (zparity b)) eqn:e0; [|reflexivity]. destruct (b3 e0) as (c & e1 & _). specialize (h3 eq_refl).
    rewrite e1 in *. rewrite d2 in h3. apply eps_z; exact h3. }
  rewrite ex, ey, ez. reflexivity.
Qed.
Lemma value_of_ext eo uo ups f g ep q : (forall kd a, f kd a = g kd a) -> value_of eo uo ups f ep q = value_of eo uo ups g ep q.
Proof. intro h. destruct q as [a|a|a| | | |[]| | |a b|a b]; cbn; rewrite ?h; reflexivity. Qed.
Lemma whole_value eo uo ups b A e F f q i j k : even_box b -> symmetric b F -> eps_symmetric b f -> inner_node b i j k ->
  (forall kd a i j k, in_store b i j k -> A kd a i j k = F kd a i j k) ->
  (forall a i j k, in_store b i j k -> e a i j k = f a i j k) ->
  grid_value eo uo ups b A e q i j k = value_of eo uo ups (fun kd a => node F kd a i j k) (whole_eps f i j k) q.
Proof.
  intros hb hs he hn hA hE. unfold grid_value. rewrite (whole_eps_ok b e f) by assumption.
  apply value_of_ext. intros kd a. apply whole_field; assumption.
Qed.

(** an odd number of cells: box 3, plane at node 1 *)
Definition b3 : box := Box 3 9 9 2 8 8 1 0 0.
Definition F3 : arrays := fun kd a i j k => match kd, a with KE, AX => IZR ((2 * i - 1) * (2 * i - 1)) | _, _ => 0 end.
Lemma F3_sym : symmetric b3 F3.
Proof.
  split; [|split; intro; discriminate]. intros _ kd a i j k. change (isize b3 / 2)%Z with 1%Z.
  destruct kd, a; cbn [half_step axis_eqb negb F3 reflect sgn]; try ring.
  change (xparity b3) with 1%Z. rewrite <- mult_IZR. f_equal. ring.
Qed.
Lemma F3_read : field b3 F3 KE AX 2 1 1 <> node F3 KE AX 2 1 1.
Proof. unfold field, factor, folded, image. cbn. lra. Qed.

(** ** Replicas *)
Lemma turns_angle n t z : turns n t z = rot (INR n * t) z.
Proof.
  induction n as [|n IH].
  - unfold turns, rot. cbn [Nat.iter INR]. rewrite Rmult_0_l, cos_0, sin_0. destruct z as [x y]. cbn. f_equal; ring.
  - change (turns (S n) t z) with (rot t (turns n t z)). rewrite IH. unfold rot. cbn [fst snd].
    rewrite S_INR. replace ((INR n + 1) * t) with (INR n * t + t) by ring. rewrite cos_plus, sin_plus. f_equal; ring.
Qed.
Lemma replica_x b Re Im kx h kd a i j k : (0 <= h)%Z ->
  replica b Re Im (angle_x PI kx h) kd a i j k = fst (turns (Z.to_nat h) (2 * PI * kx) (field b Re kd a i j k, field b Im kd a i j k)).
Proof.
  intro hh. rewrite turns_angle. unfold replica, rot, angle_x. cbn [fst snd]. rewrite INR_IZR_INZ, Z2Nat.id by exact hh.
  replace (IZR h * (2 * PI * kx)) with (2 * PI * IZR h * kx) by ring. reflexivity.
Qed.
Lemma replica_xy b Re Im kx ky h kd a i j k : (0 <= h)%Z ->
  replica b Re Im (angle_xy PI kx ky h 0) kd a i j k =
  fst (turns 0 (2 * PI * ky) (turns (Z.to_nat h) (2 * PI * kx) (field b Re kd a i j k, field b Im kd a i j k))).
Proof.
  intro hh. change (turns 0 ?t ?z) with z. rewrite <- replica_x by exact hh. unfold angle_xy, angle_x.
  rewrite Rmult_0_l, Rplus_0_r. reflexivity.
Qed.
Definition b0 : box := Box 9 9 9 8 8 8 0 0 0.
Definition ones : arrays := fun _ _ _ _ _ => 1.
Definition zeros : arrays := fun _ _ _ _ _ => 0.
Lemma replica_xy_bad : replica b0 ones zeros (angle_xy PI 0 1 0 1) KE AX 1 1 1 <>
  fst (turns 1 (2 * PI * 1) (turns 0 (2 * PI * 0) (field b0 ones KE AX 1 1 1, field b0 zeros KE AX 1 1 1))).
Proof.
  rewrite !turns_angle. unfold replica, angle_xy, rot, field, factor, folded, image. cbn.
  replace (2 * PI * 0 * 0 + 1 * 1) with 1 by ring. replace (0 * (2 * PI * 0)) with 0 by ring.
  replace (1 * (2 * PI * 1)) with (2 * PI) by ring. rewrite cos_0, sin_0, cos_2PI, sin_2PI.
  assert (h : cos 1 < 1).
  { pose proof (cos_decreasing_1 0 1) as hc. rewrite cos_0 in hc. pose proof PI2_1. apply hc; lra. }
  unfold ones, zeros. lra.
Qed.
Lemma zrange_in lo hi x : In x (zrange lo hi) <-> (lo <= x <= hi)%Z.
Proof.
  unfold zrange. rewrite in_map_iff. split.
  - intros (n & e & h). apply in_seq in h. lia.
  - intro h. exists (Z.to_nat (x - lo)). split; [lia|]. apply in_seq. lia.
Qed.
Lemma columns_miss isize m h : (1 <= isize)%Z -> ~ In (h * isize)%Z (map (place isize) (columns isize m)).
Proof.
  intros hi hin. apply in_map_iff in hin. destruct hin as ((h' & i) & e & hin). unfold columns in hin.
  apply in_flat_map in hin. destruct hin as (h'' & _ & hin). apply in_map_iff in hin.
  destruct hin as (i' & e' & hin). injection e' as <- <-. apply zrange_in in hin. unfold place in e. cbn in e.
  assert (e2 : ((h - h'') * isize = i')%Z) by lia. destruct (Z.le_gt_cases (h - h'') 0); nia.
Qed.

(** ** Drude metals *)
Lemma drude_pos w go : w <> 0 -> 0 < w * w + go * go.
Proof.
  intro h. assert (0 < w * w) by (apply Rsqr_pos_lt in h; unfold Rsqr in h; exact h).
  assert (0 <= go * go) by (pose proof (Rle_0_sqr go) as hh; unfold Rsqr in hh; exact hh). lra.
Qed.
Lemma group_eps einf wp go w : w <> 0 ->
  derivable_pt_lim (fun x => x * drude einf wp go x) w (eps_m3 einf + eps_m2 wp go w).
Proof.
  intro h. pose proof (drude_pos w go h) as hp.
  assert (d1 : derivable_pt_lim (fun x => x * x + go * go) w (1 * w + w * 1 + 0)).
  { apply (derivable_pt_lim_plus (fun x => x * x) (fun _ => go * go)).
    - apply (derivable_pt_lim_mult (fun x => x) (fun x => x)); apply derivable_pt_lim_id.
    - apply derivable_pt_lim_const. }
  assert (d2 : derivable_pt_lim (fun x => wp * wp / (x * x + go * go)) w
                 ((0 * (w * w + go * go) - (1 * w + w * 1 + 0) * (wp * wp)) / Rsqr (w * w + go * go))).
  { apply (derivable_pt_lim_div (fun _ => wp * wp) (fun x => x * x + go * go)); [apply derivable_pt_lim_const | exact d1 | lra]. }
  assert (d3 : derivable_pt_lim (fun x => drude einf wp go x) w
                 (0 - (0 * (w * w + go * go) - (1 * w + w * 1 + 0) * (wp * wp)) / Rsqr (w * w + go * go))).
  { apply (derivable_pt_lim_minus (fun _ => einf)); [apply derivable_pt_lim_const | exact d2]. }
  assert (d4 := derivable_pt_lim_mult (fun x => x) (fun x => drude einf wp go x) w 1 _ (derivable_pt_lim_id w) d3).
  match type of d4 with derivable_pt_lim ?f w ?v =>
    replace (eps_m3 einf + eps_m2 wp go w) with v; [exact d4|] end.
  unfold eps_m3, eps_m2, drude, Rsqr. field. lra.
Qed.
Lemma eps_m_mean einf wp go w : w <> 0 ->
  eps_m einf wp go w = (drude einf wp go w + (eps_m3 einf + eps_m2 wp go w)) / 2 /\
  eps_m einf wp go w = einf - wp ^ 2 * go ^ 2 / (w ^ 2 + go ^ 2) ^ 2.
Proof.
  intro h. pose proof (drude_pos w go h). unfold eps_m, drude, eps_m3, eps_m2.
  assert (w ^ 2 + go ^ 2 <> 0) by (replace (w ^ 2 + go ^ 2) with (w * w + go * go) by ring; lra).
  split; field; repeat split; first [assumption | lra].
Qed.
Lemma eps_m_negative : eps_m 1 10 1 1 < 0.
Proof. unfold eps_m. lra. Qed.
Lemma kinetic_negative : eps_m2 1 2 1 < 0.
Proof. unfold eps_m2. lra. Qed.
Lemma parts_differ : eps_m2 1 1 2 + eps_m3 1 <> eps_m 1 1 1 2.
Proof. unfold eps_m2, eps_m3, eps_m. lra. Qed.

(** ** The maximum *)
Lemma max_fold {C} (v : C -> R) l s : 
  let r := fold_left (max_step v) l s in
  fst s <= fst r /\ (forall c, In c l -> v c <= fst r) /\
  (r = s \/ exists c, In c l /\ r = (v c, Some c)).
Proof.
  revert s. induction l as [|c l IH]; intro s; cbn [fold_left].
  - cbn. split; [lra|]. split; [intros c []|]. left; reflexivity.
  - destruct (IH (max_step v s c)) as (h1 & h2 & h3). cbv zeta in *.
    set (r := fold_left _ _ _) in *.
    assert (h : fst s <= fst (max_step v s c) /\ v c <= fst (max_step v s c)).
    { unfold max_step. destruct (Rlt_dec (fst s) (v c)); cbn; lra. }
    split; [lra|]. split.
    + intros c' [<- | hc]; [lra | apply h2; exact hc].
    + destruct h3 as [h3 | (c' & hc & h3)].
      * rewrite h3. unfold max_step. destruct (Rlt_dec (fst s) (v c)); [|left; reflexivity].
        right. exists c. split; [left; reflexivity | reflexivity].
      * right. exists c'. split; [right; exact hc | exact h3].
Qed.
Lemma max_detected {C} (v : C -> R) l c0 : In c0 l -> -12345 < v c0 ->
  exists c, In c l /\ max_detect v l = (v c, Some c) /\ forall c', In c' l -> v c' <= v c.
Proof.
  intros h0 hv. unfold max_detect. destruct (max_fold v l (-12345, None)) as (h1 & h2 & h3). cbv zeta in *.
  destruct h3 as [h3 | (c & hc & h3)].
  - specialize (h2 c0 h0). rewrite h3 in h2. cbn in h2. lra.
  - exists c. split; [exact hc|]. split; [exact h3|]. intros c' hc'. specialize (h2 c' hc'). rewrite h3 in h2. exact h2.
Qed.
Lemma max_none {C} (v : C -> R) l : (forall c, In c l -> v c <= -12345) -> max_detect v l = (-12345, None).
Proof.
  unfold max_detect. induction l as [|c l IH]; intro h; [reflexivity|]. cbn [fold_left]. unfold max_step at 2. cbn [fst].
  destruct (Rlt_dec (-12345) (v c)) as [hc | _]; [pose proof (h c (or_introl eq_refl)); lra|].
  apply IH. intros c' hc'. apply h. right. exact hc'.
Qed.

(** ** Sums *)
Lemma sum_cons {A} (f : A -> R) x l : sum_over f (x :: l) = f x + sum_over f l.
Proof. reflexivity. Qed.
Lemma sum_nil {A} (f : A -> R) : sum_over f [] = 0.
Proof. reflexivity. Qed.
Lemma sum_ext {A} (f g : A -> R) l : (forall x, f x = g x) -> sum_over f l = sum_over g l.
Proof. intro h. induction l as [|x l IH]; [reflexivity|]. rewrite !sum_cons, IH, h. reflexivity. Qed.
Lemma sum_plus {A} (f g : A -> R) l : sum_over (fun x => f x + g x) l = sum_over f l + sum_over g l.
Proof. induction l as [|x l IH]; [rewrite !sum_nil; ring|]. rewrite !sum_cons, IH. ring. Qed.
Lemma sum_minus {A} (f g : A -> R) l : sum_over (fun x => f x - g x) l = sum_over f l - sum_over g l.
Proof. induction l as [|x l IH]; [rewrite !sum_nil; ring|]. rewrite !sum_cons, IH. ring. Qed.
Lemma sum_scal {A} c (f : A -> R) l : sum_over (fun x => c * f x) l = c * sum_over f l.
Proof. induction l as [|x l IH]; [rewrite !sum_nil; ring|]. rewrite !sum_cons, IH. ring. Qed.
Lemma sum_zero {A} (l : list A) : sum_over (fun _ => 0) l = 0.
Proof. induction l as [|x l IH]; [reflexivity|]. rewrite sum_cons, IH. ring. Qed.
Lemma sum_swap {A B} (f : A -> B -> R) l m :
  sum_over (fun x => sum_over (f x) m) l = sum_over (fun y => sum_over (fun x => f x y) l) m.
Proof.
  induction l as [|x l IH].
  - rewrite sum_nil. symmetry. erewrite sum_ext; [apply sum_zero|]. reflexivity.
  - rewrite sum_cons, IH, <- sum_plus. reflexivity.
Qed.
Lemma sum_app {A} (f : A -> R) l m : sum_over f (l ++ m) = sum_over f l + sum_over f m.
Proof. induction l as [|x l IH]; cbn [app]; [rewrite sum_nil; ring|]. rewrite !sum_cons, IH. ring. Qed.
Lemma sum_rev {A} (f : A -> R) l : sum_over f (rev l) = sum_over f l.
Proof.
  induction l as [|x l IH]; [reflexivity|]. cbn [rev]. rewrite sum_app, IH, !sum_cons, sum_nil. ring.
Qed.
Lemma zrange_snoc lo hi : (lo <= hi + 1)%Z -> zrange lo (hi + 1) = zrange lo hi ++ [(hi + 1)%Z].
Proof.
  intro h. unfold zrange. replace (Z.to_nat (hi + 1 - lo + 1)) with (S (Z.to_nat (hi - lo + 1))) by lia.
  rewrite seq_S, map_app. cbn [map]. f_equal. f_equal. lia.
Qed.
Lemma zrange_nil lo hi : (hi < lo)%Z -> zrange lo hi = [].
Proof. intro h. unfold zrange. replace (Z.to_nat (hi - lo + 1)) with 0%nat by lia. reflexivity. Qed.
Lemma zrange_split lo m hi : (lo <= m + 1)%Z -> (m <= hi)%Z -> zrange lo hi = zrange lo m ++ zrange (m + 1) hi.
Proof.
  intros h1 h2. assert (exists n, hi = m + Z.of_nat n)%Z as (n & ->) by (exists (Z.to_nat (hi - m)); lia). clear h2.
  induction n as [|n IH].
  - replace (m + Z.of_nat 0)%Z with m by lia. rewrite (zrange_nil (m + 1) m) by lia. rewrite app_nil_r. reflexivity.
  - replace (m + Z.of_nat (S n))%Z with (m + Z.of_nat n + 1)%Z by lia.
    rewrite !zrange_snoc by lia. rewrite IH, app_assoc. reflexivity.
Qed.
Lemma zrange_one k : zrange k k = [k].
Proof. unfold zrange. replace (k - k + 1)%Z with 1%Z by lia. change (seq 0 (Z.to_nat 1)) with [0%nat]. unfold map. rewrite Z.add_0_r. reflexivity. Qed.
Lemma telescope (f : Z -> R) a b : (a <= b)%Z -> sum_over (fun i => f i - f (i - 1)%Z) (zrange (a + 1) b) = f b - f a.
Proof.
  intro h. assert (exists n, b = a + Z.of_nat n)%Z as (n & ->) by (exists (Z.to_nat (b - a)); lia). clear h.
  induction n as [|n IH].
  - replace (a + Z.of_nat 0)%Z with a by lia. rewrite zrange_nil by lia. rewrite sum_nil. ring.
  - replace (a + Z.of_nat (S n))%Z with (a + Z.of_nat n + 1)%Z by lia. rewrite zrange_snoc by lia.
    rewrite sum_app, IH, sum_cons, sum_nil. replace (a + Z.of_nat n + 1 - 1)%Z with (a + Z.of_nat n)%Z by lia. ring.
Qed.

(** ** The flux through a box *)
Lemma from_bottom pml l : (0 <= pml)%Z -> (0 <= l)%Z -> from pml l = (bottom pml l + 1)%Z.
Proof.
  intros h1 h2. unfold from, bottom, to_int. rewrite !Z.quot_div_nonneg by lia.
  replace (5 * (1 + pml) + l)%Z with (5 * pml + l + 1 * 5)%Z by lia. rewrite Z.div_add by lia. reflexivity.
Qed.
Lemma upper_top size pml l : (l <= 5 * (size - 2 - pml))%Z -> upper size pml l = top size pml l.
Proof. intro h. unfold upper, top, to_int. rewrite Z.quot_div_nonneg by lia. reflexivity. Qed.
Lemma lowest_bottom pml l : (0 <= pml)%Z -> (0 <= l)%Z -> (5 | l)%Z -> lowest pml l = (bottom pml l + 1)%Z.
Proof.
  intros h1 h2 (q & e). unfold lowest, bottom, to_int. rewrite Z.quot_div_nonneg by lia. subst l.
  replace (- (5 * (1 + pml) + q * 5))%Z with (- (1 + pml + q) * 5)%Z by lia.
  replace (5 * pml + q * 5)%Z with ((pml + q) * 5)%Z by lia. rewrite !Z.div_mul by lia. lia.
Qed.
Lemma is_eq d : plain_domain d -> is_ d = zrange (x_lo d + 1) (x_hi d).
Proof.
  intros (h1 & h2 & h3 & h4 & h5 & h6 & h7 & h8 & h9 & _). unfold is_, loop_up, x_lo, x_hi.
  rewrite from_bottom, upper_top by assumption. reflexivity.
Qed.
Lemma js_eq d : plain_domain d -> js_ d = zrange (y_lo d + 1) (y_hi d).
Proof.
  intros (h1 & h2 & h3 & h4 & h5 & h6 & h7 & h8 & h9 & _). unfold js_, loop_up, y_lo, y_hi.
  rewrite from_bottom, upper_top by assumption. reflexivity.
Qed.
Lemma ks_eq d : plain_domain d -> (5 | lattice_z d)%Z -> ks_ d = rev (zrange (z_lo d + 1) (z_hi d)).
Proof.
  intros (h1 & h2 & h3 & h4 & h5 & h6 & h7 & h8 & h9 & _) hd. unfold ks_, loop_down, z_lo, z_hi.
  rewrite lowest_bottom by assumption. reflexivity.
Qed.

Section Flux.
Variables (d : domain) (S : axis -> grid).
Lemma sum2_rev_l {A B} (f : A -> B -> R) l m : sum2 f (rev l) m = sum2 f l m.
Proof. apply sum_rev. Qed.
Lemma sum2_rev_r {A B} (f : A -> B -> R) l m : sum2 f l (rev m) = sum2 f l m.
Proof. apply sum_ext. intro x. apply sum_rev. Qed.
Lemma flux_x_rev ks : flux_x d S (rev ks) = flux_x d S ks.
Proof. unfold flux_x. rewrite !sum2_rev_l. reflexivity. Qed.
Lemma flux_y_rev y ks : flux_y d y S (rev ks) = flux_y d y S ks.
Proof. unfold flux_y. rewrite !sum2_rev_r. reflexivity. Qed.
Lemma sum2_minus {A B} (f g : A -> B -> R) l m : sum2 f l m - sum2 g l m = sum2 (fun x y => f x y - g x y) l m.
Proof. unfold sum2. rewrite <- sum_minus. apply sum_ext. intro x. rewrite sum_minus. reflexivity. Qed.
Lemma flux_x_app k1 k2 : flux_x d S (k1 ++ k2) = flux_x d S k1 + flux_x d S k2.
Proof. unfold flux_x, sum2. rewrite !sum_app. ring. Qed.
Lemma flux_y_app y k1 k2 : flux_y d y S (k1 ++ k2) = flux_y d y S k1 + flux_y d y S k2.
Proof.
  unfold flux_y. rewrite !sum2_minus. unfold sum2. rewrite <- sum_plus. apply sum_ext. intro i. apply sum_app.
Qed.

Hypothesis hp : plain_domain d.
Lemma gauss_x zs : flux_x d S zs = sum_over (fun i => sum_over (fun j => sum_over (fun k =>
  ds_y d * ds_nz d k * (S AX i j k - S AX (i - 1)%Z j k)) zs) (zrange (y_lo d + 1) (y_hi d))) (zrange (x_lo d + 1) (x_hi d)).
Proof.
  unfold flux_x. rewrite sum2_minus, js_eq by exact hp. unfold sum2. rewrite sum_swap.
  symmetry. rewrite sum_swap. apply sum_ext. intro j. rewrite sum_swap. apply sum_ext. intro k.
  rewrite sum_scal. rewrite (telescope (fun i => S AX i j k)) by apply hp. ring.
Qed.
Lemma gauss_y zs : flux_y d (y_hi d) S zs = sum_over (fun i => sum_over (fun j => sum_over (fun k =>
  ds_nz d k * ds_x d * (S AY i j k - S AY i (j - 1)%Z k)) zs) (zrange (y_lo d + 1) (y_hi d))) (zrange (x_lo d + 1) (x_hi d)).
Proof.
  unfold flux_y. rewrite sum2_minus, is_eq by exact hp. unfold sum2. apply sum_ext. intro i.
  symmetry. rewrite sum_swap. apply sum_ext. intro k.
  rewrite sum_scal. rewrite (telescope (fun j => S AY i j k)) by apply hp. ring.
Qed.
Lemma gauss_z : flux_zp d S - flux_zn d S = sum_over (fun i => sum_over (fun j => sum_over (fun k =>
  ds_x d * ds_y d * (S AZ i j k - S AZ i j (k - 1)%Z)) (zrange (z_lo d + 1) (z_hi d))) (zrange (y_lo d + 1) (y_hi d)))
  (zrange (x_lo d + 1) (x_hi d)).
Proof.
  unfold flux_zp, flux_zn. rewrite sum2_minus, is_eq, js_eq by exact hp. unfold sum2. apply sum_ext. intro i.
  apply sum_ext. intro j. rewrite sum_scal. rewrite (telescope (fun k => S AZ i j k)) by apply hp. ring.
Qed.
Lemma gauss : pmljl d = pmljr d -> (5 | lattice_z d)%Z ->
  Poynting_total d S = total_div d S (zrange (x_lo d + 1) (x_hi d)) (zrange (y_lo d + 1) (y_hi d)) (zrange (z_lo d + 1) (z_hi d)).
Proof.
  intros hy hz. unfold Poynting_total. rewrite ks_eq, flux_x_rev, flux_y_rev by assumption.
  assert (ey : y_hi_total d = y_hi d) by (unfold y_hi_total, y_hi; rewrite hy; reflexivity). rewrite ey.
  rewrite gauss_x, gauss_y, gauss_z. unfold total_div, div. rewrite <- !sum_plus. apply sum_ext. intro i.
  rewrite <- !sum_plus. apply sum_ext. intro j. rewrite <- !sum_plus. apply sum_ext. intro k. ring.
Qed.
Lemma gauss_free : pmljl d = pmljr d -> (5 | lattice_z d)%Z -> (forall i j k, div d S i j k = 0) -> Poynting_total d S = 0.
Proof.
  intros hy hz h0. rewrite gauss by assumption. unfold total_div. erewrite sum_ext; [apply sum_zero|]. intro i.
  cbv beta. erewrite sum_ext; [apply sum_zero|]. intro j. cbv beta. erewrite sum_ext; [apply sum_zero|]. intro k. apply h0.
Qed.

(** the side, the upper and the lower part *)
Lemma parts ka kb : pmljl d = pmljr d -> (5 | lattice_z d)%Z -> (z_lo d + 1 <= kb)%Z -> (kb <= ka)%Z -> (ka <= z_hi d)%Z ->
  SumUpper d S ka + SumLower d S kb + Poynting_side d S ka kb =
  Poynting_total d S + (flux_x d S [ka] + flux_y d (y_hi d) S [ka]) + (flux_x d S [kb] + flux_y d (y_hi d) S [kb]).
Proof.
  intros hy hz h1 h2 h3. unfold SumUpper, SumLower, Poynting_side, Poynting_total. cbv zeta.
  assert (ey : y_hi_total d = y_hi d) by (unfold y_hi_total, y_hi; rewrite hy; reflexivity). rewrite ey.
  rewrite ks_eq by assumption. rewrite !flux_x_rev, !flux_y_rev.
  assert (ef : from (pmlkl d) (lattice_z d) = (z_lo d + 1)%Z) by (apply from_bottom; apply hp). rewrite ef.
  assert (e1 : zrange kb ka = zrange kb (ka - 1) ++ [ka]).
  { rewrite <- (zrange_one ka). rewrite (zrange_split kb (ka - 1) ka) by lia. repeat f_equal; lia. }
  assert (e2 : zrange (z_lo d + 1) kb = zrange (z_lo d + 1) (kb - 1) ++ [kb]).
  { rewrite <- (zrange_one kb). rewrite (zrange_split (z_lo d + 1) (kb - 1) kb) by lia. repeat f_equal; lia. }
  assert (e3 : zrange (z_lo d + 1) (z_hi d) = zrange (z_lo d + 1) (kb - 1) ++ zrange kb (ka - 1) ++ zrange ka (z_hi d)).
  { rewrite (zrange_split (z_lo d + 1) (kb - 1) (z_hi d)) by lia. f_equal.
    replace (kb - 1 + 1)%Z with kb by lia. rewrite (zrange_split kb (ka - 1) (z_hi d)) by lia. repeat f_equal; lia. }
  rewrite e1, e2, e3, !flux_x_app, !flux_y_app. ring.
Qed.
End Flux.

Definition dy : domain := Domain 4 8 4 0 0 1 0 0 0 0 0 0 1 1 (fun _ => 1).
Definition Sy_ : axis -> grid := fun a i j k =>
  match a with AX => if (5 <? j)%Z then IZR i else 0 | AY => if (5 <? j)%Z then IZR (5 - j) else 0 | AZ => 0 end.
Lemma Sy_free i j k : div dy Sy_ i j k = 0.
Proof.
  unfold div, Sy_, dy. cbn [ds_x ds_y ds_nz]. destruct (5 <? j)%Z eqn:e, (5 <? j - 1)%Z eqn:e';
  rewrite ?Z.ltb_lt, ?Z.ltb_ge in *; rewrite ?minus_IZR; try lra; try lia.
  assert (j = 6)%Z as -> by lia. lra.
Qed.
Lemma dy_total : Poynting_total dy Sy_ <> 0.
Proof.
  unfold Poynting_total, flux_x, flux_y, flux_zp, flux_zn, sum2.
  change (is_ dy) with [1; 2]%Z. change (js_ dy) with [2; 3; 4; 5; 6]%Z. change (ks_ dy) with [2; 1]%Z.
  change (x_hi dy) with 2%Z. change (x_lo dy) with 0%Z. change (y_hi_total dy) with 5%Z. change (y_lo dy) with 1%Z.
  change (z_hi dy) with 2%Z. change (z_lo dy) with 0%Z.
  unfold sum_over, Sy_, dy. cbn [fold_right Z.ltb Z.compare Pos.compare Pos.compare_cont ds_x ds_y ds_nz]. lra.
Qed.
Definition dz : domain := Domain 4 4 6 0 0 0 0 0 0 0 0 1 1 1 (fun _ => 1).
Definition Sz_ : axis -> grid := fun a i j k =>
  match a with AX => if (k =? 1)%Z then IZR i else 0 | AY => 0 | AZ => if (1 <=? k)%Z then -1 else 0 end.
Lemma Sz_free i j k : div dz Sz_ i j k = 0.
Proof.
  unfold div, Sz_, dz. cbn [ds_x ds_y ds_nz]. destruct (k =? 1)%Z eqn:e, (1 <=? k)%Z eqn:e1, (1 <=? k - 1)%Z eqn:e2;
  rewrite ?Z.eqb_eq, ?Z.eqb_neq, ?Z.leb_le, ?Z.leb_gt in *; rewrite ?minus_IZR; try lra; try lia.
Qed.
Lemma dz_total : Poynting_total dz Sz_ <> 0.
Proof.
  unfold Poynting_total, flux_x, flux_y, flux_zp, flux_zn, sum2.
  change (is_ dz) with [1; 2]%Z. change (js_ dz) with [1; 2]%Z. change (ks_ dz) with [3; 2]%Z.
  change (x_hi dz) with 2%Z. change (x_lo dz) with 0%Z. change (y_hi_total dz) with 2%Z. change (y_lo dz) with 0%Z.
  change (z_hi dz) with 3%Z. change (z_lo dz) with 0%Z.
  unfold sum_over, Sz_, dz. cbn [fold_right Z.eqb Z.leb Z.compare Pos.eqb Pos.compare Pos.compare_cont ds_x ds_y ds_nz]. lra.
Qed.
Definition dp : domain := Domain 4 4 6 0 0 0 0 0 0 0 0 0 1 1 (fun _ => 1).
Definition Sx_ : axis -> grid := fun a i j k => match a with AX => IZR i | _ => 0 end.
Lemma dp_plain : plain_domain dp.
Proof. unfold plain_domain. cbn. repeat split; cbv; discriminate. Qed.
Lemma dp_parts : SumUpper dp Sx_ 3 + SumLower dp Sx_ 2 + Poynting_side dp Sx_ 3 2 <> Poynting_total dp Sx_.
Proof.
  unfold SumUpper, SumLower, Poynting_side, Poynting_total, flux_x, flux_y, flux_zp, flux_zn, sum2. cbv zeta.
  change (is_ dp) with [1; 2]%Z. change (js_ dp) with [1; 2]%Z. change (ks_ dp) with [4; 3; 2; 1]%Z.
  change (x_hi dp) with 2%Z. change (x_lo dp) with 0%Z. change (y_hi_total dp) with 2%Z. change (y_lo dp) with 0%Z.
  change (y_hi dp) with 2%Z. change (z_hi dp) with 4%Z. change (z_lo dp) with 0%Z.
  change (rev (zrange 3 4)) with [4; 3]%Z. change (zrange (from (pmlkl dp) (lattice_z dp)) 2) with [1; 2]%Z.
  change (rev (zrange 2 3)) with [3; 2]%Z.
  unfold sum_over, Sx_, dp. cbn [fold_right ds_x ds_y ds_nz]. lra.
Qed.

(** ** The map of the far field *)
Lemma dist_sq tnum i j : dist tnum i j * dist tnum i j = IZR (i - half tnum) ^ 2 + IZR (j - half tnum) ^ 2.
Proof.
  unfold dist. rewrite sqrt_sqrt; [rewrite plus_IZR, !mult_IZR; ring|].
  apply IZR_le. pose proof (Z.square_nonneg (i - half tnum)). pose proof (Z.square_nonneg (j - half tnum)). lia.
Qed.
Lemma dist_pos tnum i j : (i <> half tnum \/ j <> half tnum) -> 0 < dist tnum i j.
Proof.
  intro h. unfold dist. apply sqrt_lt_R0. apply IZR_lt.
  set (a := (i - half tnum)%Z). set (b := (j - half tnum)%Z).
  pose proof (Z.square_nonneg a). pose proof (Z.square_nonneg b).
  destruct h as [h | h]; [assert (a <> 0)%Z by lia; assert (0 < a * a)%Z by nia | assert (b <> 0)%Z by lia; assert (0 < b * b)%Z by nia]; lia.
Qed.
Lemma direction tnum i j : (i <> half tnum \/ j <> half tnum) ->
  dist tnum i j * cos (calc_phi PI tnum i j) = IZR (i - half tnum) /\
  dist tnum i j * sin (calc_phi PI tnum i j) = IZR (j - half tnum).
Proof.
  intro h. pose proof (dist_pos tnum i j h) as hp. pose proof (dist_sq tnum i j) as hq.
  unfold calc_phi. set (t := dist tnum i j) in *. set (x := IZR (i - half tnum)) in *.
  assert (hj : forall n : Z, n = (j - half tnum)%Z -> IZR (j - half tnum) = IZR n) by (intros n ->; reflexivity).
  remember (j - half tnum)%Z as n eqn:en. clear hj. set (y := IZR n) in *. cbv zeta.
  assert (hx : -1 <= x / t <= 1).
  { assert (x * x <= t * t) by (pose proof (Rle_0_sqr y) as hh; unfold Rsqr in hh; simpl in hq; lra).
    assert (- t <= x <= t) by (split; nra).
    split; [apply Rmult_le_reg_r with t; [exact hp|] | apply Rmult_le_reg_r with t; [exact hp|]];
    unfold Rdiv; rewrite Rmult_assoc, Rinv_l by lra; lra. }
  assert (hc : t * cos (acos (x / t)) = x) by (rewrite cos_acos by exact hx; field; lra).
  assert (hs : t * sin (acos (x / t)) = Rabs y).
  { rewrite sin_acos by exact hx.
    transitivity (sqrt (t * t) * sqrt (1 - (x / t)²)); [rewrite sqrt_square by lra; reflexivity|].
    rewrite <- sqrt_mult_alt by nra. rewrite <- sqrt_Rsqr_abs. f_equal. unfold Rsqr.
    replace (y * y) with (t * t - x * x) by (simpl in hq; lra). field. lra. }
  rewrite hs. destruct (Rlt_dec (Rabs (y - Rabs y)) (/ 100)) as [hl | hg].
  - split; [exact hc|]. rewrite hs. destruct (Z.le_gt_cases 0 n) as [hn | hn].
    + apply Rabs_right. unfold y. apply Rle_ge. apply (IZR_le 0). exact hn.
    + exfalso. assert (hy : y <= -1) by (unfold y; apply (IZR_le _ (-1)); lia).
      rewrite (Rabs_left y) in hl by lra. rewrite Rabs_left in hl by lra. lra.
  - assert (hn : (n < 0)%Z).
    { destruct (Z.le_gt_cases 0 n) as [hn | hn]; [|exact hn]. exfalso. apply hg.
      assert (0 <= y) by (unfold y; apply (IZR_le 0); exact hn). rewrite (Rabs_right y) by lra.
      replace (y - y) with 0 by ring. rewrite Rabs_R0. lra. }
    assert (hy : y < 0) by (unfold y; apply (IZR_lt _ 0); exact hn). rewrite Rabs_left in hs by exact hy.
    replace (2 * PI - acos (x / t)) with (- acos (x / t) + 2 * INR 1 * PI) by (simpl; ring).
    rewrite cos_period, sin_period, cos_neg, sin_neg. split; [exact hc|].
    rewrite Rmult_comm, Ropp_mult_distr_l_reverse, Rmult_comm, hs. ring.
Qed.
Lemma zfloor_spec x : IZR (zfloor x) <= x < IZR (zfloor x) + 1.
Proof. unfold zfloor. destruct (base_Int_part x). lra. Qed.
Lemma zceil_spec x : IZR (zceil x) - 1 < x <= IZR (zceil x).
Proof. unfold zceil. destruct (base_Int_part (- x)). rewrite opp_IZR. lra. Qed.
Lemma floor_ge n x : IZR n <= x -> (n <= zfloor x)%Z.
Proof. intro h. destruct (zfloor_spec x). assert (n < zfloor x + 1)%Z; [apply lt_IZR; rewrite plus_IZR; lra | lia]. Qed.
Lemma ceil_le n x : x <= IZR n -> (zceil x <= n)%Z.
Proof. intro h. destruct (zceil_spec x). assert (zceil x - 1 < n)%Z; [apply lt_IZR; rewrite minus_IZR; lra | lia]. Qed.
Lemma floor_ceil x : zceil x = (zfloor x + 1)%Z \/ (zceil x = zfloor x /\ x = IZR (zfloor x)).
Proof.
  destruct (zfloor_spec x) as (h1 & h2), (zceil_spec x) as (h3 & h4).
  assert (zceil x - 1 < zfloor x + 1)%Z by (apply lt_IZR; rewrite minus_IZR, plus_IZR; lra).
  assert (zfloor x <= zceil x)%Z by (apply le_IZR; lra).
  destruct (Z.eq_dec (zceil x) (zfloor x)) as [e | e]; [right; split; [exact e|]; rewrite e in h4; lra | left; lia].
Qed.
Lemma half_odd m : (0 <= m)%Z -> half (2 * m + 1) = m.
Proof. intro h. unfold half. rewrite Z.quot_div_nonneg by lia. rewrite Z.mul_comm, Z.div_add_l by lia. cbn. lia. Qed.
Lemma corner_range m x : (0 <= m)%Z -> Rabs x <= 1 ->
  (0 <= zfloor (IZR m * x) + m <= 2 * m)%Z /\ (0 <= zceil (IZR m * x) + m <= 2 * m)%Z.
Proof.
  intros hm hx. assert (h0 : 0 <= IZR m) by (apply (IZR_le 0); exact hm).
  assert (h1 : -1 <= x <= 1) by (split; [pose proof (Rle_abs (- x)); rewrite Rabs_Ropp in *; lra | pose proof (Rle_abs x); lra]).
  assert (hl : IZR (- m) <= IZR m * x) by (rewrite opp_IZR; nra). assert (hu : IZR m * x <= IZR m) by nra.
  pose proof (floor_ge _ _ hl). pose proof (ceil_le _ _ hu).
  assert (zfloor (IZR m * x) <= zceil (IZR m * x))%Z by (destruct (floor_ceil (IZR m * x)) as [e | (e & _)]; lia). lia.
Qed.
Lemma prod_abs a b : Rabs a <= 1 -> Rabs b <= 1 -> Rabs (a * b) <= 1.
Proof. intros h1 h2. rewrite Rabs_mult. pose proof (Rabs_pos a). pose proof (Rabs_pos b). nra. Qed.
Lemma sin_abs x : Rabs (sin x) <= 1.
Proof. pose proof (SIN_bound x). apply Rabs_le. lra. Qed.
Lemma cos_abs x : Rabs (cos x) <= 1.
Proof. pose proof (COS_bound x). apply Rabs_le. lra. Qed.
Lemma in_array m theta phi : (0 <= m)%Z -> let '(fp, fq, cp, cq) := corners (2 * m + 1) (p_of (2 * m + 1) theta phi) (q_of (2 * m + 1) theta phi) in
  (0 <= fp < 2 * m + 1 /\ 0 <= fq < 2 * m + 1 /\ 0 <= cp < 2 * m + 1 /\ 0 <= cq < 2 * m + 1)%Z.
Proof.
  intro hm. unfold corners, p_of, q_of. rewrite half_odd by exact hm. rewrite !Rmult_assoc.
  destruct (corner_range m (sin theta * cos phi) hm (prod_abs _ _ (sin_abs _) (cos_abs _))).
  destruct (corner_range m (sin theta * sin phi) hm (prod_abs _ _ (sin_abs _) (sin_abs _))). lia.
Qed.
Lemma interpol_bilinear a b c e theta phi rcnum u : (forall m n, u m n = bilinear a b c e (IZR m) (IZR n)) ->
  interpol theta phi rcnum u = bilinear a b c e (p_of rcnum theta phi + IZR (half rcnum)) (q_of rcnum theta phi + IZR (half rcnum)).
Proof.
  intro hu. unfold interpol, corners. cbv zeta. set (p := p_of _ _ _). set (q := q_of _ _ _). set (r := half rcnum).
  rewrite !hu. unfold bilinear. rewrite !plus_IZR.
  destruct (floor_ceil p) as [ep | (ep & ep')], (floor_ceil q) as [eq | (eq & eq')]; rewrite ep, eq, ?plus_IZR.
  - ring.
  - rewrite <- eq'. ring.
  - rewrite <- ep'. ring.
  - rewrite <- ep', <- eq'. ring.
Qed.
Lemma polar_value a b c e rcnum tnum i j u : (forall m n, u m n = bilinear a b c e (IZR m) (IZR n)) ->
  circle_out tnum i j = true -> / 50 <= calc_theta PI tnum i j -> (i <> half tnum \/ j <> half tnum) ->
  into_polar PI u rcnum tnum i j =
  bilinear a b c e
    (IZR (half rcnum) * (1 + sin (calc_theta PI tnum i j) * (IZR (i - half tnum) / dist tnum i j)))
    (IZR (half rcnum) * (1 + sin (calc_theta PI tnum i j) * (IZR (j - half tnum) / dist tnum i j))).
Proof.
  intros hu hc ht hne. unfold into_polar. rewrite hc.
  destruct (Rlt_dec (Rabs (calc_theta PI tnum i j)) (/ 50)) as [hl | _]; [rewrite Rabs_right in hl by lra; lra|].
  rewrite (interpol_bilinear a b c e) by exact hu. destruct (direction tnum i j hne) as (h1 & h2).
  pose proof (dist_pos tnum i j hne) as hp. unfold p_of, q_of. rewrite <- h1, <- h2. f_equal; field; lra.
Qed.
Lemma even_overrun : circle_out 4 3 2 = true /\ / 50 <= calc_theta PI 4 3 2 /\
  (let '(_, _, cp, _) := corners 2 (p_of 2 (calc_theta PI 4 3 2) (calc_phi PI 4 3 2)) (q_of 2 (calc_theta PI 4 3 2) (calc_phi PI 4 3 2)) in (2 <= cp)%Z).
Proof.
  assert (hd : dist 4 3 2 = 1) by (unfold dist; cbn; apply sqrt_1).
  assert (ht : calc_theta PI 4 3 2 = PI / 4) by (unfold calc_theta; rewrite hd; cbn; field).
  split; [unfold circle_out; cbn; destruct (Rlt_dec (/ 10) 0); [lra | reflexivity]|].
  pose proof PI2_1. split; [rewrite ht; lra|]. unfold corners.
  destruct (direction 4 3 2) as (h1 & _); [left; cbn; lia|]. rewrite hd in h1. cbn in h1.
  unfold p_of. replace (cos (calc_phi PI 4 3 2)) with 1 by lra. rewrite ht. cbn [half]. change (half 2) with 1%Z.
  assert (0 < sin (PI / 4)) by (apply sin_gt_0; lra).
  destruct (zceil_spec (1 * sin (PI / 4) * 1)) as (_ & h). 
  assert (0 < zceil (1 * sin (PI / 4) * 1))%Z by (apply lt_IZR; lra). lia.
Qed.
Lemma odd_box : exists b F, symmetric b F /\ (2 <= pisize b)%Z /\ inner_node b 2 1 1 /\
  field b F KE AX 2 1 1 <> node F KE AX 2 1 1.
Proof.
  exists b3, F3. split; [exact F3_sym|]. split; [cbn; lia|]. split; [|exact F3_read].
  split; [intros _; cbn; lia | split; intro; discriminate].
Qed.
Lemma columns_gap : exists isize m x, (1 <= isize)%Z /\ In (x - 1)%Z (map (place isize) (columns isize m)) /\
  In (x + 1)%Z (map (place isize) (columns isize m)) /\ ~ In x (map (place isize) (columns isize m)).
Proof.
  exists 3%Z, 2%Z, 3%Z. split; [lia|]. split; [right; left; reflexivity|]. split; [right; right; left; reflexivity|].
  apply (columns_miss 3 2 1). lia.
Qed.
Lemma dy_plain : plain_domain dy.
Proof. unfold plain_domain. cbn. repeat split; cbv; discriminate. Qed.
Lemma dz_plain : plain_domain dz.
Proof. unfold plain_domain. cbn. repeat split; cbv; discriminate. Qed.
Lemma dp_parts_all : exists d S ka kb, plain_domain d /\ pmljl d = pmljr d /\ (5 | lattice_z d)%Z /\
  (z_lo d + 1 <= kb)%Z /\ (kb < ka)%Z /\ (ka <= z_hi d)%Z /\
  SumUpper d S ka + SumLower d S kb + Poynting_side d S ka kb <> Poynting_total d S.
Proof.
  exists dp, Sx_, 3%Z, 2%Z. split; [exact dp_plain|]. split; [reflexivity|]. split; [apply Z.divide_0_r|].
  split; [cbv; discriminate|]. split; [lia|]. split; [cbv; discriminate|]. exact dp_parts.
Qed.
Lemma max_first {C} (v : C -> R) l1 c l2 : -12345 < v c ->
  (forall c', In c' l1 -> v c' < v c) -> (forall c', In c' l2 -> v c' <= v c) ->
  max_detect v (l1 ++ c :: l2) = (v c, Some c).
Proof.
  intros h0 h1 h2. unfold max_detect. rewrite fold_left_app. cbn [fold_left].
  assert (hs : fst (fold_left (max_step v) l1 (-12345, None)) < v c).
  { destruct (max_fold v l1 (-12345, None)) as (_ & _ & [e | (c' & hc & e)]); rewrite e; cbn; [exact h0 | apply h1; exact hc]. }
  unfold max_step at 2. destruct (Rlt_dec _ (v c)) as [_ | hn]; [|contradiction].
  clear -h2. induction l2 as [|x l2 IH]; [reflexivity|]. cbn [fold_left]. unfold max_step at 2. cbn [fst].
  destruct (Rlt_dec (v c) (v x)) as [hx | _]; [pose proof (h2 x (or_introl eq_refl)); lra|].
  apply IH. intros c' hc. apply h2. right. exact hc.
Qed.

Lemma node_affine : forall c0 cx cy cz A kd a i j k, stores_affine c0 cx cy cz A kd a ->
  node A kd a i j k = affine c0 cx cy cz (IZR i) (IZR j) (IZR k).
Proof.
  intros c0 cx cy cz A kd a i j k h. destruct kd, a; unfold node; rewrite !h; unfold affine, offset;
  cbn [half_step axis_eqb negb]; rewrite ?minus_IZR; field.
Qed.
Lemma values : forall eo uo ups f ep,
  (forall a, value_of eo uo ups f ep (QS a) = cross (f KE) (f KH) a) /\
  value_of eo uo ups f ep QJE = dot (f KE) (f KJ) /\
  value_of eo uo ups f ep QE2 = dot (f KE) (f KE) /\ value_of eo uo ups f ep QH2 = dot (f KH) (f KH) /\
  value_of eo uo ups f ep QEEnergy = eo * ep * dot (f KE) (f KE) / 2 /\
  value_of eo uo ups f ep QEMEnergy = eo * ep * dot (f KE) (f KE) / 2 + uo * ups * dot (f KH) (f KH) / 2.
Proof.
  intros. split; [intros []; unfold cross, value_of; cbn [next]; ring|]. unfold dot, value_of. repeat split; field.
Qed.
