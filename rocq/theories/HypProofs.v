From Coq Require Import Reals List Lra Lia.
From Verif Require Import Base HypModel HypSpec.
Import ListNotations.
Local Open Scope R_scope.

Lemma sumsq w eta : eta <> 0 -> 0 < w * w + eta * eta.
Proof. intro h. pose proof (Rle_0_sqr w). pose proof (Rlt_0_sqr eta h). unfold Rsqr in *. lra. Qed.

Lemma plasmon_sq hbar e eps me n m : 0 < hbar -> 0 < eps -> 0 < me -> 0 < n -> 0 < m ->
  (plasmon hbar e eps me n m / hbar) ^ 2 = plasma2 (n * 10 ^ 27) e eps (m * me).
Proof.
  intros h1 h2 h3 h4 h5. unfold plasmon, plasma2.
  replace (hbar * e * sqrt (n * 10 ^ 27 / (eps * m * me)) / hbar) with (e * sqrt (n * 10 ^ 27 / (eps * m * me))) by (field; lra).
  rewrite Rpow_mult_distr. rewrite <- (Rsqr_pow2 (sqrt _)). rewrite Rsqr_sqrt.
  - field. lra.
  - apply Rlt_le, Rdiv_lt_0_compat; [apply Rmult_lt_0_compat; [lra|apply pow_lt; lra]|repeat apply Rmult_lt_0_compat; lra].
Qed.
Lemma plasmon_scale hbar e eps me n m k : 0 <= k -> 
  plasmon hbar e eps me (k ^ 2 * n) m = k * plasmon hbar e eps me n m.
Proof.
  intro hk. unfold plasmon.
  replace (k ^ 2 * n * 10 ^ 27 / (eps * m * me)) with (k ^ 2 * (n * 10 ^ 27 / (eps * m * me))) by (unfold Rdiv; ring).
  rewrite sqrt_mult_alt by (apply pow_le; lra).
  rewrite <- Rsqr_pow2, sqrt_Rsqr by lra. ring.
Qed.

Lemma drude_is wp eta w : eta <> 0 -> is_drude wp eta w (drude wp eta w).
Proof.
  intro h. pose proof (sumsq w eta h). unfold is_drude, cmul, drude. cbn [fst snd]. f_equal; field; lra.
Qed.
Lemma drude_unique a b eta w z : eta <> 0 -> is_drude a eta w z -> is_drude b eta w z -> a = b.
Proof. unfold is_drude. intros h h1 h2. rewrite h1 in h2. congruence. Qed.

Lemma steps_from wps w t : fold_left (fun t wp => if Rlt_dec wp w then t + 1 else t) wps t = t + steps wps w.
Proof.
  unfold steps. revert t. induction wps as [|a l IH]; intro t; cbn [fold_left]; [lra|].
  destruct (Rlt_dec a w); rewrite IH; rewrite (IH (0 + 1)) || idtac; lra.
Qed.
Lemma steps_nonneg wps w : 0 <= steps wps w.
Proof.
  assert (h : forall t, 0 <= t -> 0 <= fold_left (fun t wp => if Rlt_dec wp w then t + 1 else t) wps t).
  { induction wps as [|a l IH]; intros t ht; cbn [fold_left]; [lra|]. destruct (Rlt_dec a w); apply IH; lra. }
  apply h; lra.
Qed.
Lemma steps_count wps w : steps wps w = INR (length (filter (fun wp => if Rlt_dec wp w then true else false) wps)).
Proof.
  assert (h : forall t, fold_left (fun t wp => if Rlt_dec wp w then t + 1 else t) wps t
     = t + INR (length (filter (fun wp => if Rlt_dec wp w then true else false) wps))).
  { induction wps as [|a l IH]; intro t; cbn [fold_left filter length]; [cbn; lra|].
    destruct (Rlt_dec a w); rewrite IH; [cbn [length]; rewrite S_INR|]; lra. }
  unfold steps. rewrite h. lra.
Qed.

Lemma sigma1_form wps eta w wp w0 s : eta <> 0 -> exists z, is_drude wp eta w z /\
  sigma1 wps eta w (wp, (w0, s)) = (fst z + s * steps wps w, snd z + snd (interband s w0 w)).
Proof.
  intro h. exists (drude wp eta w). split; [now apply drude_is|].
  unfold sigma1, interband, inter_im. cbn [fst snd]. f_equal; [ring|]. field. exact PI_neq0.
Qed.

Lemma passive wps eta w wp w0 s : 0 < eta -> 0 <= wp -> 0 <= s -> 0 <= fst (sigma1 wps eta w (wp, (w0, s))).
Proof.
  intros h1 h2 h3. unfold sigma1, drude. cbn [fst].
  assert (0 < w * w + eta * eta) by (apply sumsq; lra).
  assert (0 <= wp * eta / (w * w + eta * eta)).
  { apply Rmult_le_pos; [apply Rmult_le_pos; lra|]. apply Rlt_le, Rinv_0_lt_compat; lra. }
  pose proof (steps_nonneg wps w). assert (0 <= steps wps w * s) by (apply Rmult_le_pos; lra). lra.
Qed.

Lemma equal_freqs wp eta w s : eta <> 0 -> exists z, is_drude wp eta w z /\
  sigma1 [wp] eta w (wp, (wp, s)) = cadd z (interband s wp w).
Proof.
  intro h. destruct (sigma1_form [wp] eta w wp wp s h) as (z & hz & e). exists z. split; [exact hz|].
  rewrite e. unfold cadd, interband. cbn [fst snd]. f_equal. f_equal. f_equal.
  unfold steps, theta. cbn [fold_left]. destruct (Rlt_dec wp w), (Rlt_dec 0 (w - wp)); lra.
Qed.

Lemma nth_combine {A B} (l : list A) (m : list B) j a b :
  nth_error l j = Some a -> nth_error m j = Some b -> nth_error (combine l m) j = Some (a, b).
Proof.
  revert m j. induction l as [|x l IH]; intros [|y m] [|j]; cbn; intros h1 h2; try discriminate.
  - congruence.
  - now apply IH.
Qed.
Lemma entry wps inter ss eta wl k j w wp w0 s :
  nth_error wl k = Some w -> nth_error wps j = Some wp -> nth_error inter j = Some w0 -> nth_error ss j = Some s ->
  exists rows row, get_conductivity (Array wps) inter ss eta wl = Ok rows /\ length rows = length wl /\
    nth_error rows k = Some row /\ nth_error row j = Some (sigma1 wps eta w (wp, (w0, s))).
Proof.
  intros h1 h2 h3 h4. eexists. eexists. repeat split.
  - now rewrite map_length.
  - apply map_nth_error. exact h1.
  - cbv beta. apply (map_nth_error (sigma1 wps eta w)). apply nth_combine; [exact h2|]. now apply nth_combine.
Qed.
