(** Lemmas about the data analysis. *)
From Coq Require Import Reals Lra String Permutation Sorted.
From Verif Require Import Base BaseProofs StatsModel StatsSpec.
Open Scope R_scope.

Lemma rsum_total l : rsum l = total l.
Proof. reflexivity. Qed.
Lemma mean_average l : mean l = average l.
Proof. reflexivity. Qed.
Lemma rsum_app a b : rsum (a ++ b) = rsum a + rsum b.
Proof. unfold rsum. induction a; cbn; [lra|]. rewrite IHa. lra. Qed.
Lemma rsum_ext {A} (f g : A -> R) l : (forall x, In x l -> f x = g x) -> rsum (map f l) = rsum (map g l).
Proof. induction l; cbn; intros H; [reflexivity|]. rewrite H by auto. f_equal. apply IHl. auto. Qed.
Lemma rsum_le {A} (f g : A -> R) l : (forall x, In x l -> f x <= g x) -> rsum (map f l) <= rsum (map g l).
Proof.
  unfold rsum. induction l as [|a l IH]; cbn; intros H; [lra|]. assert (f a <= g a) by auto.
  apply Rplus_le_compat; auto.
Qed.
Lemma rsum_scale {A} k (f : A -> R) l : rsum (map (fun x => k * f x) l) = k * rsum (map f l).
Proof. unfold rsum. induction l; cbn; [lra|]. rewrite IHl. lra. Qed.
Lemma rsum_count {A} k (p : A -> bool) l :
  rsum (map (fun x => if p x then 0 else k) l) = (INR (List.length l) - INR (List.length (filter p l))) * k.
Proof.
  induction l as [|a l IH]; [cbn; lra|]. cbn [map rsum fold_right filter List.length]. fold (rsum (map (fun x => if p x then 0 else k) l)).
  rewrite IH. destruct (p a); cbn [List.length]; rewrite ?S_INR; lra.
Qed.
Lemma variance_dev l : variance l = deviation2 l.
Proof.
  unfold variance, mean at 1, deviation2. rewrite map_length, rsum_total. f_equal. f_equal. apply map_ext. intros x.
  rewrite mean_average. ring.
Qed.
Lemma rsum_nonneg {A} (f : A -> R) l : (forall x, 0 <= f x) -> 0 <= rsum (map f l).
Proof. intros H. unfold rsum. induction l as [|a l IH]; cbn; [lra|]. specialize (H a). lra. Qed.
Lemma dev_nonneg l : 0 <= deviation2 l.
Proof.
  unfold deviation2. destruct l; [cbn; unfold Rdiv; rewrite Rinv_0; lra|].
  apply Rmult_le_pos; [rewrite <- rsum_total; apply rsum_nonneg; intros; apply pow2_ge_0|].
  left. apply Rinv_0_lt_compat. apply lt_0_INR. cbn. lia.
Qed.
Lemma std_sq l : std l * std l = deviation2 l.
Proof. unfold std. rewrite sqrt_sqrt; rewrite variance_dev; [reflexivity|apply dev_nonneg]. Qed.
Lemma std_pos l : 0 < deviation2 l -> 0 < std l.
Proof. intros H. unfold std. apply sqrt_lt_R0. rewrite variance_dev. exact H. Qed.
Lemma std_dev l : std l = sqrt (deviation2 l).
Proof. unfold std. rewrite variance_dev. reflexivity. Qed.

(** ** Tail averages *)
Lemma last_n_tail m (l : list R) : (m <= List.length l)%nat -> is_tail m l (last_n m l).
Proof.
  intros H. exists (firstn (List.length l - m) l). unfold last_n.
  split; [symmetry; apply firstn_skipn|]. rewrite skipn_length. lia.
Qed.
Lemma mean_std_ok l N : (0 < N)%nat -> l <> [] ->
  exists t, is_tail (Nat.max 1 (List.length l / N)) l t /\
    get_mean_std l (Z.of_nat N) = Ok (Some (average t, sqrt (deviation2 t))).
Proof.
  intros HN Hl. unfold get_mean_std. destruct (Z.eqb_spec (Z.of_nat N) 0); [lia|].
  rewrite <- Nat2Z.inj_div. change 1%Z with (Z.of_nat 1). rewrite <- Nat2Z.inj_max, Nat2Z.id.
  set (m := Nat.max 1 (List.length l / N)).
  assert (M : (m <= List.length l)%nat).
  { unfold m. apply Nat.max_lub; [destruct l; [congruence|cbn; lia]|]. apply Nat.div_le_upper_bound; [lia|]. nia. }
  pose proof (last_n_tail m l M) as T. exists (last_n m l). split; [exact T|].
  destruct T as (h & _ & E). rewrite <- std_dev. destruct (last_n m l) as [|x t]; [|reflexivity].
  change (0%nat = m) in E. pose proof (Nat.le_max_l 1 (List.length l / N)) as X. fold m in X. lia.
Qed.

(** ** z-score removal *)
Lemma zscore_kept data t : 0 < deviation2 data ->
  exists l, remove_outliers data "zscore" t = Ok l /\
    kept (fun x => Rabs (x - average data) < t * sqrt (deviation2 data)) data l.
Proof.
  intros H. unfold remove_outliers. cbn [String.eqb Ascii.eqb Bool.eqb].
  eexists. split; [reflexivity|].
  assert (S := std_pos _ H). rewrite <- std_dev.
  assert (E : forall x, below (zscore data x) t = true <-> Rabs (x - average data) < t * std data).
  { intros x. unfold zscore. destruct (Req_EM_T (std data) 0); [lra|]. cbn [below].
    unfold Rdiv. rewrite Rabs_mult, (Rabs_pos_eq (/ std data)) by (left; apply Rinv_0_lt_compat; exact S).
    rewrite mean_average. set (a := Rabs (x - average data)).
    destruct (Rlt_dec (a * / std data) t) as [D|D]; split; intros Q; try discriminate; try reflexivity.
    - apply (Rmult_lt_compat_r (std data)) in D; [|exact S]. rewrite Rmult_assoc, Rinv_l, Rmult_1_r in D by lra. exact D.
    - exfalso. apply D. apply (Rmult_lt_reg_r (std data)); [exact S|]. rewrite Rmult_assoc, Rinv_l by lra. lra. }
  set (p := fun x => below (zscore data x) t) in *. change (forall x, p x = true <-> Rabs (x - average data) < t * std data) in E.
  clearbody p. enough (G : forall l, kept (fun x => Rabs (x - average data) < t * std data) l (filter p l)) by apply G.
  induction l as [|x l IH]; [constructor|]. cbn [filter]. destruct (p x) eqn:P.
  - apply kept_yes; [apply E; exact P|exact IH].
  - apply kept_no; [|exact IH]. intros Q. apply E in Q. congruence.
Qed.
Lemma zscore_count data t l : 0 < deviation2 data -> 0 < t -> remove_outliers data "zscore" t = Ok l ->
  (INR (List.length data) - INR (List.length l)) * (t * t) <= INR (List.length data).
Proof.
  intros H T E. unfold remove_outliers in E. cbn [String.eqb Ascii.eqb Bool.eqb] in E.
  inversion E as [E']. clear E E'.
  pose proof (std_pos _ H) as S. pose proof (std_sq data) as Q.
  assert (N : 0 < INR (List.length data)).
  { destruct data; [unfold deviation2 in H; cbn in H; unfold Rdiv in H; rewrite Rinv_0 in H; lra|]. apply lt_0_INR. cbn. lia. }
  set (p := fun x => below (zscore data x) t). fold p.
  assert (B : rsum (map (fun x => if p x then 0 else (t * t) * deviation2 data) data) <=
              rsum (map (fun x => (x - average data) ^ 2) data)).
  { apply rsum_le. intros x _. destruct (p x) eqn:P; [apply pow2_ge_0|].
    unfold p, below, zscore in P. destruct (Req_EM_T (std data) 0); [lra|].
    destruct (Rlt_dec _ t) as [|D]; [discriminate|]. apply Rnot_lt_le in D. rewrite mean_average in D.
    unfold Rdiv in D. rewrite Rabs_mult, (Rabs_pos_eq (/ std data)) in D by (left; apply Rinv_0_lt_compat; exact S).
    set (a := Rabs (x - average data)) in *.
    assert (t * std data <= a).
    { apply (Rmult_le_compat_r (std data)) in D; [|lra]. rewrite Rmult_assoc, Rinv_l, Rmult_1_r in D by lra. exact D. }
    assert (0 <= a) by apply Rabs_pos.
    replace ((x - average data) ^ 2) with (a * a); [rewrite <- Q; assert (0 < t * std data) by nra; nra|].
    unfold a. rewrite <- Rabs_mult. rewrite Rabs_pos_eq; [ring|]. apply Rle_0_sqr. }
  rewrite rsum_count in B.
  assert (D2 : rsum (map (fun x => (x - average data) ^ 2) data) = INR (List.length data) * deviation2 data).
  { unfold deviation2. rewrite rsum_total. field. lra. }
  rewrite D2 in B. rewrite <- Rmult_assoc in B. apply Rmult_le_reg_r in B; [exact B|exact H].
Qed.
Lemma zscore_nonempty data t l : 0 < deviation2 data -> 1 < t -> remove_outliers data "zscore" t = Ok l -> l <> [].
Proof.
  intros H T E ->. pose proof (zscore_count data t [] H ltac:(lra) E) as B. cbn [List.length] in B.
  assert (N : 0 < INR (List.length data)).
  { destruct data; [unfold deviation2 in H; cbn in H; unfold Rdiv in H; rewrite Rinv_0 in H; lra|]. apply lt_0_INR. cbn. lia. }
  replace (INR 0) with 0 in B by reflexivity. assert (1 < t * t) by nra. set (n := INR (List.length data)) in *. nra.
Qed.
Lemma dev_const x n : deviation2 (repeat x (S n)) = 0.
Proof.
  assert (A : average (repeat x (S n)) = x).
  { unfold average. rewrite repeat_length. assert (T : forall k, total (repeat x k) = INR k * x).
    { induction k; [cbn; lra|]. rewrite S_INR. cbn [repeat total]. rewrite IHk. lra. }
    rewrite T. field. apply not_0_INR. lia. }
  unfold deviation2. rewrite A.
  replace (total (map (fun y => (y - x) ^ 2) (repeat x (S n)))) with 0; [lra|].
  generalize (S n). induction n0; cbn [repeat map total]; [reflexivity|]. rewrite <- IHn0. ring.
Qed.
Lemma zscore_const x n t : remove_outliers (repeat x (S n)) "zscore" t = Ok [].
Proof.
  unfold remove_outliers. cbn [String.eqb Ascii.eqb Bool.eqb]. f_equal.
  assert (Z : std (repeat x (S n)) = 0) by (rewrite std_dev, dev_const; apply sqrt_0).
  set (d := repeat x (S n)) in *. clearbody d.
  transitivity (filter (fun _ : R => false) d).
  - apply filter_ext. intros a. unfold zscore. destruct (Req_EM_T (std d) 0); [reflexivity|congruence].
  - clear Z. induction d; [reflexivity|exact IHd].
Qed.
Lemma zscore_two : remove_outliers [0; 2] "zscore" 1 = Ok [] /\ 0 < deviation2 [0; 2].
Proof.
  assert (D : deviation2 [0; 2] = 1) by (unfold deviation2, average; cbn; field).
  split; [|rewrite D; lra].
  assert (S : std [0; 2] = 1) by (rewrite std_dev, D; apply sqrt_1).
  assert (A : mean [0; 2] = 1) by (unfold mean; cbn; field).
  unfold remove_outliers. cbn [String.eqb Ascii.eqb Bool.eqb filter]. unfold zscore. rewrite S, A.
  destruct (Req_EM_T 1 0); [lra|]. cbn [below].
  replace ((0 - 1) / 1) with (- (1)) by field. replace ((2 - 1) / 1) with 1 by field. rewrite Rabs_Ropp, Rabs_R1.
  destruct (Rlt_dec 1 1); [lra|reflexivity].
Qed.

(** ** Quartile removal *)
Lemma insert_perm x l : Permutation (insert x l) (x :: l).
Proof.
  induction l as [|y r IH]; cbn [insert]; [reflexivity|]. destruct (Rle_dec x y); [reflexivity|].
  rewrite IH. apply perm_swap.
Qed.
Lemma sort_perm l : Permutation (sort l) l.
Proof. induction l; cbn [sort]; [reflexivity|]. rewrite insert_perm. constructor. exact IHl. Qed.
Lemma insert_sorted x l : StronglySorted Rle l -> StronglySorted Rle (insert x l).
Proof.
  induction l as [|y r IH]; intros H; cbn [insert]; [repeat constructor|].
  inversion H as [|? ? S F]; subst. destruct (Rle_dec x y) as [L|L].
  - constructor; [exact H|]. constructor; [exact L|]. eapply Forall_impl; [|exact F]. cbn. intros; lra.
  - constructor; [auto|]. rewrite Forall_forall in *. intros z Z.
    apply (Permutation_in _ (insert_perm x r)) in Z. destruct Z as [<-|Z]; [lra|auto].
Qed.
Lemma sort_sorted l : StronglySorted Rle (sort l).
Proof. induction l; cbn [sort]; [constructor|]. apply insert_sorted. exact IHl. Qed.
Lemma sorted_nth l : StronglySorted Rle l -> forall i j, (i <= j < List.length l)%nat -> nth i l 0 <= nth j l 0.
Proof.
  induction 1 as [|x r S IH F]; intros i j H; [cbn in H; lia|].
  destruct i as [|i], j as [|j]; cbn [nth List.length] in *; try lia; [lra| |apply IH; lia].
  rewrite Forall_forall in F. apply F. apply nth_In. lia.
Qed.
Lemma sort_nth data i j : (i <= j < List.length data)%nat -> nth i (sort data) 0 <= nth j (sort data) 0.
Proof. intros H. apply sorted_nth; [apply sort_sorted|]. rewrite (Permutation_length (sort_perm data)). exact H. Qed.
(** the interpolated quartile lies between the entries below and above *)
Lemma quartile_le data a k : data <> [] -> (a * (List.length data - 1) <= 4 * k)%nat -> (k < List.length data)%nat ->
  quartile a data <= nth k (sort data) 0.
Proof.
  intros N H K. unfold quartile. set (p := (a * (List.length data - 1))%nat) in *.
  pose proof (Nat.div_mod p 4 ltac:(lia)) as E. pose proof (Nat.mod_upper_bound p 4 ltac:(lia)) as U.
  set (j := (p / 4)%nat) in *. set (f := (p mod 4)%nat) in *.
  destruct (Nat.eq_dec f 0) as [Z|Z].
  - rewrite Z. replace (INR 0 / 4) with 0 by (cbn; lra).
    assert (nth j (sort data) 0 <= nth k (sort data) 0) by (apply sort_nth; lia). lra.
  - assert (J : (S j <= k)%nat) by lia.
    assert (nth j (sort data) 0 <= nth (S j) (sort data) 0) by (apply sort_nth; lia).
    assert (nth (S j) (sort data) 0 <= nth k (sort data) 0) by (apply sort_nth; lia).
    assert (0 <= INR f <= 4). { split; [apply pos_INR|]. replace 4 with (INR 4) by (cbn; lra). apply le_INR. lia. }
    nra.
Qed.
Lemma quartile_ge data a k : data <> [] -> (4 * k <= a * (List.length data - 1))%nat ->
  (a <= 4)%nat -> nth k (sort data) 0 <= quartile a data.
Proof.
  intros N H A4. unfold quartile. set (p := (a * (List.length data - 1))%nat) in *.
  assert (P4 : (p <= 4 * (List.length data - 1))%nat) by (unfold p; nia).
  assert (L : (0 < List.length data)%nat) by (destruct data; [congruence|cbn; lia]).
  pose proof (Nat.div_mod p 4 ltac:(lia)) as E. pose proof (Nat.mod_upper_bound p 4 ltac:(lia)) as U.
  set (j := (p / 4)%nat) in *. set (f := (p mod 4)%nat) in *.
  assert (nth k (sort data) 0 <= nth j (sort data) 0) by (apply sort_nth; lia).
  destruct (Nat.eq_dec f 0) as [Z|Z].
  - rewrite Z. replace (INR 0 / 4) with 0 by (cbn; lra). lra.
  - assert (nth j (sort data) 0 <= nth (S j) (sort data) 0) by (apply sort_nth; lia).
    assert (0 <= INR f) by apply pos_INR. nra.
Qed.
Lemma iqr_unfold data t : data <> [] -> remove_outliers data "iqr" t =
  Ok (filter (fun x => (if Rle_dec (quartile 1 data - t * (quartile 3 data - quartile 1 data)) x then true else false)
     && (if Rle_dec x (quartile 3 data + t * (quartile 3 data - quartile 1 data)) then true else false))%bool data).
Proof. intros H. destruct data; [congruence|reflexivity]. Qed.
Lemma iqr_kept data t : data <> [] ->
  exists l, remove_outliers data "iqr" t = Ok l /\
  kept (fun x => quartile 1 data - t * (quartile 3 data - quartile 1 data) <= x <=
                 quartile 3 data + t * (quartile 3 data - quartile 1 data)) data l.
Proof.
  intros H. rewrite iqr_unfold by exact H. eexists. split; [reflexivity|].
  generalize (quartile 1 data - t * (quartile 3 data - quartile 1 data)) as lo.
  generalize (quartile 3 data + t * (quartile 3 data - quartile 1 data)) as hi. intros hi lo. clear H.
  induction data as [|x l IH]; [constructor|]. cbn [filter].
  destruct (Rle_dec lo x); cbn [andb]; [destruct (Rle_dec x hi)|].
  - apply kept_yes; [lra|exact IH].
  - apply kept_no; [lra|exact IH].
  - apply kept_no; [lra|exact IH].
Qed.
Lemma iqr_nonempty data t l : data <> [] -> 0 <= t -> (List.length data <> 2)%nat ->
  remove_outliers data "iqr" t = Ok l -> l <> [].
Proof.
  intros N T L2 E. rewrite iqr_unfold in E by exact N. inversion E as [E']. clear E E'.
  assert (L : (0 < List.length data)%nat) by (destruct data; [congruence|cbn; lia]).
  set (n := List.length data) in *.
  assert (K : exists k, (n - 1 <= 4 * k <= 3 * (n - 1))%nat).
  { exists ((n - 1) / 2)%nat. pose proof (Nat.div_mod (n - 1) 2 ltac:(lia)). pose proof (Nat.mod_upper_bound (n - 1) 2 ltac:(lia)). lia. }
  destruct K as [k K].
  assert (Kn : (k < n)%nat) by lia.
  pose proof (quartile_le data 1 k N ltac:(fold n; lia) Kn) as Q1.
  pose proof (quartile_ge data 3 k N ltac:(fold n; lia) ltac:(lia)) as Q3.
  set (x := nth k (sort data) 0) in *.
  assert (I : In x data).
  { apply (Permutation_in _ (sort_perm data)). apply nth_In. rewrite (Permutation_length (sort_perm data)). exact Kn. }
  assert (F : In x (filter (fun x => (if Rle_dec (quartile 1 data - t * (quartile 3 data - quartile 1 data)) x then true else false)
     && (if Rle_dec x (quartile 3 data + t * (quartile 3 data - quartile 1 data)) then true else false))%bool data)).
  { apply filter_In. split; [exact I|]. destruct (Rle_dec _ x); [|exfalso; nra]. destruct (Rle_dec x _); [reflexivity|exfalso; nra]. }
  intros Z. rewrite Z in F. exact F.
Qed.
Lemma iqr_two : remove_outliers [0; 1] "iqr" (1 / 4) = Ok [].
Proof.
  rewrite iqr_unfold by discriminate.
  assert (S : sort [0; 1] = [0; 1]) by (cbn; destruct (Rle_dec 0 1); [reflexivity|lra]).
  assert (Q1 : quartile 1 [0; 1] = 1 / 4) by (unfold quartile; rewrite S; cbn; field).
  assert (Q3 : quartile 3 [0; 1] = 3 / 4) by (unfold quartile; rewrite S; cbn; field).
  rewrite Q1, Q3. cbn [filter].
  repeat (destruct (Rle_dec _ _); cbn [andb]; try lra). reflexivity.
Qed.

(** ** Automatic window *)
Lemma first_false_some l k : first_false l = Some k ->
  nth_error l k = Some false /\ forall i, (i < k)%nat -> nth_error l i = Some true.
Proof.
  revert k. induction l as [|b r IH]; cbn [first_false]; intros k H; [discriminate|].
  destruct b.
  - destruct (first_false r) as [j|] eqn:E; cbn in H; [|discriminate]. inversion H; subst.
    destruct (IH j eq_refl) as [A B]. split; [exact A|]. intros [|i] Hi; [reflexivity|]. cbn. apply B. lia.
  - inversion H; subst. split; [reflexivity|]. intros i Hi; lia.
Qed.
Lemma first_false_none l : first_false l = None -> forall b, In b l -> b = true.
Proof.
  induction l as [|b r IH]; cbn [first_false]; intros H c I; [destruct I|].
  destruct b; [|discriminate]. destruct (first_false r); [discriminate|]. destruct I as [<-|I]; auto.
Qed.
Lemma nth_error_seq0 n k : (k < n)%nat -> nth_error (seq 0 n) k = Some k.
Proof.
  intros H. rewrite (nth_error_nth' _ 0%nat) by (rewrite seq_length; exact H). rewrite seq_nth by exact H. reflexivity.
Qed.
Lemma mask_nth taus c k : (k < List.length taus)%nat ->
  nth_error (mask taus c) k = Some (if Rlt_dec (INR k) (c * nth k taus 0) then true else false).
Proof. intros H. unfold mask. rewrite nth_error_map, nth_error_seq0 by exact H. reflexivity. Qed.
Lemma mask_len taus c : List.length (mask taus c) = List.length taus.
Proof. unfold mask. rewrite map_length, seq_length. reflexivity. Qed.
Lemma window_ok taus c :
  (exists k, (k < List.length taus)%nat /\ INR k < c * nth k taus 0) ->
  (exists k, (k < List.length taus)%nat /\ c * nth k taus 0 <= INR k) ->
  exists M, auto_window taus c = Z.of_nat M /\ (M < List.length taus)%nat /\ c * nth M taus 0 <= INR M /\
    forall k, (k < M)%nat -> INR k < c * nth k taus 0.
Proof.
  intros (k1 & L1 & H1) (k2 & L2 & H2). unfold auto_window.
  assert (T : existsb (fun b => b) (mask taus c) = true).
  { apply existsb_exists. exists true. split; [|reflexivity]. apply (nth_error_In _ k1). rewrite mask_nth by exact L1.
    destruct (Rlt_dec _ _); [reflexivity|contradiction]. }
  rewrite T. unfold argmin. destruct (first_false (mask taus c)) as [M|] eqn:E.
  - apply first_false_some in E. destruct E as [A B]. exists M.
    assert (LM : (M < List.length taus)%nat) by (rewrite <- (mask_len taus c); apply nth_error_Some; congruence).
    split; [reflexivity|]. split; [exact LM|]. rewrite mask_nth in A by exact LM. split.
    + destruct (Rlt_dec _ _); [discriminate|lra].
    + intros k Hk. specialize (B k Hk). rewrite mask_nth in B by lia. destruct (Rlt_dec (INR k) _); [assumption|discriminate].
  - exfalso. assert (X := first_false_none _ E false).
    assert (I : In false (mask taus c)).
    { apply (nth_error_In _ k2). rewrite mask_nth by exact L2. destruct (Rlt_dec _ _); [lra|reflexivity]. }
    specialize (X I). discriminate.
Qed.
Lemma window_all taus c : taus <> [] -> (forall k, (k < List.length taus)%nat -> INR k < c * nth k taus 0) ->
  auto_window taus c = 0%Z.
Proof.
  intros N H. unfold auto_window.
  assert (A : forall b, In b (mask taus c) -> b = true).
  { intros b I. apply In_nth_error in I. destruct I as [k K]. assert (L : (k < List.length taus)%nat) by (rewrite <- (mask_len taus c); apply nth_error_Some; congruence).
    rewrite mask_nth in K by exact L. specialize (H k L). destruct (Rlt_dec _ _); [congruence|contradiction]. }
  destruct (mask taus c) as [|b r] eqn:E.
  { assert (Z := mask_len taus c). rewrite E in Z. destruct taus; [congruence|discriminate]. }
  assert (b = true) by (apply A; left; reflexivity). subst b. cbn [existsb orb].
  unfold argmin. destruct (first_false (true :: r)) eqn:F; [|reflexivity].
  apply first_false_some in F. destruct F as [F _]. apply nth_error_In in F. apply A in F. discriminate.
Qed.
Lemma window_none taus c : (forall k, (k < List.length taus)%nat -> c * nth k taus 0 <= INR k) ->
  auto_window taus c = (Z.of_nat (List.length taus) - 1)%Z.
Proof.
  intros H. unfold auto_window. destruct (existsb (fun b => b) (mask taus c)) eqn:E; [|reflexivity].
  apply existsb_exists in E. destruct E as (b & I & B). subst.
  apply In_nth_error in I. destruct I as [k K]. assert (L : (k < List.length taus)%nat) by (rewrite <- (mask_len taus c); apply nth_error_Some; congruence).
  rewrite mask_nth in K by exact L. specialize (H k L). destruct (Rlt_dec _ _); [lra|discriminate].
Qed.
Lemma window_bad1 : exists taus c, taus <> [] /\ 0 < c /\
  (forall k, (k < List.length taus)%nat -> INR k < c * nth k taus 0) /\ auto_window taus c <> (Z.of_nat (List.length taus) - 1)%Z.
Proof.
  exists [1; 1], 5. split; [discriminate|]. split; [lra|].
  assert (H : forall k, (k < List.length [1; 1])%nat -> INR k < 5 * nth k [1; 1] 0).
  { intros [|[|k]] Hk; cbn in *; try lra; lia. }
  split; [exact H|]. rewrite window_all; [cbn; lia|discriminate|exact H].
Qed.
Lemma window_bad2 : exists taus c, 0 < c /\ (1 < List.length taus)%nat /\ c * nth 0 taus 0 <= INR 0 /\ auto_window taus c <> 0%Z.
Proof.
  exists [-1; -1], 1. split; [lra|]. split; [cbn; lia|]. split; [cbn; lra|].
  rewrite window_none; [cbn; lia|]. intros [|[|k]] Hk; cbn in *; try lra; lia.
Qed.

(** ** Blocks *)
Lemma slice_len {A} (l : list A) i j : (j <= List.length l)%nat -> List.length (slice l i j) = (j - i)%nat.
Proof. intros H. unfold slice. rewrite firstn_length, skipn_length. lia. Qed.
Lemma skipn_skipn' {A} a b (l : list A) : skipn a (skipn b l) = skipn (a + b) l.
Proof.
  revert l. induction b as [|b IH]; intros l; [rewrite Nat.add_0_r; reflexivity|].
  replace (a + S b)%nat with (S (a + b)) by lia. destruct l; cbn [skipn]; [apply skipn_nil|apply IH].
Qed.
Lemma slice_cons_app {A} (l : list A) i j k : (i <= j <= k)%nat -> slice l i j ++ slice l j k = slice l i k.
Proof.
  intros H. unfold slice. replace (skipn j l) with (skipn (j - i) (skipn i l)) by (rewrite skipn_skipn'; f_equal; lia).
  replace (k - i)%nat with ((j - i) + (k - j))%nat by lia. generalize (skipn i l) as m. intros m.
  revert m. induction (j - i)%nat as [|a IH]; intros m; [reflexivity|].
  destruct m; cbn [skipn firstn Nat.add app]; [rewrite !firstn_nil; reflexivity|]. f_equal. apply IH.
Qed.
Lemma blocks_concat y bs nb : concat (blocks y bs nb) = slice y 0 (nb * bs).
Proof.
  unfold blocks. induction nb as [|n IH]; [reflexivity|].
  rewrite seq_S, map_app, concat_app, IH. cbn [map concat Nat.add]. rewrite app_nil_r.
  rewrite slice_cons_app by nia. f_equal. lia.
Qed.
Lemma blocks_len y bs nb b : (nb * bs <= List.length y)%nat -> In b (blocks y bs nb) -> List.length b = bs.
Proof.
  intros H I. unfold blocks in I. apply in_map_iff in I. destruct I as (i & <- & I). apply in_seq in I.
  rewrite slice_len by nia. nia.
Qed.
Lemma blocks_partition y bs : (0 < bs)%nat ->
  exists rest, concat (blocks y bs (List.length y / bs)) ++ rest = y /\ (List.length rest < bs)%nat /\
    List.length (blocks y bs (List.length y / bs)) = (List.length y / bs)%nat /\
    forall b, In b (blocks y bs (List.length y / bs)) -> List.length b = bs.
Proof.
  intros H. set (nb := (List.length y / bs)%nat).
  pose proof (Nat.div_mod (List.length y) bs ltac:(lia)) as E. fold nb in E.
  pose proof (Nat.mod_upper_bound (List.length y) bs ltac:(lia)) as U.
  exists (skipn (nb * bs) y). rewrite blocks_concat. unfold slice at 1. rewrite Nat.sub_0_r. cbn [skipn].
  split; [apply firstn_skipn|]. split; [rewrite skipn_length; nia|].
  split; [unfold blocks; rewrite map_length, seq_length; reflexivity|].
  intros b I. apply (blocks_len y bs nb b); [nia|exact I].
Qed.
Lemma mean_blocks (ls : list (list R)) bs : (0 < bs)%nat -> ls <> [] -> (forall b, In b ls -> List.length b = bs) ->
  mean (map mean ls) = average (concat ls).
Proof.
  intros H N L.
  assert (E : rsum (map mean ls) = rsum (concat ls) / INR bs /\ List.length (concat ls) = (List.length ls * bs)%nat).
  { clear N. induction ls as [|b r IH]; [split; cbn; [unfold Rdiv; lra|reflexivity]|].
    destruct IH as [I1 I2]; [intros; apply L; right; assumption|].
    cbn [map concat rsum fold_right]. fold (rsum (map mean r)). rewrite I1, rsum_app. unfold mean at 1. rewrite (L b) by (left; reflexivity).
    split; [unfold Rdiv; ring|]. rewrite app_length, I2, (L b) by (left; reflexivity). cbn. lia. }
  destruct E as [E1 E2]. unfold mean at 1, average. rewrite map_length, E1, E2, mult_INR, rsum_total. field.
  split; apply not_0_INR; destruct ls; try congruence; cbn; lia.
Qed.
Lemma block_analysis_ok y bs : (0 < bs <= List.length y)%nat ->
  exists err rest, block_analysis y (Z.of_nat bs) =
    Ok (Some (average (concat (blocks y bs (List.length y / bs))), err), Z.of_nat (List.length y / bs)) /\
    y = concat (blocks y bs (List.length y / bs)) ++ rest /\ (List.length rest < bs)%nat /\
    err = sqrt (deviation2 (map average (blocks y bs (List.length y / bs)))) / sqrt (INR (List.length y / bs)).
Proof.
  intros H. destruct (blocks_partition y bs ltac:(lia)) as (rest & A & B & C & D).
  unfold block_analysis. destruct (Z.eqb_spec (Z.of_nat bs) 0); [lia|].
  rewrite <- Nat2Z.inj_div, !Nat2Z.id.
  assert (P : (0 < List.length y / bs)%nat) by (apply Nat.div_str_pos; lia).
  set (nb := (List.length y / bs)%nat) in *. set (bl := blocks y bs nb) in *.
  assert (N : bl <> []) by (intros Z; rewrite Z in C; cbn in C; lia).
  assert (M := mean_blocks bl bs ltac:(lia) N D).
  exists (std (map mean bl) / sqrt (IZR (Z.of_nat nb))), rest.
  split; [|split; [auto|split; [exact B|]]].
  - destruct (map mean bl) as [|z r] eqn:E; [destruct bl; [congruence|discriminate]|]. rewrite M. reflexivity.
  - rewrite std_dev, <- INR_IZR_INZ. reflexivity.
Qed.
Lemma ceil_nat r n : INR n < r -> r <= INR (S n) -> ceil r = Z.of_nat (S n).
Proof.
  intros A B. unfold ceil.
  assert (E : Int_part (- r) = (- Z.of_nat (S n))%Z).
  { unfold Int_part. assert (U : (1 - Z.of_nat (S n))%Z = up (- r)).
    { apply tech_up; rewrite minus_IZR, <- INR_IZR_INZ, S_INR in *; lra. }
    rewrite <- U. lia. }
  rewrite E. lia.
Qed.
Lemma quartile_ok a data : is_quartile a data (quartile a data).
Proof.
  exists (sort data), (a * (List.length data - 1) / 4)%nat, ((a * (List.length data - 1)) mod 4)%nat.
  split; [apply sort_perm|]. split.
  { intros i j H. apply sort_nth. rewrite (Permutation_length (sort_perm data)) in H. exact H. }
  split; [apply Nat.div_mod; lia|]. split; [apply Nat.mod_upper_bound; lia|]. reflexivity.
Qed.
Lemma iqr_spec data t : data <> [] -> exists q1 q3 l, is_quartile 1 data q1 /\ is_quartile 3 data q3 /\
  remove_outliers data "iqr" t = Ok l /\
  kept (fun x => q1 - t * (q3 - q1) <= x <= q3 + t * (q3 - q1)) data l.
Proof.
  intros H. destruct (iqr_kept data t H) as (l & A & B).
  exists (quartile 1 data), (quartile 3 data), l. split; [apply quartile_ok|]. split; [apply quartile_ok|]. auto.
Qed.
(** ** Autocorrelation time *)
Lemma corr_cons x l k : corr (x :: l) k = x * nth k (x :: l) 0 + corr l k.
Proof.
  unfold corr. cbn [List.length]. destruct (Nat.le_gt_cases k (List.length l)) as [H|H].
  - replace (S (List.length l) - k)%nat with (S (List.length l - k)) by lia.
    cbn [seq map rsum fold_right]. f_equal. rewrite <- seq_shift, map_map. reflexivity.
  - replace (S (List.length l) - k)%nat with 0%nat by lia. replace (List.length l - k)%nat with 0%nat by lia.
    cbn [seq map rsum fold_right]. rewrite nth_overflow by (cbn; lia). lra.
Qed.
Lemma corr_over l k : (List.length l <= k)%nat -> corr l k = 0.
Proof. intros H. unfold corr. replace (List.length l - k)%nat with 0%nat by lia. reflexivity. Qed.
Lemma rsum_plus {A} (f g : A -> R) l : rsum (map (fun x => f x + g x) l) = rsum (map f l) + rsum (map g l).
Proof. unfold rsum. induction l; cbn; [lra|]. rewrite IHl. lra. Qed.
Lemma rsum_nth l : rsum (map (fun k => nth k l 0) (seq 0 (List.length l))) = rsum l.
Proof.
  induction l as [|x l IH]; [reflexivity|]. cbn [List.length seq map rsum fold_right nth].
  fold (rsum (map (fun k => match k with 0%nat => x | S m => nth m l 0 end) (seq 1 (List.length l)))). rewrite <- seq_shift, map_map.
  unfold rsum in *. rewrite IH. reflexivity.
Qed.
Lemma corr_sum l : 2 * rsum (map (corr l) (seq 0 (List.length l))) - corr l 0 = rsum l * rsum l.
Proof.
  induction l as [|x l IH]; [cbn; lra|].
  rewrite (rsum_ext _ (fun k => x * nth k (x :: l) 0 + corr l k)) by (intros; apply corr_cons).
  rewrite rsum_plus, rsum_scale, (rsum_nth (x :: l)).
  replace (rsum (map (corr l) (seq 0 (List.length (x :: l))))) with (rsum (map (corr l) (seq 0 (List.length l)))).
  - rewrite corr_cons. cbn [nth]. change (rsum (x :: l)) with (x + rsum l). lra.
  - cbn [List.length]. rewrite seq_S, map_app, rsum_app. cbn [map Nat.add]. rewrite (corr_over l (List.length l)) by lia. cbn. lra.
Qed.
Lemma taus_len y : List.length (taus y) = List.length y.
Proof. unfold taus. rewrite map_length, seq_length. reflexivity. Qed.
Lemma taus_nth y k : (k < List.length y)%nat ->
  nth k (taus y) 0 = 2 * rsum (map (fun j => corr (deviations y) j / corr (deviations y) 0) (seq 0 (S k))) - 1.
Proof.
  intros H. apply nth_error_nth. unfold taus. rewrite nth_error_map, nth_error_seq0 by exact H. reflexivity.
Qed.
Lemma deviations_sum y : y <> [] -> rsum (deviations y) = 0.
Proof.
  intros H. unfold deviations. set (m := mean y) in *.
  assert (E : forall l, rsum (map (fun x => x - m) l) = rsum l - INR (List.length l) * m).
  { induction l as [|a l IH]; [cbn; lra|]. cbn [List.length map rsum fold_right]. fold (rsum (map (fun x => x - m) l)). fold (rsum l).
    rewrite IH, S_INR. lra. }
  rewrite E. unfold m, mean. field. apply not_0_INR. destruct y; [congruence|discriminate].
Qed.
Lemma corr0 y : y <> [] -> corr (deviations y) 0 = INR (List.length y) * deviation2 y.
Proof.
  intros N. unfold deviation2. rewrite <- mean_average.
  transitivity (total (map (fun x => (x - mean y) ^ 2) y)).
  2: { field. apply not_0_INR. destruct y; [congruence|discriminate]. }
  unfold deviations. generalize (mean y) as m. intros m. clear N.
  induction y as [|x l IH]; [reflexivity|].
  cbn [map total]. rewrite corr_cons. cbn [nth]. rewrite IH. ring.
Qed.
Lemma time_spec y c : (2 <= List.length y)%nat -> 0 < deviation2 y -> 0 < c ->
  exists M, (1 <= M < List.length y)%nat /\ auto_window (taus y) c = Z.of_nat M /\
    get_autocorr_time y c = Some (nth M (taus y) 0) /\ c * nth M (taus y) 0 <= INR M /\
    (forall k, (k < M)%nat -> INR k < c * nth k (taus y) 0).
Proof.
  intros L D Hc.
  assert (N : y <> []) by (intros ->; cbn in L; lia).
  assert (P : 0 < INR (List.length y)) by (apply lt_0_INR; lia).
  assert (C0 : 0 < corr (deviations y) 0) by (rewrite corr0 by exact N; nra).
  set (d := deviations y) in *.
  assert (Ld : List.length d = List.length y) by (unfold d, deviations; apply map_length).
  assert (T0 : nth 0 (taus y) 0 = 1).
  { rewrite taus_nth by lia. cbn [seq map rsum fold_right]. fold d. field. lra. }
  assert (TL : nth (List.length y - 1) (taus y) 0 = 0).
  { rewrite taus_nth by lia. replace (S (List.length y - 1)) with (List.length d) by lia. fold d.
    transitivity ((2 * rsum (map (corr d) (seq 0 (List.length d))) - corr d 0) / corr d 0).
    - rewrite (rsum_ext _ (fun j => / corr d 0 * corr d j)) by (intros; unfold Rdiv; ring).
      rewrite (rsum_scale (/ corr d 0) (corr d)). field. lra.
    - rewrite corr_sum. unfold d at 1 2. rewrite deviations_sum by exact N. unfold Rdiv. ring. }
  destruct (window_ok (taus y) c) as (M & A & B & E & F).
  - exists 0%nat. rewrite taus_len. split; [lia|]. rewrite T0. cbn. lra.
  - exists (List.length y - 1)%nat. rewrite taus_len. split; [lia|]. rewrite TL, Rmult_0_r. apply pos_INR.
  - rewrite taus_len in B. exists M. split.
    { split; [|exact B]. destruct M as [|M]; [|lia]. rewrite T0 in E. cbn in E. lra. }
    split; [exact A|]. split; [|auto]. unfold get_autocorr_time. fold d. destruct (Req_EM_T (corr d 0) 0); [lra|].
    rewrite A, Nat2Z.id. reflexivity.
Qed.

(** ** The whole analysis *)
Lemma pos_ceil r : 0 < r -> exists n, INR n < r <= INR (S n).
Proof.
  intros H. destruct (archimed r) as [A B].
  assert (U : (1 <= up r)%Z) by (assert (0 < up r)%Z by (apply lt_IZR; lra); lia).
  destruct (Req_EM_T (IZR (up r - 1)) r) as [E|E].
  - assert (2 <= up r)%Z. { destruct (Z.eq_dec (up r) 1) as [E1|]; [rewrite E1 in E; cbn in E; lra|lia]. }
    exists (Z.to_nat (up r - 2)). rewrite S_INR, INR_IZR_INZ, Z2Nat.id by lia. rewrite minus_IZR in *. lra.
  - exists (Z.to_nat (up r - 1)). rewrite S_INR, INR_IZR_INZ, Z2Nat.id by lia. rewrite minus_IZR in *. lra.
Qed.
Lemma analysis_ok y yc t : remove_outliers y "zscore" t = Ok yc -> (2 <= List.length yc)%nat -> 0 < deviation2 yc ->
  exists tau, get_autocorr_time yc 5 = Some tau /\ 5 * tau <= INR (List.length yc - 1) /\
  (0 < tau -> exists n bl rest err, INR n < tau <= INR (S n) /\
    analysis_autocorr y "zscore" t = Ok (Some (average (concat bl), err), Z.of_nat (List.length bl), Z.of_nat (S n)) /\
    yc = concat bl ++ rest /\ (List.length rest < S n)%nat /\ bl <> [] /\ (forall b, In b bl -> List.length b = S n) /\
    err = sqrt (deviation2 (map average bl)) / sqrt (INR (List.length bl))) /\
  (-1 < tau <= 0 -> analysis_autocorr y "zscore" t = Err ZeroDivisionError).
Proof.
  intros E L D.
  destruct (time_spec yc 5 L D ltac:(lra)) as (M & ML & _ & T & TM & _). exists (nth M (taus yc) 0).
  set (tau := nth M (taus yc) 0) in *.
  assert (B : 5 * tau <= INR (List.length yc - 1)) by (apply Rle_trans with (INR M); [exact TM|apply le_INR; lia]).
  split; [exact T|]. split; [exact B|].
  assert (LG : (0 < Nat.log2 (List.length yc))%nat) by (apply Nat.log2_pos; lia).
  unfold analysis_autocorr. rewrite E. cbn [rbind].
  destruct (Nat.eqb_spec (List.length yc) 0); [lia|].
  destruct (Nat.eqb_spec (Nat.log2 (List.length yc)) 0) as [Z|_]; [lia|]. rewrite T.
  split.
  - intros P. destruct (pos_ceil tau P) as (n1 & T1 & T2). exists n1.
    assert (N : (S n1 <= List.length yc)%nat).
    { assert (INR n1 < INR (List.length yc - 1)) by (pose proof (pos_INR n1); lra). apply INR_lt in H. lia. }
    rewrite (ceil_nat _ n1 T1 T2).
    destruct (block_analysis_ok yc (S n1) ltac:(lia)) as (err & rest & A & B' & C & D').
    destruct (blocks_partition yc (S n1) ltac:(lia)) as (_ & _ & _ & K & Q).
    rewrite A. cbn [rmap]. exists (blocks yc (S n1) (List.length yc / S n1)), rest, err. rewrite K.
    split; [auto|]. split; [reflexivity|]. split; [exact B'|]. split; [exact C|]. split; [|split; [exact Q|exact D']].
    intros Z. rewrite Z in K. cbn [List.length] in K.
    assert (0 < List.length yc / S n1)%nat by (apply Nat.div_str_pos; lia). lia.
  - intros [T1 T2].
    assert (C : ceil tau = 0%Z).
    { unfold ceil, Int_part. assert (U : 1%Z = up (- tau)) by (apply tech_up; lra). rewrite <- U. reflexivity. }
    rewrite C. reflexivity.
Qed.
Lemma anti_mean : average [1; -1] = 0.
Proof. unfold average. cbn. field. Qed.
Lemma anti_dev : deviation2 [1; -1] = 1.
Proof. unfold deviation2. rewrite anti_mean. cbn. field. Qed.
Lemma anti_clean : remove_outliers [1; -1] "zscore" 10 = Ok [1; -1].
Proof.
  assert (S : std [1; -1] = 1) by (rewrite std_dev, anti_dev; apply sqrt_1).
  unfold remove_outliers. cbn [String.eqb Ascii.eqb Bool.eqb filter]. unfold zscore. rewrite S, mean_average, anti_mean.
  destruct (Req_EM_T 1 0); [lra|]. cbn [below].
  replace ((1 - 0) / 1) with 1 by field. replace ((-1 - 0) / 1) with (- (1)) by field. rewrite Rabs_Ropp, Rabs_R1.
  destruct (Rlt_dec 1 10); [reflexivity|lra].
Qed.
Lemma anti_bad : analysis_autocorr [1; -1] "zscore" 10 = Err ZeroDivisionError.
Proof.
  assert (D : 0 < deviation2 [1; -1]) by (rewrite anti_dev; lra).
  destruct (analysis_ok _ _ 10 anti_clean ltac:(cbn; lia) D) as (tau & T & _ & _ & Z). apply Z.
  destruct (time_spec [1; -1] 5 ltac:(cbn; lia) D ltac:(lra)) as (M & ML & _ & T' & _ & _).
  cbn [List.length] in ML. assert (M = 1%nat) by lia. subst M. assert (E : tau = nth 1 (taus [1; -1]) 0) by congruence. rewrite E. clear.
  rewrite taus_nth by (cbn; lia). unfold deviations. rewrite mean_average, anti_mean. unfold corr. cbn. lra.
Qed.

Lemma analysis_short y yc m t : remove_outliers y m t = Ok yc -> (List.length yc < 2)%nat ->
  analysis_autocorr y m t = Err (if Nat.eqb (List.length yc) 0 then OverflowError else IndexError).
Proof.
  intros H L. unfold analysis_autocorr. rewrite H. cbn [rbind].
  destruct yc as [|a [|b r]]; [reflexivity | reflexivity | cbn in L; lia].
Qed.
