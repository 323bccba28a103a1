(** Properties of the data analysis: C37-C40, C74, C111. *)
From Coq Require Import Reals Lra String.
From Verif Require Import Base StatsModel StatsSpec StatsProofs.
Open Scope R_scope.

(** C37. *)
Theorem C37_tail : forall l N, (0 < N)%nat -> l <> [] ->
  exists t, is_tail (Nat.max 1 (List.length l / N)) l t /\
    get_mean_std l (Z.of_nat N) = Ok (Some (average t, sqrt (deviation2 t))).
Proof. exact mean_std_ok. Qed.
Print Assumptions C37_tail.
Example C37_ex : last_n 2 [5; 7; 9] = [7; 9] /\ Nat.max 1 (List.length [5; 7; 9] / 10) = 1%nat.
Proof. split; reflexivity. Qed.

(** C38.  For data that are not all equal, exactly the samples within
    threshold standard deviations are kept, in order ... *)
Theorem C38_inliers : forall data t, 0 < deviation2 data ->
  exists l, remove_outliers data "zscore" t = Ok l /\
    kept (fun x => Rabs (x - average data) < t * sqrt (deviation2 data)) data l.
Proof. exact zscore_kept. Qed.
Print Assumptions C38_inliers.
(** ... and at most a fraction 1/threshold^2 is dropped. *)
Theorem C38_fraction : forall data t l, 0 < deviation2 data -> 0 < t ->
  remove_outliers data "zscore" t = Ok l ->
  (INR (List.length data) - INR (List.length l)) * (t * t) <= INR (List.length data).
Proof. exact zscore_count. Qed.
Print Assumptions C38_fraction.
Example C38_ex : 0 < deviation2 [0; 2].
Proof. apply zscore_two. Qed.

(** C39.  For non-constant cleaned data with a positive autocorrelation time,
    the blocks are contiguous, of equal size (the time rounded up), cover all
    but fewer than one block of the cleaned samples; the reported value is the
    average of the covered samples and the error that of the block averages.
    A time between -1 and 0 makes the analysis fail. *)
Theorem C39_blocks_partial : forall y yc t,
  remove_outliers y "zscore" t = Ok yc -> (2 <= List.length yc)%nat -> 0 < deviation2 yc ->
  exists tau, get_autocorr_time yc 5 = Some tau /\ 5 * tau <= INR (List.length yc - 1) /\
  (0 < tau -> exists n bl rest err, INR n < tau <= INR (S n) /\
    analysis_autocorr y "zscore" t = Ok (Some (average (concat bl), err), Z.of_nat (List.length bl), Z.of_nat (S n)) /\
    yc = concat bl ++ rest /\ (List.length rest < S n)%nat /\ bl <> [] /\ (forall b, In b bl -> List.length b = S n) /\
    err = sqrt (deviation2 (map average bl)) / sqrt (INR (List.length bl))) /\
  (-1 < tau <= 0 -> analysis_autocorr y "zscore" t = Err ZeroDivisionError).
Proof. exact analysis_ok. Qed.
Print Assumptions C39_blocks_partial.
(** Anticorrelated data, for instance 1, -1, have such a time. *)
Theorem C39_zero_block_refuted : exists y, (2 <= List.length y)%nat /\ 0 < deviation2 y /\
  remove_outliers y "zscore" 10 = Ok y /\ analysis_autocorr y "zscore" 10 = Err ZeroDivisionError.
Proof.
  exists [1; -1]. split; [cbn; lia|]. split; [rewrite anti_dev; lra|]. split; [exact anti_clean|exact anti_bad].
Qed.
Print Assumptions C39_zero_block_refuted.
(** Fewer than two cleaned samples make it fail, too. *)
Theorem C39_short_refuted : forall y yc m t, remove_outliers y m t = Ok yc -> (List.length yc < 2)%nat ->
  analysis_autocorr y m t = Err (if Nat.eqb (List.length yc) 0 then OverflowError else IndexError).
Proof. exact analysis_short. Qed.
Print Assumptions C39_short_refuted.
Example C39_ex : blocks [1; 2; 3; 4; 5] 2 2 = [[1; 2]; [3; 4]].
Proof. reflexivity. Qed.

(** C40.  When some lag is below c tau and some is not, the smallest
    self-consistent window is returned. *)
Theorem C40_smallest_partial : forall taus c,
  (exists k, (k < List.length taus)%nat /\ INR k < c * nth k taus 0) ->
  (exists k, (k < List.length taus)%nat /\ c * nth k taus 0 <= INR k) ->
  exists M, auto_window taus c = Z.of_nat M /\ (M < List.length taus)%nat /\ c * nth M taus 0 <= INR M /\
    forall k, (k < M)%nat -> INR k < c * nth k taus 0.
Proof. exact window_ok. Qed.
Print Assumptions C40_smallest_partial.
(** When no window is self-consistent the answer is 0, not the last index. *)
Theorem C40_none_refuted : exists taus c, taus <> [] /\ 0 < c /\
  (forall k, (k < List.length taus)%nat -> INR k < c * nth k taus 0) /\
  auto_window taus c <> (Z.of_nat (List.length taus) - 1)%Z.
Proof. exact window_bad1. Qed.
Print Assumptions C40_none_refuted.
Theorem C40_none_partial : forall taus c, taus <> [] ->
  (forall k, (k < List.length taus)%nat -> INR k < c * nth k taus 0) -> auto_window taus c = 0%Z.
Proof. exact window_all. Qed.
Print Assumptions C40_none_partial.
(** When every window is, the last one is returned instead of the first. *)
Theorem C40_all_refuted : exists taus c, 0 < c /\ (1 < List.length taus)%nat /\
  c * nth 0 taus 0 <= INR 0 /\ auto_window taus c <> 0%Z.
Proof. exact window_bad2. Qed.
Print Assumptions C40_all_refuted.
Theorem C40_all_partial : forall taus c, (forall k, (k < List.length taus)%nat -> c * nth k taus 0 <= INR k) ->
  auto_window taus c = (Z.of_nat (List.length taus) - 1)%Z.
Proof. exact window_none. Qed.
Print Assumptions C40_all_partial.
(** In [get_autocorr_time] the window is always the smallest self-consistent
    one for non-constant data: the time of the last lag is zero. *)
Theorem C40_time_partial : forall y c, (2 <= List.length y)%nat -> 0 < deviation2 y -> 0 < c ->
  exists M, (1 <= M < List.length y)%nat /\ auto_window (taus y) c = Z.of_nat M /\
    get_autocorr_time y c = Some (nth M (taus y) 0) /\ c * nth M (taus y) 0 <= INR M /\
    (forall k, (k < M)%nat -> INR k < c * nth k (taus y) 0).
Proof. exact time_spec. Qed.
Print Assumptions C40_time_partial.
Example C40_ex : (INR 0 < 1 * nth 0 [1; 1; 1] 0) /\ 1 * nth 1 [1; 1; 1] 0 <= INR 1.
Proof. cbn. lra. Qed.

(** C74.  Constant data are removed altogether, for any threshold, and so
    are two different samples at threshold 1 ... *)
Theorem C74_constant_partial : forall x n t, remove_outliers (repeat x (S n)) "zscore" t = Ok [].
Proof. exact zscore_const. Qed.
Print Assumptions C74_constant_partial.
Theorem C74_two_refuted : exists data t, 0 < deviation2 data /\ 0 < t /\ remove_outliers data "zscore" t = Ok [].
Proof. exists [0; 2], 1. destruct zscore_two. split; [assumption|]. split; [lra|assumption]. Qed.
Print Assumptions C74_two_refuted.
(** ... while non-constant data survive any threshold above 1. *)
Theorem C74_nonempty_partial : forall data t l, 0 < deviation2 data -> 1 < t ->
  remove_outliers data "zscore" t = Ok l -> l <> [].
Proof. exact zscore_nonempty. Qed.
Print Assumptions C74_nonempty_partial.

(** C111.  The quartile method keeps exactly the samples between the
    quartiles widened by threshold times their distance ... *)
Theorem C111_quartiles_partial : forall data t, data <> [] ->
  exists q1 q3 l, is_quartile 1 data q1 /\ is_quartile 3 data q3 /\
  remove_outliers data "iqr" t = Ok l /\
  kept (fun x => q1 - t * (q3 - q1) <= x <= q3 + t * (q3 - q1)) data l.
Proof. exact iqr_spec. Qed.
Print Assumptions C111_quartiles_partial.
(** ... which is not empty unless there are just two samples ... *)
Theorem C111_nonempty_partial : forall data t l, data <> [] -> 0 <= t -> (List.length data <> 2)%nat ->
  remove_outliers data "iqr" t = Ok l -> l <> [].
Proof. exact iqr_nonempty. Qed.
Print Assumptions C111_nonempty_partial.
(** ... of which none may survive. *)
Theorem C111_two_refuted : exists data t, 0 < t /\ data <> [] /\ remove_outliers data "iqr" t = Ok [].
Proof. exists [0; 1], (1 / 4). split; [lra|]. split; [discriminate|exact iqr_two]. Qed.
Print Assumptions C111_two_refuted.
Example C111_ex : ([0; 1; 5] : list R) <> [] /\ (List.length [0; 1; 5] <> 2)%nat.
Proof. split; discriminate. Qed.
