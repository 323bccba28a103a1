(** Properties C01-C10, C81, C82: population control. *)
From Verif Require Import Base PopModel PopFloatModel PopSpec PopProofs ReconProofs PlanProofs.
From Coq Require Import Qround Qabs Permutation.
Open Scope Q_scope.

(** C01. 'branching' returns as many walkers as it got, each an input walker,
    with non-negative weights adding up to the sum of |weights|; for every
    weight vector, thresholds, argsort result and draws. *)
Theorem C01_branching_conserves_population_and_weight :
  forall (A : Type) (walkers : list A) weights mn mx sidx draws,
  length walkers = length weights ->
  is_perm_of_indices (length weights) sidx ->
  exists out, branching_dp0 walkers weights mn mx sidx draws = Ok out /\
    length out = length walkers /\
    qsum (map snd out) == qsum (map qabs weights) /\
    (forall p, In p out -> In (fst p) walkers /\ 0 <= snd p).
Proof. exact @branching_dp0_conserves. Qed.
Print Assumptions C01_branching_conserves_population_and_weight.

Example C01_ex :
  is_perm_of_indices 4 [2; 0; 3; 1]%nat /\
  branching_dp0 [10; 11; 12; 13]%nat [-(1#2); 3; (1#20); 1] (1#10) 2 [2; 0; 3; 1]%nat
     (fun _ => 1#2)
  = Ok [(10%nat, 1#2); (13%nat, 1); (11%nat, 61#40); (11%nat, 61#40)].
Proof.
  split; [|vm_compute; reflexivity].
  apply NoDup_Permutation_bis; try apply seq_NoDup; simpl; auto.
  - repeat constructor; simpl; intros H; intuition discriminate.
  - intros x; simpl; intuition subst; auto.
Qed.

(** C02. Averaged over the draws, the weight carried by the copies of walker
    [i] is |w_i|.  A run is determined by one coin per visited pair; the coin
    of pair [k] is [draws k < q_k], which for a uniform draw has probability
    [q_k]. *)
Theorem C02_branching_unbiased :
  forall weights mn mx sidx i,
  is_perm_of_indices (length weights) sidx -> (i < length weights)%nat ->
  let qs := pair_shares (map (fun k => qabs (nth k weights 0)) sidx) in
  let run coins := branching_coin (seq 0 (length weights)) weights mn mx sidx
                     (fun k _ _ => nth k coins false) in
  (forall q, In q qs -> 0 <= q <= 1) /\
  (forall draws, (forall k, 0 <= draws k) ->
     branching_dp0 (seq 0 (length weights)) weights mn mx sidx draws =
     run (map (fun k => qltb (draws k) (nth k qs 0)) (seq 0 (length qs)))) /\
  expect qs (fun coins => weight_of_res i (run coins)) == qabs (nth i weights 0).
Proof. exact branching_dp0_unbiased. Qed.
Print Assumptions C02_branching_unbiased.

Example C02_ex :
  pair_shares (map (fun k => qabs (nth k [-(1#2); 3; (1#20); 1] 0)) [2; 0; 3; 1]%nat)
  = [60#61; 2#3] /\
  expect [60#61; 2#3] (fun coins => weight_of_res 1
     (branching_coin (seq 0 4) [-(1#2); 3; (1#20); 1] (1#10) 2 [2; 0; 3; 1]%nat
        (fun k _ _ => nth k coins false))) == 3.
Proof. split; vm_compute; reflexivity. Qed.

(** C03 is false: the signed total is not kept when a weight is negative. *)
Theorem C03_branching_signed_total_refuted :
  exists (weights : list Q) (sidx : list nat) (draws : nat -> Q) out,
  is_perm_of_indices (length weights) sidx /\
  branching_dp0 (seq 0 (length weights)) weights (1#10) 2 sidx draws = Ok out /\
  ~ qsum (map snd out) == qsum weights.
Proof.
  exists [-(1)], [0%nat], (fun _ => 0), [(0%nat, 1)].
  repeat split; try reflexivity; try discriminate.
  apply Permutation.Permutation_refl.
Qed.
Print Assumptions C03_branching_signed_total_refuted.

(** C03 holds for non-negative weights. *)
Theorem C03_branching_total_partial :
  forall (A : Type) (walkers : list A) weights mn mx sidx draws,
  length walkers = length weights ->
  is_perm_of_indices (length weights) sidx ->
  (forall w, In w weights -> 0 <= w) ->
  exists out, branching_dp0 walkers weights mn mx sidx draws = Ok out /\
    qsum (map snd out) == qsum weights.
Proof. exact @branching_dp0_total_nonneg. Qed.
Print Assumptions C03_branching_total_partial.

Example C03_ex : forall w, In w [1#2; 3; 1#20; 1] -> 0 <= w.
Proof. simpl; intuition (subst; discriminate). Qed.

(** C04 is false: [branching_dp_constant] loses weight and copies the walker
    that was to be deleted over the one selected for cloning. *)
Theorem C04_constant_branching_total_refuted :
  exists (weights : list Q) (sidx : list nat) (draws : nat -> Q) out ws',
  is_perm_of_indices (length weights) sidx /\ sorted_by_weight weights sidx /\
  branching_dp_constant (seq 0 (length weights)) weights (1#5) 4 sidx draws = Ok (out, ws') /\
  ~ qsum (map qabs ws') == qsum (map qabs weights) /\
  (* the draw selects the heavy walker 1 for cloning, and it disappears *)
  draws 0%nat < qabs (nth 1 weights 0) / (qabs (nth 0 weights 0) + qabs (nth 1 weights 0)) /\
  ~ In 1%nat out.
Proof. exact const_refuted. Qed.
Print Assumptions C04_constant_branching_total_refuted.

(** The part of C04 that holds: the population size is kept. *)
Theorem C04_constant_branching_size_partial :
  forall (A : Type) (wk : list A) ws mn mx sidx draws wk' ws',
  branching_dp_constant wk ws mn mx sidx draws = Ok (wk', ws') ->
  length wk' = length wk /\ length ws' = length ws.
Proof. exact @const_size. Qed.
Print Assumptions C04_constant_branching_size_partial.

Example C04_ex :
  branching_dp_constant [10; 11]%nat [1#10; 39#10] (1#5) 4 [0; 1]%nat (fun _ => 1#2)
  = Ok ([10; 10]%nat, [1#10; 400#200]).
Proof. vm_compute; reflexivity. Qed.

(** C05. Reconfiguration never overruns and returns N walkers of weight
    total/N. *)
Theorem C05_reconfiguration_conserves :
  forall (A : Type) (phiw : list A) ws start,
  length phiw = length ws ->
  (forall w, In w ws -> 0 <= w) -> 0 < qsum ws ->
  0 <= start -> start < 1 / inject_Z (Z.of_nat (length ws)) ->
  exists ph w', stochastic_reconfiguration phiw ws start = Ok (ph, w') /\
    length ph = length phiw /\ length w' = length phiw /\
    (forall x, In x ph -> In x phiw) /\
    (forall w, In w w' -> w == qsum ws / inject_Z (Z.of_nat (length phiw))) /\
    qsum w' == qsum ws.
Proof. exact @recon_conserves. Qed.
Print Assumptions C05_reconfiguration_conserves.

Theorem C05_comb_conserves :
  forall (A : Type) (phiw : list A) ws start,
  length phiw = length ws ->
  (forall w, In w ws -> 0 <= w) -> 0 < qsum ws ->
  0 <= start -> start < 1 / inject_Z (Z.of_nat (length ws)) ->
  exists ph w', comb_resampling phiw ws start = Ok (ph, w') /\
    length ph = length phiw /\ length w' = length phiw /\
    (forall x, In x ph -> In x phiw) /\
    (forall w, In w w' -> w == qsum ws / inject_Z (Z.of_nat (length phiw))) /\
    qsum w' == qsum ws.
Proof. exact @comb_conserves. Qed.
Print Assumptions C05_comb_conserves.

Example C05_ex :
  stochastic_reconfiguration [10; 11; 12]%nat [1; 0; 5] (1#4)
  = Ok ([12; 12; 12]%nat, [6#3; 6#3; 6#3]) /\
  stochastic_reconfiguration [10; 11; 12]%nat [1; 0; 5] (1#10)
  = Ok ([10; 12; 12]%nat, [6#3; 6#3; 6#3]) /\
  0 < qsum [1; 0; 5] /\ (1#10) < 1 / inject_Z (Z.of_nat 3).
Proof. repeat split; vm_compute; reflexivity. Qed.

(** C06. Copies are the floor or the ceiling of the fair share, so a
    zero-weight walker is never selected; and the input order is kept. *)
Theorem C06_reconfiguration_copies :
  forall ws start j,
  (forall w, In w ws -> 0 <= w) -> 0 < qsum ws ->
  0 <= start -> start < 1 / inject_Z (Z.of_nat (length ws)) -> (j < length ws)%nat ->
  let e := inject_Z (Z.of_nat (length ws)) * nth j ws 0 / qsum ws in
  let c := Z.of_nat (copies_res j
             (stochastic_reconfiguration (seq 0 (length ws)) ws start)) in
  (Qfloor e <= c <= Qceiling e)%Z.
Proof. exact recon_copies_bounds. Qed.
Print Assumptions C06_reconfiguration_copies.

Theorem C06_comb_copies :
  forall ws start j,
  (forall w, In w ws -> 0 <= w) -> 0 < qsum ws ->
  0 < start -> start < 1 / inject_Z (Z.of_nat (length ws)) -> (j < length ws)%nat ->
  let e := inject_Z (Z.of_nat (length ws)) * nth j ws 0 / qsum ws in
  let c := Z.of_nat (copies_res j (comb_resampling (seq 0 (length ws)) ws start)) in
  (Qfloor e <= c <= Qceiling e)%Z.
Proof. exact comb_copies_bounds. Qed.
Print Assumptions C06_comb_copies.

Theorem C06_zero_weight_never_selected :
  forall ws start j,
  (forall w, In w ws -> 0 <= w) -> 0 < qsum ws ->
  0 < start -> start < 1 / inject_Z (Z.of_nat (length ws)) -> (j < length ws)%nat ->
  nth j ws 0 == 0 ->
  copies_res j (stochastic_reconfiguration (seq 0 (length ws)) ws start) = 0%nat /\
  copies_res j (comb_resampling (seq 0 (length ws)) ws start) = 0%nat.
Proof. exact zero_weight_dropped. Qed.
Print Assumptions C06_zero_weight_never_selected.

Theorem C06_reconfiguration_order :
  forall ws start,
  (forall w, In w ws -> 0 <= w) -> 0 < qsum ws ->
  0 <= start -> start < 1 / inject_Z (Z.of_nat (length ws)) ->
  forall ph w', stochastic_reconfiguration (seq 0 (length ws)) ws start = Ok (ph, w') ->
  forall a b x y, (a < b)%nat -> nth_error ph a = Some x -> nth_error ph b = Some y ->
  (x <= y)%nat.
Proof. exact recon_sorted. Qed.
Print Assumptions C06_reconfiguration_order.

Theorem C06_comb_order :
  forall ws start,
  (forall w, In w ws -> 0 <= w) ->
  forall ph w', comb_resampling (seq 0 (length ws)) ws start = Ok (ph, w') ->
  forall a b x y, (a < b)%nat -> nth_error ph a = Some x -> nth_error ph b = Some y ->
  (x <= y)%nat.
Proof. exact (fun ws start _ => comb_sorted ws start). Qed.
Print Assumptions C06_comb_order.

Example C06_ex :
  let e := inject_Z 3 * 5 / qsum [1; 0; 5] in
  Qfloor e = 2%Z /\ Qceiling e = 3%Z /\
  copies_res 2 (stochastic_reconfiguration (seq 0 3) [1; 0; 5] (1#10)) = 2%nat /\
  copies_res 2 (stochastic_reconfiguration (seq 0 3) [1; 0; 5] (1#4)) = 3%nat.
Proof. repeat split; vm_compute; reflexivity. Qed.

(** C07. Comb and reconfiguration agree unless a marker sits exactly on a
    cumulative weight. *)
Theorem C07_comb_is_reconfiguration :
  forall (A : Type) ws start (phiw : list A),
  (forall w, In w ws -> 0 <= w) -> 0 < qsum ws ->
  0 <= start -> start < 1 / inject_Z (Z.of_nat (length ws)) ->
  length phiw = length ws ->
  (forall i c, (i < length ws)%nat -> In c (norm_cumsum ws) ->
     ~ c == position (length ws) start i) ->
  comb_resampling phiw ws start = stochastic_reconfiguration phiw ws start.
Proof. exact @comb_run. Qed.
Print Assumptions C07_comb_is_reconfiguration.

(** At such a coincidence they differ, and comb may even select a walker of
    weight zero. *)
Theorem C07_comb_boundary_refuted :
  exists ws start ph w',
  (forall w, In w ws -> 0 <= w) /\ 0 < qsum ws /\
  0 <= start /\ start < 1 / inject_Z (Z.of_nat (length ws)) /\
  comb_resampling (seq 0 (length ws)) ws start = Ok (ph, w') /\
  (exists j, In j ph /\ nth j ws 0 == 0) /\
  comb_resampling (seq 0 (length ws)) ws start
    <> stochastic_reconfiguration (seq 0 (length ws)) ws start.
Proof. exact comb_boundary. Qed.
Print Assumptions C07_comb_boundary_refuted.

Example C07_ex :
  forall i c, (i < 3)%nat -> In c (norm_cumsum [1; 0; 5]) -> ~ c == position 3 (1#10) i.
Proof.
  intros i c Hi. destruct i as [|[|[|i]]]; try lia;
  vm_compute; intuition (subst; discriminate).
Qed.

(** C08. Over M equally spaced offsets of [0,1/N) the average number of copies
    differs from N w_j / W by less than 1/M, for every M: its limit, the
    integral over the offset, is exactly N w_j / W. *)
Theorem C08_reconfiguration_unbiased :
  forall ws j (M : nat),
  (forall w, In w ws -> 0 <= w) -> 0 < qsum ws -> (j < length ws)%nat -> (0 < M)%nat ->
  let n := length ws in
  let total := zsum_n (fun k => Z.of_nat (copies_res j
       (stochastic_reconfiguration (seq 0 n) ws (grid_offset n M k)))) M in
  let e := inject_Z (Z.of_nat n) * nth j ws 0 / qsum ws in
  Qabs (inject_Z total / inject_Z (Z.of_nat M) - e) < 1 / inject_Z (Z.of_nat M).
Proof. exact recon_average. Qed.
Print Assumptions C08_reconfiguration_unbiased.

Example C08_ex :
  zsum_n (fun k => Z.of_nat (copies_res 2
       (stochastic_reconfiguration (seq 0 3) [1; 0; 5] (grid_offset 3 4 k)))) 4 = 10%Z
  /\ inject_Z 3 * 5 / qsum [1; 0; 5] == 10 / 4.
Proof. split; vm_compute; reflexivity. Qed.

(** C09. Unrestricted branching. *)
Theorem C09_branching_population_control :
  forall (A : Type) ub lb, 0 < lb -> lb <= ub ->
  (* every new walker is a copy of an old one, with weight in [lb, 2 ub) *)
  (forall (l : list (A * Q)) draws x, In x (branching_population_control ub lb draws l) ->
     In (fst x) (map fst l) /\ lb <= snd x < 2 * ub) /\
  (* a mid-weight walker is untouched *)
  (forall (p : A) w coin, lb <= w <= ub -> branch_walker ub lb coin p w = [(p, w)]) /\
  (* without light walkers the total weight is kept for every draw *)
  (forall (l : list (A * Q)) draws, (forall x, In x l -> lb <= snd x) ->
     qsum (map snd (branching_population_control ub lb draws l)) == qsum (map snd l)) /\
  (* the survival coin is a probability and makes the total unbiased *)
  (forall w, 0 <= w -> 0 <= survival lb w <= 1) /\
  (forall l : list (A * Q),
     expect (map (fun p => survival lb (snd p)) l)
       (fun coins => qsum (map snd (branching_pc_from ub lb
                             (fun j _ => nth j coins false) 0 l)))
     == qsum (map snd l)).
Proof. exact @bpc_all. Qed.
Print Assumptions C09_branching_population_control.

Example C09_ex :
  branching_population_control 2 (1#2) (fun _ => 1#4) [(0%nat, 5); (1%nat, 1); (2%nat, 1#5); (3%nat, 1#10)]
  = [(0%nat, 5#2); (0%nat, 5#2); (1%nat, 1); (2%nat, 1#2)] /\
  survival (1#2) (1#5) == 2#5.
Proof. split; vm_compute; reflexivity. Qed.

(** C10. The send plan, when made, only moves walkers from ranks at or above
    the ideal count to ranks below it; receivers end exactly at the ideal
    count and no sender falls below it. *)
Theorem C10_rebalance_plan :
  forall counts : list Z, counts <> [] ->
  let pl := send_plan counts in
  let avg := (zsum counts / Z.of_nat (length counts))%Z in
  (forall s r c, In (s, r, c) pl -> (0 < c)%Z /\ s <> r) /\
  (pl = [] \/
   forall i, (i < length counts)%nat ->
    let before := nth i counts 0%Z in
    let after := (before - sent i pl + received i pl)%Z in
    ((before < avg)%Z -> after = avg /\ sent i pl = 0%Z) /\
    ((avg <= before)%Z -> (avg <= after <= before)%Z /\ received i pl = 0%Z)).
Proof. exact rebalance_plan. Qed.
Print Assumptions C10_rebalance_plan.

(** A plan is empty only when every rank is within 5% of the ideal count. *)
Theorem C10_plan_made_when_imbalanced :
  forall counts : list Z, counts <> [] -> (forall c, In c counts -> (0 <= c)%Z) ->
  send_plan counts = [] ->
  forall c, In c counts ->
  let avg := (zsum counts / Z.of_nat (length counts))%Z in
  (20 * (avg - c) <= avg)%Z.
Proof. exact plan_empty. Qed.
Print Assumptions C10_plan_made_when_imbalanced.

Example C10_ex :
  send_plan [10; 2; 7; 1]%Z = [(0%nat, 1%nat, 3%Z); (0%nat, 3%nat, 2%Z); (2%nat, 3%nat, 2%Z)].
Proof. vm_compute; reflexivity. Qed.

(** C81 is false: with numpy's double arithmetic the cumulative sum of ten
    equal weights ends below 1, and a draw close to 1 makes the sweep index
    past the last walker. *)
Theorem C81_reconfiguration_float_overrun_refuted :
  exists (weights : list SpecFloat.spec_float) (k : Z),
  weights = repeat (fint 1) 10 /\ (0 <= k < 2 ^ 53)%Z /\
  freconfiguration weights k = Err IndexError.
Proof. exists (repeat (fint 1) 10), (2 ^ 53 - 1)%Z. vm_compute. repeat split; discriminate. Qed.
Print Assumptions C81_reconfiguration_float_overrun_refuted.

(** C82. With the weights sorted, a walker that 'branching' keeps as a single
    copy has its weight within the thresholds, except possibly the middle
    walker of an odd population. *)
Theorem C82_branching_thresholds :
  forall weights mn mx sidx draws out i w,
  is_perm_of_indices (length weights) sidx ->
  sorted_by_weight weights sidx ->
  branching_dp0 (seq 0 (length weights)) weights mn mx sidx draws = Ok out ->
  filter (fun p => Nat.eqb (fst p) i) out = [(i, w)] ->
  mn <= w <= mx \/
  exists k, length weights = (2 * k + 1)%nat /\ nth_error sidx k = Some i.
Proof. exact branching_thresholds. Qed.
Print Assumptions C82_branching_thresholds.

Example C82_ex :
  exists out, branching_dp0 (seq 0 4) [1#2; 3; 1#20; 1] (1#10) 2 [2; 0; 3; 1]%nat
     (fun _ => 1#2) = Ok out /\ filter (fun p => Nat.eqb (fst p) 0) out = [(0%nat, 1#2)].
Proof. eexists; split; vm_compute; reflexivity. Qed.
