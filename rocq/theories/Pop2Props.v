(** Properties of the less used population controls: C04 (constant-size
    variant) and C108-C110. *)
From Verif Require Import Base PopModel PopSpec Pop2Model Pop2Spec Pop2Proofs.
From Coq Require Import Reals Lra.
Open Scope Q_scope.

(** C04.  What the constant-size variant does, in full: a number m of pairs
    (k-th lightest, k-th heaviest) is processed, all of them out of range; the
    first pair not processed is in range or the pairs are exhausted; in each
    processed pair one member keeps walker and weight and the other gets its
    walker with half the weight of the pair; all other walkers are untouched. *)
Theorem C04_outcome_partial : forall {A} (wk : list A) ws mn mx sidx draws,
  is_perm_of_indices (length wk) sidx -> length ws = length wk ->
  exists m wk' ws', branching_dp_constant wk ws mn mx sidx draws = Ok (wk', ws') /\
    length wk' = length wk /\ length ws' = length wk /\
    (2 * m <= length wk)%nat /\ ((length wk <= 2 * m + 1)%nat \/ ~ out_of_range ws mn mx sidx m) /\
    (forall k, (k < m)%nat -> out_of_range ws mn mx sidx k /\
       if large_wins (draws k) (qabs (nth (light sidx k) ws 0)) (qabs (nth (heavy sidx k) ws 0))
       then paired wk ws wk' ws' (light sidx k) (heavy sidx k)
       else paired wk ws wk' ws' (heavy sidx k) (light sidx k)) /\
    (forall k, (m <= k < length wk - m)%nat -> same_at wk ws wk' ws' (nth k sidx 0%nat)).
Proof. intros. apply const_spec; assumption. Qed.
Print Assumptions C04_outcome_partial.
Example C04_outcome_ex :
  branching_dp_constant [10; 11; 12]%nat [1#10; 1; 4] (1#5) 3 [0; 1; 2]%nat (fun _ => 1#2) =
  Ok ([10; 11; 10]%nat, [1#10; 1; 41#20]).
Proof. vm_compute. reflexivity. Qed.

(** C108.  Residual branching never gets past its first use of an undefined
    name. *)
Theorem C108_undefined_refuted : exists (phiw : list nat) ws target bound choice,
  (0 < length phiw)%nat /\ length ws = length phiw /\ 0 < target /\ 0 <= bound /\
  (forall n, length (choice n) = n /\ forall i, In i (choice n) -> (i < length phiw)%nat) /\
  branching_control None phiw ws target bound choice = Err NameError.
Proof. exact control_unbound. Qed.
Print Assumptions C108_undefined_refuted.
(** With that name bound, exactly as many walkers as before come back, each a
    copy of an input walker with the target weight. *)
Theorem C108_count_partial : forall {A} arr (phiw : list A) ws target bound choice,
  length ws = length phiw -> 0 < target -> 0 <= bound ->
  (forall n, length (choice n) = n /\ forall i, In i (choice n) -> (i < length phiw)%nat) ->
  exists out, branching_control (Some arr) phiw ws target bound choice = Ok out /\
    length out = length phiw /\ (forall p w, In (p, w) out -> In p phiw /\ w = target).
Proof. intros. apply control_bound; assumption. Qed.
Print Assumptions C108_count_partial.
Example C108_ex : branching_control (Some []) [7; 8; 9]%nat [1#2; 5#2; 1] 1 2 (fun n => repeat 2%nat n) =
  Ok [(8%nat, 1); (8%nat, 1); (9%nat, 1)].
Proof. reflexivity. Qed.

(** C109.  The dynamic variant returns exactly as many walkers as it was given,
    each one of them an input walker, whatever the draws. *)
Theorem C109_count_partial : forall {A} (wk : list A) ws mn mx sidx draws pick,
  is_perm_of_indices (length wk) sidx -> length ws = length wk ->
  (forall i, (0 < length wk)%nat -> (pick i < length wk)%nat) ->
  exists out, branching_dp_dynamics wk ws mn mx sidx draws pick = Ok out /\
    length out = length wk /\ (forall p w, In (p, w) out -> In p wk).
Proof. intros. apply dynamics_ok; assumption. Qed.
Print Assumptions C109_count_partial.
(** It does not conserve the total weight. *)
Theorem C109_weight_refuted : exists (ws : list Q) sidx draws pick out,
  is_perm_of_indices (length ws) sidx /\ sorted_by_weight ws sidx /\ (forall i, (pick i < length ws)%nat) /\
  branching_dp_dynamics (seq 0 (length ws)) ws (1#5) 2 sidx draws pick = Ok out /\
  ~ qsum (map (fun p => qabs (snd p)) out) == qsum (map qabs ws).
Proof. exact dynamics_bad. Qed.
Print Assumptions C109_weight_refuted.
Example C109_ex : branching_dp_dynamics [5; 6; 7]%nat [1#10; 1; 4] (1#5) 3 [0; 1; 2]%nat (fun _ => 1#2) (fun _ => 1%nat) =
  Ok [(5%nat, 41#20); (6%nat, 1); (6%nat, 1)].
Proof. vm_compute. reflexivity. Qed.

(** C110.  With energies at zero the offset multiplies the average weight by
    exp(dt ln(average / target)) ... *)
Open Scope R_scope.
Theorem C110_average_partial : forall ws dt target, ws <> [] -> 0 < dt -> 0 < target -> 0 < mean ws ->
  mean (adjusted_weights ws (repeat 0 (length ws)) dt target) = mean ws * exp (dt * ln (mean ws / target)).
Proof. exact offset_drives. Qed.
Print Assumptions C110_average_partial.
(** ... so a population above its target is always driven further away. *)
Theorem C110_away_refuted : exists ws dt target, 0 < dt /\ 0 < target /\ target < mean ws /\
  mean ws < mean (adjusted_weights ws (repeat 0 (length ws)) dt target).
Proof. exact offset_away_ex. Qed.
Print Assumptions C110_away_refuted.
Theorem C110_always_away_partial : forall ws dt target, 0 < dt -> 0 < target -> target < mean ws ->
  mean ws < mean (adjusted_weights ws (repeat 0 (length ws)) dt target).
Proof. exact offset_away. Qed.
Print Assumptions C110_always_away_partial.
Example C110_ex : 1 < mean [2; 3].
Proof. unfold mean. cbn. lra. Qed.
