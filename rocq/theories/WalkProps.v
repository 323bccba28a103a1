(** Walker properties C11-C17, C71, C83. *)
From Coq Require Import String.
From Verif Require Import Base BaseProofs PopModel PopSpec WalkModel WalkSpec WalkProofs.
From Coq Require Import Lqa.
Open Scope Q_scope.

(** C11. At a control step all ranks divide their clipped weights by one
    positive number and the absolute weights then sum to the walker number
    [N0]; at other steps only clipping happens. *)
Theorem C11_weight_control_normalises :
  forall step freq ranks N0,
  (0 < freq)%nat -> Nat.modulo (S step) freq = 0%nat ->
  (forall s, In s ranks -> total_weight0 s = N0) -> 0 < N0 ->
  0 < global_total (map (wc_clip step) ranks) ->
  exists c ranks', weight_control step freq ranks = Ok ranks' /\ 0 < c /\
    map weights ranks' = map (fun s => map (fun w => w / c) (weights (wc_clip step s))) ranks /\
    global_total ranks' == N0 /\
    (forall s, In s ranks' ->
        total_weight s = global_total (map (wc_clip step) ranks) /\ total_weight0 s = N0).
Proof. exact weight_control_normalises. Qed.
Print Assumptions C11_weight_control_normalises.

Theorem C11_between_control_steps :
  forall step freq ranks,
  (0 < freq)%nat -> Nat.modulo (S step) freq <> 0%nat ->
  weight_control step freq ranks = Ok (map (wc_clip step) ranks).
Proof. exact weight_control_between. Qed.
Print Assumptions C11_between_control_steps.

Example C11_ex :
  let ranks := [set_weights [3; -1] (ws_init 2 3); set_weights [2] (ws_init 1 3)] in
  0 < global_total (map (wc_clip 0) ranks) /\
  rmap (fun r => map Qred (flat_map weights r)) (weight_control 0 1 ranks)
    = Ok [3 # 2; - (1) # 2; 1] /\
  weight_control 0 0 ranks = Err ZeroDivisionError.
Proof. vm_compute. auto. Qed.

(** C12. Along every history that starts from the constructor state, at every
    step after the first the weights before renormalisation are bounded by a
    tenth of the last recorded total; a weight already inside the bound is
    unchanged and no weight changes sign. *)
Theorem C12_weights_within_ten_percent :
  forall freq hist counts total ranks ws ranks' step,
  step = List.length hist -> (0 < step)%nat ->
  wc_run freq 0 hist (map (fun n => ws_init n total) counts) = Ok ranks ->
  weight_control step freq (set_all ws ranks) = Ok ranks' ->
  forall k s s', nth_error (set_all ws ranks) k = Some s -> nth_error ranks' k = Some s' ->
  let unnormalised := if Nat.eqb (Nat.modulo (S step) freq) 0 then weights_org s' else weights s' in
  (forall w, In w unnormalised -> qabs w <= (1#10) * total_weight s) /\
  Forall2 (fun w w' => (qabs w <= (1#10) * total_weight s -> w' = w) /\
                       (0 <= w -> 0 <= w') /\ (w <= 0 -> w' <= 0))
          (weights s) unnormalised.
Proof. exact history_bound. Qed.
Print Assumptions C12_weights_within_ten_percent.

(** The recorded total is the global absolute weight at the latest control
    step (the walker number before the first one). *)
Theorem C12_recorded_total :
  forall step freq ranks ranks', weight_control step freq ranks = Ok ranks' ->
  forall k s s', nth_error ranks k = Some s -> nth_error ranks' k = Some s' ->
  total_weight s' = (if Nat.eqb (Nat.modulo (S step) freq) 0
                     then global_total (map (wc_clip step) ranks) else total_weight s).
Proof. exact recorded_total. Qed.
Print Assumptions C12_recorded_total.

Example C12_ex :
  exists ranks ranks',
  wc_run 2 0 [[[1; 2]]] (map (fun n => ws_init n 2) [2]%nat) = Ok ranks /\
  weight_control 1 2 (set_all [[9; -(1#10)]] ranks) = Ok ranks' /\
  map weights_org ranks' = [[2 # 10; - (1) # 10]].
Proof. do 2 eexists. vm_compute. split; [reflexivity|]. split; [reflexivity|]. reflexivity. Qed.

(** C83 is false: with fewer than ten walkers even equal weights are clipped. *)
Theorem C83_small_population_clipped_refuted :
  forall n, (0 < n < 10)%nat ->
  exists ranks, wc_run 100 0 [] [ws_init n n] = Ok [ws_init n n] /\
    weight_control 1 100 [ws_init n n] = Ok ranks /\
    Forall (fun s => Forall (fun w => w < 1) (weights s)) ranks /\
    ranks <> [] /\ Forall (fun s => weights s <> []) ranks.
Proof. exact small_population_clipped. Qed.
Print Assumptions C83_small_population_clipped_refuted.

Theorem C83_large_population_partial :
  forall step freq n total w s, (10 <= n)%nat ->
  total_weight s = total -> 0 <= w -> inject_Z (Z.of_nat n) * w <= total ->
  weights s = repeat w (List.length (weights s)) ->
  (0 < freq)%nat -> Nat.modulo (S step) freq <> 0%nat ->
  weight_control step freq [s] = Ok [s].
Proof. exact large_population_kept. Qed.
Print Assumptions C83_large_population_partial.

Example C83_ex : weight_control 1 5 [ws_init 12 12] = Ok [ws_init 12 12].
Proof. vm_compute; reflexivity. Qed.

(** C13. *)
Theorem C13_rank_partition :
  forall n size, (0 < size)%nat ->
  let c := walker_counter n size in
  let d := displs n size in
  List.length c = size /\ List.length d = size /\ nsum c = n /\
  (forall i j, (i <= j < size)%nat ->
      (nth j c 0 <= nth i c 0 /\ nth i c 0 <= nth j c 0 + 1)%nat) /\
  nth 0 d 0%nat = 0%nat /\
  (forall i, (S i < size)%nat -> nth (S i) d 0%nat = (nth i d 0 + nth i c 0)%nat) /\
  (nth (size - 1) d 0 + nth (size - 1) c 0 = n)%nat.
Proof. exact partition_spec. Qed.
Print Assumptions C13_rank_partition.

(** Tiling: every global walker index belongs to exactly one rank. *)
Theorem C13_every_walker_on_one_rank :
  forall n size g, (0 < size)%nat -> (g < n)%nat ->
  exists! r, (r < size)%nat /\
    (nth r (displs n size) 0 <= g < nth r (displs n size) 0 + nth r (walker_counter n size) 0)%nat.
Proof. exact partition_unique. Qed.
Print Assumptions C13_every_walker_on_one_rank.

Example C13_ex : walker_counter 11 4 = [3; 3; 3; 2]%nat /\ displs 11 4 = [0; 3; 6; 9]%nat.
Proof. vm_compute; auto. Qed.

(** C14. *)
Theorem C14_unpack_pack :
  forall (P : Type) (s : @walkers P), consistent s -> (0 < nwalkers s)%nat ->
  exists pk, pack s = Ok pk /\ List.length pk = nwalkers s /\ unpack s pk = Ok s.
Proof. exact @pack_roundtrip. Qed.
Print Assumptions C14_unpack_pack.

Theorem C14_resampled_package :
  forall (P : Type) (d : P) (s : @walkers P) js, consistent s -> List.length js = nwalkers s ->
  (forall j, In j js -> (j < nwalkers s)%nat) ->
  exists pk, pack s = Ok pk /\
   exists s', unpack s (map (fun j => nth j pk []) js) = Ok s' /\
     phiwa s' = map (fun j => nth j (phiwa s) d) js /\
     ((1 < ncomponents s)%nat -> phiwb s' = map (fun j => nth j (phiwb s) d) js) /\
     (forall b, boson s = Some b -> boson s' = Some (map (fun j => nth j b d) js)).
Proof. exact @pack_resample. Qed.
Print Assumptions C14_resampled_package.

Definition ex_walkers : @walkers Z :=
  mkw 2 3 [1; 2; 3]%Z [10; 20; 30]%Z (Some [7; 8; 9]%Z) [1; 0; 2] [1; 2; 3] [0; 0; 0] [0; 0; 0].
Example C14_ex : consistent ex_walkers /\
  pack ex_walkers = Ok [[1; 10; 7]; [2; 20; 8]; [3; 30; 9]]%Z.
Proof.
  split; [|vm_compute; reflexivity]. unfold consistent; simpl. repeat split; auto.
  intros b [= <-]. reflexivity.
Qed.

(** C15 is false: after reconfiguration a slot can hold a wave function that
    was another walker's, with the overlap of the walker that used to be there:
    no input walker has this slot's wave function and overlap. *)
Theorem C15_side_data_refuted :
  exists (s s' : @walkers Z) u, consistent s /\
    population_control (Some (Reconfiguration u)) s = Ok s' /\
    control_ok (Reconfiguration u) (wts s) /\
    exists i, (i < nwalkers s)%nat /\
      forall j, (j < nwalkers s)%nat -> whole_walker s' i <> whole_walker s j.
Proof. exact side_data_detached. Qed.
Print Assumptions C15_side_data_refuted.

(** What does hold: the wave function blocks of a slot all come from one input
    walker, the population stays consistent and the weight is conserved. *)
Theorem C15_blocks_together_partial :
  forall (P : Type) (d : P) (s : @walkers P) c,
  consistent s -> List.length (wts s) = nwalkers s -> control_ok c (wts s) ->
  exists s' js, population_control (Some c) s = Ok s' /\
    consistent s' /\ nwalkers s' = nwalkers s /\ List.length (wts s') = nwalkers s /\
    qsum (wts s') == qsum (map qabs (wts s)) /\
    List.length js = nwalkers s /\ (forall j, In j js -> (j < nwalkers s)%nat) /\
    phiwa s' = map (fun j => nth j (phiwa s) d) js /\
    ((1 < ncomponents s)%nat -> phiwb s' = map (fun j => nth j (phiwb s) d) js) /\
    (forall b, boson s = Some b -> boson s' = Some (map (fun j => nth j b d) js)).
Proof. exact @population_control_ok. Qed.
Print Assumptions C15_blocks_together_partial.

Example C15_ex : control_ok (Reconfiguration (1#10)) (wts ex_walkers) /\
  rmap (fun s => (phiwa s, boson s)) (population_control (Some (Reconfiguration (1#10))) ex_walkers)
  = Ok ([1; 3; 3]%Z, Some [7; 9; 9]%Z).
Proof.
  split; [|vm_compute; reflexivity]. cbn. split; [|split; [|split]].
  - intros w [<-|[<-|[<-|[]]]]; discriminate.
  - reflexivity.
  - discriminate.
  - reflexivity.
Qed.

(** C16 is false: a later construction changes the options of an earlier
    simulation, and an earlier one leaks into a later one. *)
Theorem C16_shared_options_refuted :
  exists a b o o', options_of [a] 0 = Some o /\ options_of [a; b] 0 = Some o' /\
    dget "weight_max" o <> dget "weight_max" o' /\
    (exists o2 fresh, options_of [b; a] 1 = Some o2 /\ options_of [a] 0 = Some fresh /\
       dget "weight_max" o2 <> dget "weight_max" fresh).
Proof. exact options_shared. Qed.
Print Assumptions C16_shared_options_refuted.

(** In fact all simulations always see the same options. *)
Theorem C16_all_options_equal :
  forall l j k o o', options_of l j = Some o -> options_of l k = Some o' -> o = o'.
Proof. exact options_all_equal. Qed.
Print Assumptions C16_all_options_equal.

(** C17 is false for every requested number other than 100: the default of
    [num_walkers] overwrites it. *)
Theorem C17_requested_walkers_refuted :
  forall n hist, ~ n == 100 ->
  exists o v, options_of (hist ++ [default_args (Some [("nwalkers"%string, n)])])
                (List.length hist) = Some o /\
    dget "nwalkers" o = Some v /\ ~ v == n.
Proof. exact requested_ignored. Qed.
Print Assumptions C17_requested_walkers_refuted.

Theorem C17_explicit_none_partial :
  forall n hist,
  exists o, options_of (hist ++ [mkargs (Some [("nwalkers"%string, n)]) None])
                (List.length hist) = Some o /\ dget "nwalkers" o = Some n.
Proof. exact requested_with_none. Qed.
Print Assumptions C17_explicit_none_partial.

Example C17_ex : option_map (dget "nwalkers")
   (options_of [default_args (Some [("nwalkers"%string, 5)])] 0) = Some (Some 100).
Proof. vm_compute; reflexivity. Qed.

(** C71 is false: renormalisation takes absolute values. *)
Theorem C71_boson_renorm_refuted :
  exists phi norm, norm * norm == qsum (map (fun x => x * x) phi) /\ 0 < norm /\
    forall c, ~ scaled c phi (boson_renorm norm phi).
Proof. exact boson_renorm_sign. Qed.
Print Assumptions C71_boson_renorm_refuted.

Theorem C71_nonnegative_partial :
  forall phi norm, 0 < norm -> (forall x, In x phi -> 0 <= x) ->
  scaled (1 / norm) phi (boson_renorm norm phi) /\
  (norm * norm == qsum (map (fun x => x * x) phi) ->
   qsum (map (fun x => x * x) (boson_renorm norm phi)) == 1).
Proof. exact boson_renorm_nonneg. Qed.
Print Assumptions C71_nonnegative_partial.

Example C71_ex : boson_renorm 5 [3; 4] = [3 / 5; 4 / 5].
Proof. vm_compute; reflexivity. Qed.
