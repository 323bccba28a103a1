(** Schedule properties C18, C19, C78. *)
From Verif Require Import Base BaseProofs SchedModel SchedSpec SchedProofs.
From Coq Require Import Lqa.
Open Scope Q_scope.

(** C18. The run propagates once per step; it records nsteps/freq samples with
    the k-th time dt(k freq - 1); it orthogonalises once before the loop and
    immediately before the propagation of exactly the steps k with
    (k+1) mod renorm_freq = 0. *)
Theorem C18_schedule :
  forall rf cf n dt, (0 < rf)%nat -> (0 < cf)%nat ->
  exists evs, run_events rf cf n = Ok evs /\
    filter is_prop evs = map Propagate (seq 0 n) /\
    length (filter is_rec evs) = (n / cf)%nat /\
    time_list dt evs = map (fun k => dt * inject_Z (Z.of_nat (k * cf - 1))) (seq 1 (n / cf)) /\
    length (filter is_ortho evs) = S (n / rf) /\
    firstn 1 evs = [Ortho] /\
    forall k, (k < n)%nat -> exists pre post,
      evs = pre ++ (if Nat.eqb (Nat.modulo (S k) rf) 0 then [Ortho] else []) ++
             [Propagate k; Control k; Stack (Z.of_nat k)] ++ post /\
      exists pre' e, pre = pre' ++ [e] /\ e <> Ortho.
Proof. exact schedule. Qed.
Print Assumptions C18_schedule.

Example C18_ex : rmap (time_list (1#2)) (run_events 3 2 5) = Ok [(1#2) * 1; (1#2) * 3].
Proof. vm_compute; reflexivity. Qed.

(** C19. [ws ++ [w]] are complete windows of [freq] steps, each step with one
    row per rank; [rest] is an incomplete window.  At the reduction ending [w]
    the shift is the ratio of the sums over [w] and the accumulator is
    empty; the shift is kept until the next reduction. *)
Theorem C19_energy_shift_window :
  forall freq size e0 ws w rest, (0 < freq)%nat ->
  (forall v, In v (ws ++ [w]) -> length v = freq /\ forall d, In d v -> length d = size) ->
  (length rest < freq)%nat -> (forall d, In d rest -> length d = size) ->
  let at_reduction := stack_run freq 0 (concat (ws ++ [w])) (ps_init size e0) in
  let later := stack_run freq 0 (concat (ws ++ [w]) ++ rest) (ps_init size e0) in
  buffers at_reduction = repeat row0 size /\
  eshift at_reduction == r_h (window w) / r_w (window w) /\
  eshift later = eshift at_reduction.
Proof. exact eshift_window. Qed.
Print Assumptions C19_energy_shift_window.

Example C19_ex :
  Qred (eshift (stack_run 2 0 [[mkrow 1 1 9 0]; [mkrow 1 1 9 0]; [mkrow 2 1 3 0]; [mkrow 1 1 3 0];
                               [mkrow 1 1 100 0]] (ps_init 1 0))) = 2.
Proof. vm_compute; reflexivity. Qed.

(** C78 is false: in a multi-rank run the generator that is drawn from is not
    touched by the user's seed. *)
Theorem C78_seed_ignored_refuted :
  forall (G : Type) (seeded : Z -> G) size seed seed' (g : G), (1 < size)%nat ->
  seed_rank seeded size false seed g = g /\
  seed_rank seeded size false seed g = seed_rank seeded size false seed' g.
Proof. exact seed_ignored. Qed.
Print Assumptions C78_seed_ignored_refuted.

(** A single rank (or the debugging mode) is reproducible. *)
Theorem C78_single_rank_partial :
  forall (G : Type) (seeded : Z -> G) size debug seed (g g' : G),
  (size <= 1)%nat \/ debug = true ->
  seed_rank seeded size debug seed g = seeded seed /\
  seed_rank seeded size debug seed g = seed_rank seeded size debug seed g'.
Proof. exact seed_single. Qed.
Print Assumptions C78_single_rank_partial.

Example C78_ex : seed_rank (fun s => Some s) 2 false 42 None = None /\
  seed_rank (fun s => Some s) 1 false 42 None = Some 42%Z.
Proof. split; reflexivity. Qed.
