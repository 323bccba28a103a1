(** Properties of the weight update, force-bias bound and reductions. *)
From Coq Require Import Reals List String.
From Verif Require Import Base PhaseModel PhaseSpec PhaseProofs.
Import ListNotations.
Open Scope R_scope.

(** C33: weights stay non-negative and grow at most at the rate allowed by the
    energy bound, over any number of steps; a dead walker stays dead. *)
Theorem C33_run_bound dt eb : 0 <= dt -> 0 <= eb -> forall l w sprev,
  0 <= weight w -> sprev - eb <= ehyb w ->
  0 <= weight (hybrid_run dt eb w l)
    <= weight w * exp (dt * (INR (length l) * eb + / 2 * (last_shift sprev l - sprev))).
Proof. exact (hybrid_run_bound dt eb). Qed.
Print Assumptions C33_run_bound.
Theorem C33_step_bound dt eb w i sprev :
  0 <= dt -> 0 <= eb -> 0 <= weight w -> sprev - eb <= ehyb w ->
  weight (hybrid_step dt eb w i) <= weight w * exp (dt * (eb + / 2 * (eshift i - sprev))).
Proof. exact (hybrid_bound dt eb w i sprev). Qed.
Print Assumptions C33_step_bound.
Theorem C33_energy_in_window dt eb i : 0 <= eb ->
  eshift i - eb <= ehybrid dt eb i <= eshift i + eb.
Proof. exact (ehybrid_range dt eb i). Qed.
Print Assumptions C33_energy_in_window.
(** The energy itself: the estimate when it lies in the window, the upper end
    for a walker orthogonal to the trial. *)
Theorem C33_energy_value dt eb i : 0 <= eb ->
  (ratio i = (0, 0) -> ehybrid dt eb i = eshift i + eb) /\
  (cabs (ratio i) <> 0 ->
   eshift i - eb <= - (ln (cabs (ratio i)) + re (cfb i) + re (cmf i)) / dt <= eshift i + eb ->
   ehybrid dt eb i = - (ln (cabs (ratio i)) + re (cfb i) + re (cmf i)) / dt).
Proof. exact (ehybrid_values dt eb i). Qed.
Print Assumptions C33_energy_value.
Theorem C33_dead_stays_dead dt eb l w : weight w = 0 -> weight (hybrid_run dt eb w l) = 0.
Proof. exact (hybrid_dead dt eb l w). Qed.
Print Assumptions C33_dead_stays_dead.
Theorem C33_local_nonneg dt eloc w i : 0 <= weight w -> 0 <= weight (local_step dt eloc w i).
Proof. exact (local_nonneg dt eloc w i). Qed.
Print Assumptions C33_local_nonneg.
(** Partial: only the phase of the force-bias factor is looked at, see C85. *)
Theorem C33_phase_kill_partial dt eb w i :
  PI / 2 <= Rabs (im (cfb i)) <= 3 * (PI / 2) -> weight (hybrid_step dt eb w i) = 0.
Proof. exact (hybrid_phase_kill dt eb w i). Qed.
Print Assumptions C33_phase_kill_partial.
Example C33_ex : let i := Inputs (2, 0) (0, PI) (0, 0) 0 in
  PI / 2 <= Rabs (im (cfb i)) <= 3 * (PI / 2) /\ 0 < cabs (ratio i).
Proof. exact ex_hybrid. Qed.

(** C85: a walker whose overlap changes sign. *)
Theorem C85_hybrid_refuted : exists (dt eb : R) (w : walker) (i : inputs),
  0 < dt /\ 0 < eb /\ re (ratio i) < 0 /\ im (ratio i) = 0 /\ cfb i = (0, 0) /\ cmf i = (0, 0) /\
  weight w < weight (hybrid_step dt eb w i).
Proof. exact hybrid_rotated. Qed.
Print Assumptions C85_hybrid_refuted.
(** Partial: right in the local-energy scheme. *)
Theorem C85_local_partial dt eloc w i :
  cabs (cmulc (ratio i) (cexp (cmf i))) <> 0 ->
  re (cmulc (ratio i) (cexp (cmf i))) <= 0 -> weight (local_step dt eloc w i) = 0.
Proof. exact (local_rotated dt eloc w i). Qed.
Print Assumptions C85_local_partial.
Example C85_ex : let z := cmulc (-1, 0) (cexp (0, 0)) in cabs z <> 0 /\ re z <= 0.
Proof. exact ex_local. Qed.

(** C102: a walker orthogonal to the trial. *)
Theorem C102_hybrid_refuted : exists dt eb w i, 0 < dt /\ 0 < weight w /\ ratio i = (0, 0) /\
  0 < weight (hybrid_step dt eb w i).
Proof. exact hybrid_zero_ex. Qed.
Print Assumptions C102_hybrid_refuted.
Theorem C102_local_refuted : exists dt eloc w i, 0 < dt /\ 0 < weight w /\ ratio i = (0, 0) /\
  0 < weight (local_step dt eloc w i).
Proof. exact local_zero_ex. Qed.
Print Assumptions C102_local_refuted.

(** C34: the force-bias bound. *)
Theorem C34_bound_refuted : exists b f, 0 < b /\ b < cabs (rescale1 b f).
Proof. exact rescale_half. Qed.
Print Assumptions C34_bound_refuted.
(** Partial: bounds of at least one. *)
Theorem C34_bound_partial b f : 1 <= b -> cabs (rescale1 b f) <= b.
Proof. exact (rescale_bounded b f). Qed.
Print Assumptions C34_bound_partial.
Theorem C34_unchanged_within b f : cabs f <= b -> rescale1 b f = f.
Proof. exact (rescale_within b f). Qed.
Print Assumptions C34_unchanged_within.
Theorem C34_direction b f : exists k, 0 < k /\ rescale1 b f = cscale k f.
Proof. exact (rescale_direction b f). Qed.
Print Assumptions C34_direction.
(** The code is the projection on the disc for the bound one and no other. *)
Theorem C34_projection_iff_one_partial b : 1 / 1000000000000 < b ->
  (forall f, is_projection b (re f) (im f) (re (rescale1 b f)) (im (rescale1 b f))) <-> b = 1.
Proof. exact (rescale_projection_iff b). Qed.
Print Assumptions C34_projection_iff_one_partial.
Theorem C34_counter b n fs :
  snd (rescale_fbias b n fs) = n <-> Forall (fun f => cabs f <= b) fs.
Proof. exact (rescale_count b n fs). Qed.
Print Assumptions C34_counter.

(** C79: energies over several ranks. *)
Theorem C79_total_refuted : exists ranks, length ranks = 2%nat /\
  forall r, (r < 2)%nat -> fst (local_energy_eb ranks r)
    <> total (fun x => ww x * (we x + (wb x + wg x))) ranks.
Proof. exact eb_energy_two. Qed.
Print Assumptions C79_total_refuted.
Theorem C79_denominator_partial ranks r : (r < length ranks)%nat ->
  snd (local_energy_eb ranks r) = total ww ranks.
Proof. exact (eb_energy_norm ranks r). Qed.
Print Assumptions C79_denominator_partial.
Theorem C79_one_rank_partial l :
  fst (local_energy_eb [l] 0) = total (fun x => ww x * (we x + (wb x + wg x))) [l].
Proof. exact (eb_energy_one l). Qed.
Print Assumptions C79_one_rank_partial.
(** n ranks with equal walkers report the n-th part of the energy. *)
Theorem C79_identical_ranks_partial l n r : (r < n)%nat -> rsum (map ww l) <> 0 ->
  let ranks := repeat l n in
  fst (local_energy_eb ranks r) / snd (local_energy_eb ranks r)
  = (total (fun x => ww x * (we x + (wb x + wg x))) ranks / total ww ranks) / INR n.
Proof. exact (eb_energy_identical l n r). Qed.
Print Assumptions C79_identical_ranks_partial.
(** The electronic propagator reduces both. *)
Theorem C79_electronic_partial ranks r : (r < length ranks)%nat ->
  local_energy ranks r = (total (fun x => ww x * we x) ranks, total ww ranks).
Proof. exact (base_energy ranks r). Qed.
Print Assumptions C79_electronic_partial.

(** C93: the default options. *)
Theorem C93_default_refuted : exists dt eb eloc w i, 0 < dt /\ 0 < weight w /\
  update_weight (scheme_of default_scheme_arg None) dt eb eloc w i = Err ValueError.
Proof. exact scheme_default_ex. Qed.
Print Assumptions C93_default_refuted.
(** Partial: right when the user names a scheme. *)
Theorem C93_named_partial s u dt eb eloc w i :
  (s = "hybrid" \/ s = "local")%string -> u = None \/ u = Some (Some s) ->
  update_weight (scheme_of (Some s) u) dt eb eloc w i
  = Ok (if String.eqb s "hybrid" then hybrid_step dt eb w i else local_step dt eloc w i).
Proof. exact (scheme_named s u dt eb eloc w i). Qed.
Print Assumptions C93_named_partial.

(** C30: gathering in walker order. *)
Theorem C30_gather {A E : Type} (zero : E) (f : A -> E) (parts : list (list A)) :
  exx_chunked zero f (length (concat parts)) (displs_of (map (@length A) parts)) parts
  = map f (concat parts).
Proof. exact (exx_gather zero f parts). Qed.
Print Assumptions C30_gather.
Example C30_ex : exx_chunked 0%nat S 3 (displs_of [2; 0; 1]%nat) [[5; 6]; []; [7]]%nat = [6; 7; 8]%nat.
Proof. reflexivity. Qed.
