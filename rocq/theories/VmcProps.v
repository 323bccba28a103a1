From Coq Require Import Reals List Lra Lia.
From Verif Require Import Base VmcModel VmcSpec VmcProofs.
Import ListNotations.
Local Open Scope R_scope.

(** C260: samples without statistical error give the energy of the wave function *)
Theorem C260_energy conf (all : list conf) H psi cs : (forall c, In c all -> psi c <> 0) -> 0 < norm all psi ->
  faithful all psi cs -> e_mean (local_energy all H psi) cs = energy all H psi.
Proof. intros h1 h2 h3. now apply energy_mean. Qed.
Print Assumptions C260_energy.

(** and twice the vector handed to the optimiser is the gradient of that energy, for
    logarithmic derivatives of a real wave function *)
Theorem C260_gradient conf (all : list conf) H (psi : R -> conf -> R) dpsi t (grad : conf -> nat -> R) k cs :
  (forall c d, In c all -> In d all -> H c d = H d c) ->
  (forall c, In c all -> derivable_pt_lim (fun s => psi s c) t (dpsi c)) ->
  (forall c, In c all -> psi t c <> 0) -> 0 < norm all (psi t) ->
  (forall c, grad c k = dpsi c / psi t c) -> faithful all (psi t) cs ->
  derivable_pt_lim (fun s => energy all H (psi s)) t (2 * g_vec (local_energy all H (psi t)) grad cs k).
Proof. intros h1 h2 h3 h4 h5 h6. now apply (gradient conf all H psi dpsi t). Qed.
Print Assumptions C260_gradient.

(** an eigenstate has no variance: any samples give its energy and no gradient *)
Theorem C260_eigenstate conf (eloc : conf -> R) grad cs e k : cs <> [] -> (forall c, In c cs -> eloc c = e) ->
  e_mean eloc cs = e /\ g_vec eloc grad cs k = 0.
Proof. apply zero_variance. Qed.
Print Assumptions C260_eigenstate.

(** the normalisation of the wave function does not matter *)
Theorem C260_normalisation conf (eloc : conf -> R) grad cs (a : nat -> R) k l : cs <> [] ->
  s_mat (fun c k => grad c k + a k) cs k l = s_mat grad cs k l /\
  g_vec eloc (fun c k => grad c k + a k) cs k = g_vec eloc grad cs k.
Proof. apply shift_invariant. Qed.
Print Assumptions C260_normalisation.

(** the metric of stochastic reconfiguration is the covariance of the gradients: it is
    symmetric and not negative *)
Theorem C260_metric conf (grad : conf -> nat -> R) cs : cs <> [] ->
  (forall k l, s_mat grad cs k l = s_mat grad cs l k) /\
  (forall n x, 0 <= psum n (fun k => psum n (fun l => x k * x l * s_mat grad cs k l))) /\
  (forall k l, s_mat grad cs k l = average cs (fun c => grad c k * grad c l)
     - average cs (fun c => grad c k) * average cs (fun c => grad c l)).
Proof.
  intro h. split; [intros; apply s_sym|]. split; [intros; apply s_psd|]. intros k l. unfold s_mat.
  rewrite (mean_ext conf cs _ (fun c => (grad c k * grad c l + (- ok_mean grad cs l) * grad c k) + ((- ok_mean grad cs k) * grad c l + ok_mean grad cs k * ok_mean grad cs l))) by (intros; ring).
  rewrite !mean_add, !mean_scal, (mean_const conf cs _ h). unfold ok_mean, average. rewrite !mean_total. ring.
Qed.
Print Assumptions C260_metric.

(** for a complex wave function the vector is right while the gradients are real *)
Theorem C260_complex_partial conf (E O : conf -> R * R) cs : (forall c, snd (O c) = 0) ->
  2 * fst (g_complex E O cs) = complex_gradient E O cs.
Proof.
  intro h. unfold g_complex, complex_gradient, average. cbn [fst]. rewrite !mean_total.
  rewrite (total_ext conf cs (fun c => fst (E c) * fst (O c) - snd (E c) * snd (O c)) (fun c => fst (E c) * fst (O c))) by (intros c _; rewrite h; ring).
  rewrite (total_ext conf cs (fun c => fst (E c) * fst (O c) + snd (E c) * snd (O c)) (fun c => fst (E c) * fst (O c))) by (intros c _; rewrite h; ring).
  rewrite (total_ext conf cs (fun c => snd (O c)) (fun _ => 0)) by (intros c _; apply h).
  rewrite total_const. unfold Rdiv. ring.
Qed.
Print Assumptions C260_complex_partial.

(** norm and phase of a complex wave function do not matter *)
Theorem C260_phase conf (E O : conf -> R * R) cs a b : cs <> [] ->
  g_complex E (fun c => (fst (O c) + a, snd (O c) + b)) cs = g_complex E O cs.
Proof.
  intro h. unfold g_complex. cbn [fst snd].
  rewrite (mean_ext conf cs (fun c => fst (E c) * (fst (O c) + a) - snd (E c) * (snd (O c) + b))
    (fun c => (fst (E c) * fst (O c) - snd (E c) * snd (O c)) + (a * fst (E c) + (- b) * snd (E c)))) by (intros; ring).
  rewrite (mean_ext conf cs (fun c => fst (E c) * (snd (O c) + b) + snd (E c) * (fst (O c) + a))
    (fun c => (fst (E c) * snd (O c) + snd (E c) * fst (O c)) + (b * fst (E c) + a * snd (E c)))) by (intros; ring).
  rewrite !mean_add, !mean_scal, !(mean_const conf cs _ h). f_equal; ring.
Qed.
Print Assumptions C260_phase.

(** without conjugation it can point the opposite way *)
Theorem C260_complex_refuted : exists (E O : bool -> R * R) (cs : list bool),
  complex_gradient E O cs = 2 /\ 2 * fst (g_complex E O cs) = - 2.
Proof.
  exists (fun b : bool => (0, if b then 1 else -1)), (fun b : bool => (0, if b then 1 else -1)), [true; false].
  unfold complex_gradient, g_complex, average, mean, rsum. cbn. split; field.
Qed.
Print Assumptions C260_complex_refuted.

Example C260_example : let psi := fun b : bool => if b then 2 else 1 in
  faithful [true; false] psi [true; true; false; true; true] /\ norm [true; false] psi = 5 /\
  energy [true; false] (fun a b => if eqb a b then 0 else 1) psi = 4 / 5.
Proof.
  cbv zeta. split; [|split].
  - exists 1. split; [lra|]. intro f. cbn. lra.
  - unfold norm. cbn. lra.
  - unfold energy, ham, norm. cbn. field.
Qed.

(** C261: with the three attributes the loop makes [n_iter] updates, each from the
    samples drawn with the parameters of that moment *)
Theorem C261_loop_partial conf theta (eloc : theta -> conf -> R) grad sample step n t :
  kernel eloc grad sample step (Attrs true true true) n t =
  Ok (fold_left (fun t i => step t (s_mat (grad t) (sample i t)) (g_vec (eloc t) (grad t) (sample i t))) (seq 0 n) t).
Proof. apply kernel_fold. Qed.
Print Assumptions C261_loop_partial.

(** the class itself does not set them, so no run starts *)
Theorem C261_base_refuted : exists a : attrs, a = base_attrs /\ forall conf theta (eloc : theta -> conf -> R) grad sample step n t,
  kernel eloc grad sample step a (S n) t = Err AttributeError.
Proof. exists base_attrs. split; [reflexivity|]. intros. reflexivity. Qed.
Print Assumptions C261_base_refuted.

(** and the energy and the number of steps which it offers are always zero *)
Theorem C261_report_refuted : exists (h : list R) (n : nat), h <> [] /\ last h 0 <> 0 /\ n <> O /\
  energy_property h <> last h 0 /\ step_count n <> n.
Proof. exists [-1], 1%nat. unfold energy_property, step_count. cbn. repeat split; try lra; discriminate. Qed.
Print Assumptions C261_report_refuted.

Example C261_example : kernel (fun (t : R) (c : bool) => 1) (fun _ _ _ => 1) (fun _ _ => [true; false])
  (fun t _ _ => t + 1) (Attrs true true true) 2 0 = Ok (0 + 1 + 1).
Proof. reflexivity. Qed.
