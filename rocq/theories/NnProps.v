(** Theorems about the neural-network driver, openms/lib/hippynn_es_driver.py.
    C179, C180, C181, C182. *)
From Coq Require Import Reals Lra.
From Coquelicot Require Derive.
From Verif Require Import Base HopModel HopSpec NnModel NnSpec NnProofs.
Open Scope R_scope.

(** C179.  The forces written into a molecule are minus the derivative of the
    energy in hartree with respect to the coordinates in bohr. *)
Theorem C179_forces : forall net ag nout d coords mols out z,
  dZ d = Some z -> dconv d <> 0 -> differentiates ag ->
  calculate_force net ag nout d coords mols = Ok out ->
  length out = length mols /\
  forall m st, nth_error mols m = Some st -> exists st', nth_error out m = Some st' /\ length st' = length st /\
    (forall i, (dnstates d <= i)%nat -> nth_error st' i = nth_error st i) /\
    forall i k l, (i < dnstates d)%nat ->
      derivable_pt_lim (fun h => net (nth m z []) (bump (fun k' => coords m k' / dconv d) k h) i) 0 l ->
      exists F, nth_error st' i = Some F /\
        derivable_pt_lim (fun h => in_bohr (fun r => net (nth m z []) r i) (dconv d) (econv d) (bump (coords m) k h)) 0 (- F k).
Proof. exact forces. Qed.
Print Assumptions C179_forces.
(** The network has to return one energy more than there are states. *)
Theorem C179_outputs : forall net ag nout d coords mols z, dZ d = Some z ->
  (forall st, In st mols -> (dnstates d <= length st)%nat) ->
  ((exists out, calculate_force net ag nout d coords mols = Ok out) <-> (dnstates d < nout)%nat) /\
  ((nout <= dnstates d)%nat -> calculate_force net ag nout d coords mols = Err IndexError).
Proof. exact force_outputs. Qed.
Print Assumptions C179_outputs.
(** Without a call of get_Z, which nothing makes, every evaluation raises. *)
Theorem C179_unset_refuted : forall net ag nout d coords mols, dZ d = None ->
  calculate_force net ag nout d coords mols = Err AttributeError.
Proof. exact force_unset. Qed.
Print Assumptions C179_unset_refuted.
(** the assumption on autograd can be met *)
Example C179_ag : differentiates (fun g r m k => Derive.Derive (fun h => g (bump_batch r m k h)) 0).
Proof.
  intros g r m k l H. apply Derive.is_derive_unique. now apply Derive.is_derive_Reals.
Qed.
Example C179_ex : exists out, calculate_force (fun _ r _ => r 0%nat * r 0%nat)
    (fun g r m k => Derive.Derive (fun h => g (bump_batch r m k h)) 0) 2
    (Drv (Some [[1%Z]]) (coords_conversion true) 1 1) (fun _ _ => 1) [[fun _ => 0; fun _ => 7]] = Ok out.
Proof. eexists. reflexivity. Qed.

(** C180.  The dipole gradient is with respect to the network's coordinates; it
    has to be divided by the conversion factor to be the one in bohr ... *)
Theorem C180_gradient_partial : forall ag nmol (q : geom -> nat -> R) c coords m i k l, c <> 0 -> (m < nmol)%nat ->
  differentiates ag ->
  derivable_pt_lim (fun h => q (bump (fun k' => coords m k' / c) k h) i) 0 l ->
  derivable_pt_lim (fun h => in_bohr (fun r => q r i) c 1 (bump (coords m) k h)) 0
    (get_dipole_grad ag nmol (fun r a j => q (r a) j) (fun a k' => coords a k' / c) m i k / c).
Proof. exact dipole_grad. Qed.
Print Assumptions C180_gradient_partial.
(** ... which the code does for the forces and not here. *)
Theorem C180_units_refuted : forall ag, differentiates ag -> exists q coords l,
  derivable_pt_lim (fun h => in_bohr (fun r => q r 0%nat) (coords_conversion true) 1 (bump (coords 0%nat) 0 h)) 0 l /\
  get_dipole_grad ag 1 (fun r a j => q (r a) j) (fun a k' => coords a k' / coords_conversion true) 0 0 0 <> l.
Proof. exact dipole_refuted. Qed.
Print Assumptions C180_units_refuted.

Open Scope Q_scope.
(** C181.  One coupling per pair of excited states, each pair once; the network
    output is the coupling times the energy difference of the pair. *)
Theorem C181_pairs : forall n, NoDup (state_pairs n) /\ (2 * length (state_pairs n) = n * (n - 1))%nat /\
  forall i j, In (i, j) (state_pairs n) <-> (i < j < n)%nat.
Proof. exact (fun n => conj (pairs_nodup n) (conj (pairs_length n) (pairs_in n))). Qed.
Print Assumptions C181_pairs.
Theorem C181_nacr : forall n e scaled nacr k i j row, (2 <= n)%nat -> get_nacr n e scaled = Ok nacr ->
  nth_error (state_pairs n) k = Some (i, j) -> nth_error scaled k = Some row ->
  ~ e (S i) == e (S j) ->
  exists d, nth_error nacr k = Some d /\ length d = length row /\
    forall c x, nth_error row c = Some x -> exists y, nth_error d c = Some y /\ y * (e (S j) - e (S i)) == x.
Proof. exact nacr_entry. Qed.
Print Assumptions C181_nacr.
(** The time-derivative coupling is velocity times coupling vector. *)
Theorem C181_nact : forall v nacr k d, nth_error nacr k = Some d ->
  nth_error (get_nact v nacr) k = Some (qsum (map (fun p => fst p * snd p) (combine v d))).
Proof. exact nact_entry. Qed.
Print Assumptions C181_nact.
Example C181_ex : get_nacr 3 (fun i => inject_Z (Z.of_nat (i * i))) [[6]; [16]; [10]] =
  Ok [[6 / (4 - 1)]; [16 / (9 - 1)]; [10 / (9 - 4)]].
Proof. reflexivity. Qed.

(** C182.  The driver cannot be used by surface hopping: the energies are asked
    for with an argument ... *)
Theorem C182_call_refuted : forall A n (coords : A) e v nacr h,
  sh_hamiltonian n coords e v nacr h = Err TypeError.
Proof. exact (fun _ _ _ _ _ _ _ => eq_refl). Qed.
Print Assumptions C182_call_refuted.
(** ... and with the calls repaired there are too few couplings. *)
Theorem C182_short_refuted : forall n e scaled v h, (2 <= n)%nat -> length scaled = length (state_pairs n) ->
  sh_hamiltonian_read n e scaled v h = Err IndexError.
Proof. exact read_short. Qed.
Print Assumptions C182_short_refuted.
Theorem C182_few_refuted : forall n e scaled v h, (n < 2)%nat -> sh_hamiltonian_read n e scaled v h = Err RuntimeError.
Proof. exact read_few. Qed.
Print Assumptions C182_few_refuted.
Example C182_ex : sh_hamiltonian_read 2 (fun i => inject_Z (Z.of_nat i)) [[1; 2]] [1; 1] (fun _ _ => 0) = Err IndexError.
Proof. reflexivity. Qed.
