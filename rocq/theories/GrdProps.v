(** What is proved about the non-uniform grid. *)
From Coq Require Import QArith Qabs ZArith List Permutation Lia.
From Verif Require Import GrdModel GrdSpec GrdProofs.
Import ListNotations.
Local Open Scope Q_scope.

(** C218: heights and grid points *)
Theorem C218_round_trip_partial : forall lz zsize l i, (0 < lz)%Z -> aligned lz (bottom zsize) l -> (0 <= i)%Z ->
  non_uniform_z_to_i lz zsize l (non_uniform_i_to_z lz zsize l i) = i.
Proof. exact round_trip. Qed.
Print Assumptions C218_round_trip_partial.
Theorem C218_spacing_partial : forall lz zsize l i, (0 < lz)%Z -> aligned lz (bottom zsize) l -> (0 < i)%Z ->
  (0 < ngrid_lattice_nz_i lz zsize l i)%Z /\
  non_uniform_i_to_z lz zsize l i - non_uniform_i_to_z lz zsize l (i - 1) == 1 / inject_Z (ngrid_lattice_nz_i lz zsize l i).
Proof. exact spacing. Qed.
Print Assumptions C218_spacing_partial.
Theorem C218_increasing_partial : forall lz zsize l i j, (0 < lz)%Z -> aligned lz (bottom zsize) l -> (0 <= i)%Z -> (i < j)%Z ->
  non_uniform_i_to_z lz zsize l i < non_uniform_i_to_z lz zsize l j.
Proof. exact increasing. Qed.
Print Assumptions C218_increasing_partial.
Theorem C218_nearest_partial : forall lz zsize l z, (0 < lz)%Z -> aligned lz (bottom zsize) l -> bottom zsize <= z ->
  Qabs (non_uniform_i_to_z lz zsize l (non_uniform_z_to_i lz zsize l z) - z) <= (1 # 2) / inject_Z (ngrid_lattice_nz_z lz l z).
Proof. exact nearest_top. Qed.
Print Assumptions C218_nearest_partial.
(** layers that do not end on grid points: neither an inverse nor monotone *)
Theorem C218_trip_refuted : exists lz zsize l i, (0 < lz)%Z /\ ordered (bottom zsize) l /\ (0 <= i)%Z /\
  non_uniform_z_to_i lz zsize l (non_uniform_i_to_z lz zsize l i) <> i.
Proof. exact (ex_intro _ 1%Z (ex_intro _ 10 (ex_intro _ odd_layer (ex_intro _ 6%Z (conj Z.lt_0_1 (conj odd_ordered (conj (Pos2Z.is_nonneg 6) odd_trip))))))). Qed.
Print Assumptions C218_trip_refuted.
Theorem C218_monotone_refuted : exists lz zsize l z z', (0 < lz)%Z /\ ordered (bottom zsize) l /\ z < z' /\
  (non_uniform_z_to_i lz zsize l z' < non_uniform_z_to_i lz zsize l z)%Z.
Proof. exact (ex_intro _ 1%Z (ex_intro _ 10 (ex_intro _ odd_layer (ex_intro _ (7 # 10) (ex_intro _ (8 # 10) (conj Z.lt_0_1 (conj odd_ordered odd_mono))))))). Qed.
Print Assumptions C218_monotone_refuted.
Definition two_layers : list layer := [Layer (-2) (-1) 4; Layer 1 (3 # 2) 6].
Example C218_example : aligned 2 (bottom 8) two_layers /\ non_uniform_z_to_i 2 8 two_layers 4 = 20%Z /\
  map (ngrid_lattice_nz_i 2 8 two_layers) [4; 5; 8; 9; 12; 13; 15; 16]%Z = [2; 4; 4; 2; 2; 6; 6; 2]%Z /\
  non_uniform_i_to_z 2 8 two_layers 14 == 4 # 3.
Proof.
  split; [|split; [reflexivity|split; reflexivity]]. cbn [aligned two_layers].
  split; [reflexivity|]. split; [exists 4%Z, 4%Z; repeat split; reflexivity || lia || discriminate|].
  split; [reflexivity|]. split; [exists 4%Z, 3%Z; repeat split; reflexivity || lia || discriminate|]. exact I.
Qed.

(** C219: sorting of the layers *)
Theorem C219_sorts_partial : forall n a, whole_starts n a ->
  exists b, sort_layers n a = Done b /\ same_entries n a b /\ sorted n b.
Proof. exact sort_ok. Qed.
Print Assumptions C219_sorts_partial.
Theorem C219_keeps : forall n a b, sort_layers n a = Done b -> same_entries n a b.
Proof. exact sort_keeps. Qed.
Print Assumptions C219_keeps.
(** the pivot is an int: layers that start at a fraction stay out of order *)
Theorem C219_unsorted_refuted : exists n a b, sort_layers n a = Done b /\ ~ sorted n b.
Proof. exact (ex_intro _ 2%Z (ex_intro _ _ unsorted)). Qed.
Print Assumptions C219_unsorted_refuted.
(** ... or entries before the array are read *)
Theorem C219_overrun_refuted : exists n a i, sort_layers n a = Out i /\ (i < 0)%Z.
Proof. exact (ex_intro _ 2%Z (ex_intro _ _ (ex_intro _ (-1)%Z (conj overrun (Pos2Z.neg_is_neg 1))))). Qed.
Print Assumptions C219_overrun_refuted.
Definition five : array := fun p => nth (Z.to_nat p) (map (fun x => Layer (inject_Z x) (inject_Z x + 1) 1) [3; 1; 2; 5; 1]%Z) (Layer 0 0 0).
Example C219_example : whole_starts 5 five /\ match sort_layers 5 five with
  | Done b => map (fun p => nz_start (b p)) (entries 5) = map inject_Z [1; 1; 2; 3; 5]%Z | _ => False end.
Proof.
  split; [|vm_compute; reflexivity]. intros p hp.
  assert (h : (p = 0 \/ p = 1 \/ p = 2 \/ p = 3 \/ p = 4)%Z) by lia.
  destruct h as [->|[->|[->|[->| ->]]]]; eexists; reflexivity.
Qed.
