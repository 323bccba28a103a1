(** Properties of the cavity constructor. *)
From Coq Require Import Reals ZArith.
From Verif Require Import Base CavModel CavSpec CavProofs.
Open Scope R_scope.

(** C45: a float array is normalised in place, so the second object gets
    other couplings. *)
Theorem C45_array_refuted : exists b b', make (one_mode (VArr 3 [[2; 0; 0]])) = Ok b /\
  make (again (one_mode (VArr 3 [[2; 0; 0]])) b) = Ok b' /\ caller_vec b <> VArr 3 [[2; 0; 0]] /\ gfac b = [2] /\ gfac b' = [1].
Proof. exact twice_differs. Qed.
Print Assumptions C45_array_refuted.
(** Partial: the same object again for lists, for given couplings and for unit
    vectors; a list is left alone. *)
Theorem C45_again_partial x b : make x = Ok b -> (forall c l, a_vec x <> VInt c l) ->
  ((exists l, a_vec x = VList l) \/ (exists l, a_gfac x = GList l \/ a_gfac x = GArr l)
   \/ (exists c l, a_vec x = VArr c l /\ Forall unit_vector l)) ->
  make (again x b) = Ok b.
Proof. exact (again_ok x b). Qed.
Print Assumptions C45_again_partial.
Theorem C45_list_partial x b l : a_vec x = VList l -> make x = Ok b -> caller_vec b = a_vec x.
Proof. exact (caller_list x b l). Qed.
Print Assumptions C45_list_partial.

(** C119: one mode given as a number. *)
Theorem C119_float_refuted x w : a_omega x = OFloat w -> make x = Err AttributeError.
Proof. exact (float_fails x w). Qed.
Print Assumptions C119_float_refuted.
Theorem C119_numpy_float_refuted x w : a_omega x = ONpFloat w -> exists e, make x = Err e.
Proof. exact (npfloat_fails x w). Qed.
Print Assumptions C119_numpy_float_refuted.
(** Partial: lists and arrays of documented arguments are accepted and treated
    alike. *)
Theorem C119_list_partial x : documented x -> exists b, make x = Ok b.
Proof. exact (documented_ok x). Qed.
Print Assumptions C119_list_partial.
Theorem C119_alike_partial x l : a_omega x = OList l ->
  make x = make (Args (OArr l) (a_vec x) (a_gfac x) (a_nboson x) (a_use_cs x) (a_z x) (a_var x)).
Proof. exact (list_or_array x l). Qed.
Print Assumptions C119_alike_partial.

(** C120: polarisation vectors. *)
Theorem C120_integers_refuted : exists b, make (one_mode (VInt 3 [[1; 1; 0]%Z])) = Ok b /\ vec b = [[0; 0; 0]].
Proof. exact int_truncated. Qed.
Print Assumptions C120_integers_refuted.
Theorem C120_floats_partial x b l : float_rows (a_vec x) = Some l -> make x = Ok b -> Forall2 direction_of l (vec b).
Proof. exact (vec_directions x b l). Qed.
Print Assumptions C120_floats_partial.

(** C121: the attributes fit together. *)
Theorem C121_consistent x b : make x = Ok b -> consistent b.
Proof. exact (make_consistent x b). Qed.
Print Assumptions C121_consistent.
Theorem C121_default_coupling x b l : a_gfac x = GNone -> float_rows (a_vec x) = Some l -> make x = Ok b ->
  gfac b = map (fun r => sqrt (norm2 r)) l.
Proof. exact (gfac_norms x b l). Qed.
Print Assumptions C121_default_coupling.
Theorem C121_given_coupling x b l : (a_gfac x = GList l \/ a_gfac x = GArr l) -> make x = Ok b -> gfac b = l.
Proof. exact (gfac_given x b l). Qed.
Print Assumptions C121_given_coupling.
Theorem C121_given_displacements x b l : (a_z x = ZList l \/ a_z x = ZArr l) -> make x = Ok b ->
  z_alpha b = l /\ use_cs b = false.
Proof. exact (z_given x b l). Qed.
Print Assumptions C121_given_displacements.
Theorem C121_default_displacements x b : a_z x = ZNone -> make x = Ok b ->
  z_alpha b = repeat 0 (nmodes b) /\ use_cs b = a_use_cs x.
Proof. exact (z_default x b). Qed.
Print Assumptions C121_default_displacements.
Example C121_ex : documented (Args (OList [1; 2]) (VList [[0; 0; 1]; [0; 3; 4]]) GNone (NInt 3) true ZNone None).
Proof. exists [1; 2], [[0; 0; 1]; [0; 3; 4]]. simpl. repeat split; try tauto; try discriminate. repeat constructor. Qed.
