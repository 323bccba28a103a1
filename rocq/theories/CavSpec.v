(** What a cavity object should look like. *)
From Coq Require Import Reals ZArith.
From Verif Require Import Base CavModel.
Open Scope R_scope.

(** scalar product with itself, one *)
Definition unit_vector (v : list R) : Prop := norm2 v = 1.
(** [w] is [v] divided by its length, or [v] when that is negligible *)
Definition direction_of (v w : list R) : Prop :=
  let c := sqrt (norm2 v) in
  (c > / 10 ^ 15 -> unit_vector w /\ w = map (fun x => x / c) v) /\ (~ c > / 10 ^ 15 -> w = v).
(** rows of a float argument *)
Definition float_rows (v : vec_arg) : option (list (list R)) :=
  match v with VList l => Some l | VArr _ l => Some l | _ => None end.
(** the couplings and sizes of an object fit together *)
Record consistent (b : boson) : Prop := Consistent {
  c_omega : length (omega b) = nmodes b;
  c_gfac : length (gfac b) = nmodes b;
  c_vec : length (vec b) = nmodes b;
  c_z : length (z_alpha b) = nmodes b;
  c_nboson : length (nboson b) = nmodes b /\ Forall (fun k => (0 < k)%Z) (nboson b);
  c_bilinear : bilinear b = map (fun go => fst go * sqrt (snd go / 2)) (combine (gfac b) (omega b));
  c_self : self b = map (fun g => g ^ 2 / 2) (gfac b);
  c_res : res_ b = map (fun f => 1 - f) (firstn (nmodes b) (var b));
  c_norm : coeff_size b = fold_right Z.add 0%Z (nboson b) /\ IZR (coeff_size b) * coeff0 b ^ 2 = 1 }.
(** the same call once more, with the caller's array as it is now *)
Definition again (x : args) (b : boson) : args :=
  Args (a_omega x) (caller_vec b) (a_gfac x) (a_nboson x) (a_use_cs x) (a_z x) (a_var x).
(** arguments as documented: frequencies and vectors as lists or arrays of
    floats, couplings, occupations and shifts of the right length *)
Definition documented (x : args) : Prop :=
  exists l rows, (a_omega x = OList l \/ a_omega x = OArr l) /\ l <> [] /\
  (a_vec x = VList rows \/ a_vec x = VArr 3 rows) /\ length rows = length l /\ Forall (fun r => length r = 3%nat) rows /\
  match a_gfac x with GNone => True | GList g | GArr g => length g = length l | GOther => False end /\
  match a_nboson x with NInt k => (0 < k)%Z
    | NList k | NArr k => length k = length l /\ Forall (fun k => (0 < k)%Z) k | NOther => False end /\
  match a_z x with ZNone => True | ZList z | ZArr z => length z = length l | ZOther => False end /\
  match a_var x with None => True | Some f => length f = length l end.
