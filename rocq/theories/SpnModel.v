(** Model of openms/spindy/spin.py: zero-field splitting, g-tensor and the spin
    objects.  Scalars are elements of a field; the tests of exact equality that
    numpy makes with a tolerance are not needed for the shapes modelled here. *)
From mathcomp Require Import all_ssreflect all_algebra.
From Verif Require Base.
Set Implicit Arguments. Unset Strict Implicit. Unset Printing Implicit Defensive.
Import GRing.Theory.
Local Open Scope ring_scope.

Section tensors.
Variable F : fieldType.
(** a number or a 3 by 3 array *)
Inductive zfs_arg := DScalar (D : F) | DTensor (D : 'M[F]_3).
(** spin.py 68-97; rows and columns 0, 1, 2 are x, y, z *)
Definition zfs_tensor (D : zfs_arg) (E : F) : 'M[F]_3 :=
  match D with
  | DScalar d => \matrix_(i, j) (if i != j then 0
                   else if (i == 0%N :> nat) then - d / 3%:R + E
                   else if (i == 1%N :> nat) then - d / 3%:R - E
                   else 2%:R / 3%:R * d)
  | DTensor t => t
  end.

(** spin.py 30-66 and 167-180: what a g-factor may be, a number (or an array with one
    element), an array of three, an array of another length, a tensor; stacks of
    tensors are left out *)
Inductive g_arg := GScalar (g : F) | GThree (g : 'rV[F]_3) | GOther (n : nat) | GTensor (g : 'M[F]_3).
(** the product with the identity spreads an array over the columns *)
Definition set_gfactor (g : g_arg) : Base.res 'M[F]_3 :=
  match g with
  | GScalar x => Base.Ok (\matrix_(i, j) ((i == j)%:R * x))
  | GThree v => Base.Ok (\matrix_(i, j) ((i == j)%:R * v 0 j))
  | GOther _ => Base.Err Base.ValueError
  | GTensor t => Base.Ok t
  end.

(** spin.py 132-162: the attributes of a spin; [E] and [D] are arguments of the
    constructor, so they are not among the keywords that update the attributes *)
Record spin_obj := SpinObj { at_D : F; at_E : F; at_zfs : 'M[F]_3; at_g : 'M[F]_3 }.
Definition new_spin (D : zfs_arg) (E : F) (g : g_arg) : Base.res spin_obj :=
  match set_gfactor g with
  | Base.Ok t => Base.Ok (SpinObj 0 0 (zfs_tensor D E) t)
  | Base.Err e => Base.Err e
  end.
End tensors.
