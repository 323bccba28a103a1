(** Model of the non-uniform grid in z of the FDTD library,
    openms/lib/fdtd/parameter.c.  Numbers are rationals; the rounding of float is
    not modelled.  [lz] is lattice_z, [zsize] the height of the box. *)
From Coq Require Import QArith Qround ZArith List Bool.
Import ListNotations.
Local Open Scope Q_scope.

(** ** parameter.c:60-72: one entry of ngrid *)
Record layer := Layer { nz_start : Q; nz_end : Q; lattice_nz : Z }.

(** conversion of a float to an int *)
Definition trunc (q : Q) : Z := Z.quot (Qnum q) (Zpos (Qden q)).
(** floor(0.5 + x) *)
Definition round (x : Q) : Z := Qfloor ((1 # 2) + x).

(** ** parameter.c:478-512 ([generate_base_z], [generate_base_grid]): the base of
    the part above a layer.  The first entry (i = 1) has base_z[0] = -zsize/2 and
    base_grid[0] = 0 put in. *)
Definition next_base (lz : Z) (bz : Q) (bg : Z) (L : layer) : Z :=
  trunc (inject_Z bg + (nz_end L - nz_start L) * inject_Z (lattice_nz L) + (nz_start L - bz) * inject_Z lz).

(** ** parameter.c:99-154 ([non_uniform_z_to_i]); the loop over n is the
    recursion, [bz] and [bg] are base_z[n] and base_grid[n] *)
Fixpoint z_to_i_from (lz : Z) (bz : Q) (bg : Z) (l : list layer) (z : Q) : Z :=
  match l with
  | [] => (round ((z - bz) * inject_Z lz) + bg)%Z
  | L :: r =>
      if Qle_bool z (nz_start L) then (round ((z - bz) * inject_Z lz) + bg)%Z
      else if Qle_bool z (nz_end L) then
        (round ((nz_start L - bz) * inject_Z lz + (z - nz_start L) * inject_Z (lattice_nz L)) + bg)%Z
      else z_to_i_from lz (nz_end L) (next_base lz bz bg L) r z
  end.
Definition bottom (zsize : Q) : Q := - ((1 # 2) * zsize).
Definition non_uniform_z_to_i (lz : Z) (zsize : Q) (l : list layer) (z : Q) : Z :=
  z_to_i_from lz (bottom zsize) 0 l z.

(** ** parameter.c:156-185 ([non_uniform_i_to_z]); [g] is non_uniform_z_to_i *)
Fixpoint i_to_z_from (lz : Z) (g : Q -> Z) (bz : Q) (bg : Z) (l : list layer) (i : Z) : Q :=
  match l with
  | [] => inject_Z (i - bg) / inject_Z lz + bz
  | L :: r =>
      if (i <=? g (nz_start L))%Z then inject_Z (i - bg) / inject_Z lz + bz
      else if (i <=? g (nz_end L))%Z then
        inject_Z (g (nz_start L) - bg) / inject_Z lz + inject_Z (i - g (nz_start L)) / inject_Z (lattice_nz L) + bz
      else i_to_z_from lz g (nz_end L) (next_base lz bz bg L) r i
  end.
Definition non_uniform_i_to_z (lz : Z) (zsize : Q) (l : list layer) (i : Z) : Q :=
  i_to_z_from lz (non_uniform_z_to_i lz zsize l) (bottom zsize) 0 l i.

(** ** parameter.c:187-220 ([ngrid_lattice_nz_z], [ngrid_lattice_nz_i]): the last
    matching entry wins *)
Definition in_layer_z (z : Q) (L : layer) : bool := negb (Qle_bool z (nz_start L)) && Qle_bool z (nz_end L).
Definition ngrid_lattice_nz_z (lz : Z) (l : list layer) (z : Q) : Z :=
  fold_left (fun t L => if in_layer_z z L then lattice_nz L else t) l lz.
Definition in_layer_i (g : Q -> Z) (i : Z) (L : layer) : bool := (g (nz_start L) <? i)%Z && (i <=? g (nz_end L))%Z.
Definition ngrid_lattice_nz_i (lz : Z) (zsize : Q) (l : list layer) (i : Z) : Z :=
  fold_left (fun t L => if in_layer_i (non_uniform_z_to_i lz zsize l) i L then lattice_nz L else t) l lz.

(** ** parameter.c:74-97 ([quick_sort_nz_start]) on an array of [n] entries.
    [Out i] is a read of the entry i outside the array, [More] that the fuel was
    not enough. *)
Inductive outcome (A : Type) := Done (a : A) | Out (i : Z) | More.
Arguments Done {A} _.
Arguments Out {A} _.
Arguments More {A}.
Definition array := Z -> layer.
Definition inside (n i : Z) : bool := ((0 <=? i) && (i <? n))%Z.
Definition start (a : array) (i : Z) : Q := nz_start (a i).
Definition qlt_bool (x y : Q) : bool := negb (Qle_bool y x).
(** while ((ngrid_s[i].nz_start < pivot) && (i < right)) i++; *)
Fixpoint up (fuel : nat) (n : Z) (a : array) (pivot : Q) (right i : Z) : outcome Z :=
  match fuel with
  | O => More
  | S f => if inside n i then
             (if qlt_bool (start a i) pivot && (i <? right)%Z then up f n a pivot right (i + 1)%Z else Done i)
           else Out i
  end.
(** while (pivot < ngrid_s[j].nz_start) j--; *)
Fixpoint down (fuel : nat) (n : Z) (a : array) (pivot : Q) (j : Z) : outcome Z :=
  match fuel with
  | O => More
  | S f => if inside n j then (if qlt_bool pivot (start a j) then down f n a pivot (j - 1)%Z else Done j) else Out j
  end.
Definition swap (a : array) (i j : Z) : array := fun p => if (p =? i)%Z then a j else if (p =? j)%Z then a i else a p.
Definition obind {A B} (x : outcome A) (f : A -> outcome B) : outcome B :=
  match x with Done a => f a | Out i => Out i | More => More end.
(** for (;;) ... *)
Fixpoint partition (fuel : nat) (n : Z) (a : array) (pivot : Q) (right i j : Z) : outcome (array * Z * Z) :=
  match fuel with
  | O => More
  | S f =>
      obind (up (Z.to_nat (n + 2)) n a pivot right i) (fun u =>
      obind (down (Z.to_nat (n + 2)) n a pivot j) (fun d =>
      if (d <=? u)%Z then Done (a, u, d) else partition f n (swap a u d) pivot right (u + 1)%Z (d - 1)%Z))
  end.
(** int pivot = ngrid_s[(int)(left + right) / 2].nz_start; *)
Definition pivot_of (a : array) (left right : Z) : Q := inject_Z (trunc (start a (Z.quot (left + right) 2))).
Fixpoint quick_sort (fuel : nat) (n : Z) (left right : Z) (a : array) : outcome array :=
  match fuel with
  | O => More
  | S f =>
      obind (partition (Z.to_nat (n + 2)) n a (pivot_of a left right) right left right) (fun s =>
      let '(a1, i, j) := s in
      obind (if (left <? i - 1)%Z then quick_sort f n left (i - 1)%Z a1 else Done a1) (fun a2 =>
      if (j + 1 <? right)%Z then quick_sort f n (j + 1)%Z right a2 else Done a2))
  end.
(** parameter.c:278-279 *)
Definition sort_layers (n : Z) (a : array) : outcome array :=
  if (2 <=? n)%Z then quick_sort (Z.to_nat (n + 2)) n 0 (n - 1) a else Done a.
