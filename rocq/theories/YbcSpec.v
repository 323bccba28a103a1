(* Specification vocabulary for YbcProps: the equations every cell has to
   fulfil, the relations a periodic or mirror-symmetric field fulfils across
   the boundary, and which array elements exist. *)
From mathcomp Require Import all_ssreflect all_algebra.
From Verif Require Import YeeModel YeeSpec YbcModel.
Set Implicit Arguments.
Unset Strict Implicit.
Unset Printing Implicit Defensive.
Import GRing.Theory Num.Theory.
Local Open Scope ring_scope.

Section YbcSpec.
Variable R : realFieldType.

(* what is divided by in a cell is not zero *)
Definition cell_ok (p : par R) (i j k : nat) : Prop :=
  constants_ok p /\
  (vacuum_cell p i j k \/ layer_cell p i j k -> eps_ok p i j k) /\
  (metal_cell p i j k ->
     2%:R + mgamma p i j k * dt p <> 0 /\
     2%:R * eo p * mepsilon p i j k * (2%:R + mgamma p i j k * dt p) +
     dt p * (momega p i j k ^+ 2 * eo p * dt p) <> 0) /\
  (layer_cell p i j k -> layer_ok p i j k).

(* the equations of the electric field in a cell, s before and t after *)
Definition electric_law (p : par R) (s t : state R) (i j k : nat) : Prop :=
  (vacuum_cell p i j k ->
     ampere (eo p) (dt p) (ds_x p) (ds_y p) (ds_nz p) (epsilon p) (fE s) (fE t) (fH s)
       (no_current R) i j k) /\
  (metal_cell p i j k ->
     ampere (eo p) (dt p) (ds_x p) (ds_y p) (ds_nz p)
       (fun a b c => V3 (mepsilon p a b c) (mepsilon p a b c) (mepsilon p a b c))
       (fE s) (fE t) (fH s) (mean (fJ t) (fJ s)) i j k /\
     drude (eo p) (dt p) (mgamma p i j k) (momega p i j k) (fE s) (fE t) (fJ s) (fJ t) i j k) /\
  (conductor_cell p i j k -> fE t i j k = V3 0 0 0) /\
  (layer_cell p i j k -> layer_E p (fE s) (fE t) (fD s) (fD t) (fH s) i j k).

(* the equations of the magnetic field, driven by the new electric field *)
Definition magnetic_law (p : par R) (s t : state R) (i j k : nat) : Prop :=
  (plain_cell p i j k ->
     faraday (uo p * ups p) (dt p) (ds_x p) (ds_y p) (ds_nz p) (fE t) (fH s) (fH t) i j k) /\
  (conductor_cell p i j k -> fH t i j k = V3 0 0 0) /\
  (layer_cell p i j k -> layer_H p (fH s) (fH t) (fB s) (fB t) (fE t) i j k).

Definition laws (p : par R) (s t : state R) (i j k : nat) : Prop :=
  electric_law p s t i j k /\ magnetic_law p s t i j k.

(* (u', v') is (u, v) as a complex number times c + i s *)
Definition turned (c s u v u' v' : R) : Prop :=
  u' = c * u - s * v /\ v' = s * u + c * v.

Section Ghost.
Variables (z : sizes) (S : cst R).

(* a field that obtains the factor c + i s from one unit cell to the next, in
   the x direction: the electric field behind the last cell, the magnetic
   field before the first one *)
Definition seam_Ex (c s : R) : Prop := forall j k,
  (1 <= j < pjsize z)%N -> (1 <= k < pksize z)%N ->
  forall cmp : arr R -> grid R, cmp = @cy R \/ cmp = @cz R ->
  turned c s (cmp (fE (cre S)) 1%N j k) (cmp (fE (cim S)) 1%N j k)
             (cmp (fE (cre S)) (isize z).+1 j k) (cmp (fE (cim S)) (isize z).+1 j k).
Definition seam_Hx (c s : R) : Prop := forall j k,
  (1 <= j < pjsize z)%N -> (1 <= k < pksize z)%N ->
  forall cmp : arr R -> grid R, cmp = @cy R \/ cmp = @cz R ->
  turned c s (cmp (fH (cre S)) 0%N j k) (cmp (fH (cim S)) 0%N j k)
             (cmp (fH (cre S)) (isize z) j k) (cmp (fH (cim S)) (isize z) j k).
(* the same in the y direction.  [u]: the next unit cell is displaced by u
   cells in the x direction (0 in the rectangular lattice); leaving the unit
   cell sideways costs the factor of the x direction, so a cell that would be
   beyond it is replaced by its copy with the factor c2 + i s2 *)
Definition seam_Ey (u : nat) (c s c2 s2 : R) : Prop := forall i k,
  (1 <= i < pisize z)%N -> (1 <= k < pksize z)%N ->
  forall cmp : arr R -> grid R, cmp = @cx R \/ cmp = @cz R ->
  if (i + u < pisize z)%N then
    turned c s (cmp (fE (cre S)) i 1%N k) (cmp (fE (cim S)) i 1%N k)
      (cmp (fE (cre S)) (i + u)%N (jsize z).+1 k) (cmp (fE (cim S)) (i + u)%N (jsize z).+1 k)
  else
    turned c2 s2 (cmp (fE (cre S)) i 1%N k) (cmp (fE (cim S)) i 1%N k)
      (cmp (fE (cre S)) (i + u - isize z)%N (jsize z).+1 k)
      (cmp (fE (cim S)) (i + u - isize z)%N (jsize z).+1 k).
Definition seam_Hy (u : nat) (c s c2 s2 : R) : Prop := forall i k,
  (1 <= i < pisize z)%N -> (1 <= k < pksize z)%N ->
  forall cmp : arr R -> grid R, cmp = @cx R \/ cmp = @cz R ->
  if (i + u < pisize z)%N then
    turned c s (cmp (fH (cre S)) i 0%N k) (cmp (fH (cim S)) i 0%N k)
      (cmp (fH (cre S)) (i + u)%N (jsize z) k) (cmp (fH (cim S)) (i + u)%N (jsize z) k)
  else
    turned c2 s2 (cmp (fH (cre S)) i 0%N k) (cmp (fH (cim S)) i 0%N k)
      (cmp (fH (cre S)) (i + u - isize z)%N (jsize z) k)
      (cmp (fH (cim S)) (i + u - isize z)%N (jsize z) k).
End Ghost.

(* cos and sin of the phases are consistent *)
Definition unit_phase (c s : R) : Prop := c ^+ 2 + s ^+ 2 = 1.
Definition phases_ok (w : phases R) : Prop :=
  [/\ unit_phase (cos_x w) (sin_x w), unit_phase (cos_y w) (sin_y w),
      unit_phase (cos_1 w) (sin_1 w) & unit_phase (cos_2 w) (sin_2 w)].

(* sizes as after periodic_boundary, no mirror planes *)
Definition periodic_sizes (z : sizes) : Prop :=
  [/\ (use_periodic_x z -> pisize z = (isize z).+1 /\ (0 < isize z)%N),
      (use_periodic_y z -> pjsize z = (jsize z).+1 /\ (0 < jsize z)%N) &
      xparity z = 0 /\ yparity z = 0 /\ zparity z = 0].

(* the displacement and the phases of the y direction: rectangular lattice
   (tri = false) and triangular lattice, displaced by half a unit cell *)
Definition yshift (z : sizes) (tri : bool) : nat := if tri then (isize z)./2 else 0%N.
Definition ycos (w : phases R) (tri : bool) : R := if tri then cos_1 w else cos_y w.
Definition ysin (w : phases R) (tri : bool) : R := if tri then sin_1 w else sin_y w.
Definition ycos2 (w : phases R) (tri : bool) : R := if tri then cos_2 w else cos_y w.
Definition ysin2 (w : phases R) (tri : bool) : R := if tri then sin_2 w else sin_y w.

(* the real fields, as a pair without regard to the imaginary ones *)
Definition twice (S : cst R) : cst R := Cst (cre S) (cre S).

(* ---- mirror planes ---- *)
Inductive dir := DX | DY | DZ.
(* the value at index n in the direction d and indices a, b in the other two *)
Definition on_plane (T : Type) (d : dir) (f : nat -> nat -> nat -> T) (n a b : nat) : T :=
  match d with DX => f n a b | DY => f a n b | DZ => f a b n end.
Definition normal (d : dir) : arr R -> grid R :=
  match d with DX => @cx R | DY => @cy R | DZ => @cz R end.
Definition plane (d : dir) (z : sizes) : nat :=
  match d with DX => cisize z | DY => cjsize z | DZ => cksize z end.
Definition limit (d : dir) (z : sizes) : nat :=
  match d with DX => pisize z | DY => pjsize z | DZ => pksize z end.
Definition parity (d : dir) (z : sizes) : int :=
  match d with DX => xparity z | DY => yparity z | DZ => zparity z end.

(* fields that are mirror images of themselves at the plane n of the
   direction d.  The nodes of the tangential E and the normal H lie in the
   plane, those of the normal E and the tangential H half a cell behind it.
   even: like at a conducting plane; odd: the other sign *)
Definition mirror_E (d : dir) (even : bool) (n : nat) (E : arr R) : Prop := forall a b,
  on_plane d (normal d E) n a b =
    (if even then 1 else -1) * on_plane d (normal d E) n.-1 a b /\
  (even -> forall e, e <> d -> on_plane d (normal e E) n a b = 0).
Definition mirror_H (d : dir) (even : bool) (n : nat) (H : arr R) : Prop := forall a b,
  (forall e, e <> d ->
    on_plane d (normal e H) n a b = (if even then 1 else -1) * on_plane d (normal e H) n.-1 a b) /\
  (even -> on_plane d (normal d H) n a b = 0).

(* one equation of Ampere's and of Faraday's law *)
Definition ampere_in (e : dir) (p : par R) (s t : state R) (i j k : nat) : Prop :=
  eo p * normal e (epsilon p) i j k * (normal e (fE t) i j k - normal e (fE s) i j k) / dt p =
  match e with
  | DX => by_ (ds_y p) (cz (fH s)) i j k - bz (dual (ds_nz p)) (cy (fH s)) i j k
  | DY => bz (dual (ds_nz p)) (cx (fH s)) i j k - bx (ds_x p) (cz (fH s)) i j k
  | DZ => bx (ds_x p) (cy (fH s)) i j k - by_ (ds_y p) (cx (fH s)) i j k
  end.
Definition faraday_in (e : dir) (p : par R) (s t : state R) (i j k : nat) : Prop :=
  uo p * ups p * (normal e (fH t) i j k - normal e (fH s) i j k) / dt p =
  match e with
  | DX => - (fy (ds_y p) (cz (fE t)) i j k - fz (ds_nz p) (cy (fE t)) i j k)
  | DY => - (fz (ds_nz p) (cx (fE t)) i j k - fx (ds_x p) (cz (fE t)) i j k)
  | DZ => - (fx (ds_x p) (cy (fE t)) i j k - fy (ds_y p) (cx (fE t)) i j k)
  end.

(* one mirror plane, even or odd, no periodic boundary *)
Definition one_mirror (d : dir) (even : bool) (z : sizes) : Prop :=
  [/\ parity d z = (if even then 1 else -1), (forall e, e <> d -> parity e z = 0),
      limit d z = (plane d z).+1, (0 < plane d z)%N &
      use_periodic_x z = false /\ use_periodic_y z = false].

(* ---- superposition ---- *)
(* u = a s + b t, number by number *)
Definition mixed_v (a b : R) (v w u : v3 R) : Prop :=
  [/\ vx u = a * vx v + b * vx w, vy u = a * vy v + b * vy w & vz u = a * vz v + b * vz w].
Definition mixed (a b : R) (s t u : state R) : Prop := forall i j k,
  [/\ mixed_v a b (fE s i j k) (fE t i j k) (fE u i j k),
      mixed_v a b (fH s i j k) (fH t i j k) (fH u i j k),
      mixed_v a b (fD s i j k) (fD t i j k) (fD u i j k),
      mixed_v a b (fB s i j k) (fB t i j k) (fB u i j k) &
      mixed_v a b (fJ s i j k) (fJ t i j k) (fJ u i j k)].
Definition mixed_c (a b : R) (S T U : cst R) : Prop :=
  mixed a b (cre S) (cre T) (cre U) /\ mixed a b (cim S) (cim T) (cim U).

(* ---- array elements that exist ---- *)
Definition allocated (z : sizes) (l : loc) : Prop :=
  (l.2.1.1 < misize z)%N /\ (l.2.1.2 < mjsize z)%N /\ (l.2.2 < mksize z)%N.
(* the array elements a sequence of assignments reads or writes *)
Definition touches (prog : seq (asg R)) (l : loc) : Prop :=
  exists a, a \in prog /\ (l = a.1 \/ exists t, t \in a.2 /\ l = t.2).
(* the array elements the update of a cell uses: its own and its neighbours' *)
Definition neighbour (i j k : nat) (l : loc) : Prop :=
  l.2 \in [:: (i, j, k); (i.-1, j, k); (i, j.-1, k); (i, j, k.-1);
              (i.+1, j, k); (i, j.+1, k); (i, j, k.+1)].
End YbcSpec.
