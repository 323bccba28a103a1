(** What the monitors are expected to report. *)
From Coq Require Import Reals ZArith List Bool.
From Verif Require Import MonModel.
Import ListNotations.
Local Open Scope R_scope.

(** ** Mirror planes.  On the staggered grid E along [a] sits half a step off the
    nodes in direction [a], H along [a] in the two other directions *)
Definition half_step (kd : kind) (a d : axis) : bool :=
  match kd with KH => negb (axis_eqb a d) | _ => axis_eqb a d end.
(** reflection at the plane through node [c] *)
Definition reflect (c : Z) (hs : bool) (i : Z) : Z := if hs then (2 * c - 1 - i)%Z else (2 * c - i)%Z.
(** parity [par]: components half a step off the plane take the sign [par], those
    in the plane the opposite sign *)
Definition sgn (par : Z) (hs : bool) : R := if hs then IZR par else - IZR par.
Definition sym_x (par c : Z) (F : arrays) : Prop := forall kd a i j k,
  F kd a (reflect c (half_step kd a AX) i) j k = sgn par (half_step kd a AX) * F kd a i j k.
Definition sym_y (par c : Z) (F : arrays) : Prop := forall kd a i j k,
  F kd a i (reflect c (half_step kd a AY) j) k = sgn par (half_step kd a AY) * F kd a i j k.
Definition sym_z (par c : Z) (F : arrays) : Prop := forall kd a i j k,
  F kd a i j (reflect c (half_step kd a AZ) k) = sgn par (half_step kd a AZ) * F kd a i j k.
(** the same for the permittivity, which does not change sign *)
Definition eps_sym_x (c : Z) (e : axis -> grid) : Prop := forall a i j k, e a (reflect c (axis_eqb a AX) i) j k = e a i j k.
Definition eps_sym_y (c : Z) (e : axis -> grid) : Prop := forall a i j k, e a i (reflect c (axis_eqb a AY) j) k = e a i j k.
Definition eps_sym_z (c : Z) (e : axis -> grid) : Prop := forall a i j k, e a i j (reflect c (axis_eqb a AZ) k) = e a i j k.

(** a box whose mirror planes pass through the node at half its size
    (parameter.c:405-421) *)
Definition halved (size psize par : Z) : Prop := mirrored par = true -> exists c, size = (2 * c)%Z /\ psize = (c + 1)%Z.
Definition even_box (b : box) : Prop :=
  halved (isize b) (pisize b) (xparity b) /\ halved (jsize b) (pjsize b) (yparity b) /\ halved (ksize b) (pksize b) (zparity b).
Definition symmetric (b : box) (F : arrays) : Prop :=
  (mirrored (xparity b) = true -> sym_x (xparity b) (isize b / 2) F) /\
  (mirrored (yparity b) = true -> sym_y (yparity b) (jsize b / 2) F) /\
  (mirrored (zparity b) = true -> sym_z (zparity b) (ksize b / 2) F).
Definition eps_symmetric (b : box) (e : axis -> grid) : Prop :=
  (mirrored (xparity b) = true -> eps_sym_x (isize b / 2) e) /\
  (mirrored (yparity b) = true -> eps_sym_y (jsize b / 2) e) /\
  (mirrored (zparity b) = true -> eps_sym_z (ksize b / 2) e).
(** the indices that are stored *)
Definition stored (size psize par i : Z) : Prop := mirrored par = true -> (0 <= i <= psize)%Z.
Definition in_store (b : box) (i j k : Z) : Prop :=
  stored (isize b) (pisize b) (xparity b) i /\ stored (jsize b) (pjsize b) (yparity b) j /\ stored (ksize b) (pksize b) (zparity b) k.
(** the inner nodes of the whole box *)
Definition inner (size par i : Z) : Prop := mirrored par = true -> (1 <= i <= size - 1)%Z.
Definition inner_node (b : box) (i j k : Z) : Prop :=
  inner (isize b) (xparity b) i /\ inner (jsize b) (yparity b) j /\ inner (ksize b) (zparity b) k.
Definition whole_eps (e : axis -> grid) (i j k : Z) : R :=
  (e AX i j k + e AX (i - 1)%Z j k + e AY i j k + e AY i (j - 1)%Z k + e AZ i j k + e AZ i j (k - 1)%Z) / 6.

(** ** What is reported at a node.  A field that grows linearly in space, stored
    where each component sits, is its value at the node *)
Definition offset (kd : kind) (a d : axis) : R := if half_step kd a d then / 2 else 0.
Definition affine (c0 cx cy cz x y z : R) : R := c0 + cx * x + cy * y + cz * z.
Definition stores_affine (c0 cx cy cz : R) (A : arrays) (kd : kind) (a : axis) : Prop := forall i j k,
  A kd a i j k = affine c0 cx cy cz (IZR i + offset kd a AX) (IZR j + offset kd a AY) (IZR k + offset kd a AZ).
(** the axes in cyclic order; vector product, scalar product *)
Definition next (a : axis) : axis := match a with AX => AY | AY => AZ | AZ => AX end.
Definition cross (u v : axis -> R) (a : axis) : R := u (next a) * v (next (next a)) - u (next (next a)) * v (next a).
Definition dot (u v : axis -> R) : R := u AX * v AX + u AY * v AY + u AZ * v AZ.

(** ** Bloch waves: one period multiplies the complex field by a phase *)
Definition rot (t : R) (z : R * R) : R * R := (fst z * cos t - snd z * sin t, fst z * sin t + snd z * cos t).
Definition turns (n : nat) (t : R) (z : R * R) : R * R := Nat.iter n (rot t) z.
(** position of a printed column along the crystal *)
Definition place (isize : Z) (hi : Z * Z) : Z := (fst hi * isize + snd hi)%Z.

(** ** The net outflow of a region as a sum over its cells *)
Definition div (d : domain) (S : axis -> grid) (i j k : Z) : R :=
  ds_y d * ds_nz d k * (S AX i j k - S AX (i - 1)%Z j k) + ds_nz d k * ds_x d * (S AY i j k - S AY i (j - 1)%Z k)
  + ds_x d * ds_y d * (S AZ i j k - S AZ i j (k - 1)%Z).
Definition total_div (d : domain) (S : axis -> grid) (xs ys zs : list Z) : R :=
  sum_over (fun i => sum_over (fun j => sum_over (fun k => div d S i j k) zs) ys) xs.
Definition plain_domain (d : domain) : Prop :=
  (0 <= pmlil d /\ 0 <= pmljl d /\ 0 <= pmlkl d /\ 0 <= lattice_x d /\ 0 <= lattice_y d /\ 0 <= lattice_z d /\
   lattice_x d <= 5 * (d_isize d - 2 - pmlir d) /\ lattice_y d <= 5 * (d_jsize d - 2 - pmljr d) /\
   lattice_z d <= 5 * (d_ksize d - 2 - pmlkr d) /\
   x_lo d <= x_hi d /\ y_lo d <= y_hi d /\ z_lo d <= z_hi d)%Z.

(** ** Drude metal: the real part of the permittivity at angular frequency w *)
Definition drude (einf wp go w : R) : R := einf - wp * wp / (w * w + go * go).

(** ** A bilinear function of the indices *)
Definition bilinear (a b c e x y : R) : R := a + b * x + c * y + e * x * y.
