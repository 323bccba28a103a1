(** What the layer profiles and the sources are expected to do. *)
From Coq Require Import Reals ZArith List.
From Verif Require Import SrcModel.
Import ListNotations.
Local Open Scope R_scope.

(** a polynomially graded layer: zero up to depth 0, [top] at depth 1 *)
Definition graded (top order depth : R) : R :=
  if Rlt_dec 0 depth then top * Rpower depth order else 0.
(** the peak conductivity of a layer of vacuum impedance over the refractive index *)
Definition peak (sig order index : R) : R := sig * (order + 1) / (150 * PI * index).

(** sum of a function over the integers a, a + 1, ..., a + n - 1 *)
Fixpoint sum_from (f : Z -> R) (a : Z) (n : nat) : R :=
  match n with O => 0 | S n' => f a + sum_from f (a + 1) n' end.
(** sum over a list *)
Definition sum_over {A} (f : A -> R) (l : list A) : R := fold_right (fun x s => f x + s) 0 l.
(** total of a grid quantity over a box *)
Definition box_total (g : Z -> Z -> Z -> R) (xs ys zs : list Z) : R :=
  sum_over (fun x => sum_over (fun y => sum_over (fun z => g x y z) zs) ys) xs.

(** angles that differ by a whole number of turns *)
Definition same_angle (x y : R) : Prop := exists m : Z, x - y = 2 * PI * IZR m.

(** a randomly reoriented dipole on its own: its orientation is kept until the
    time [s_tau] and is then replaced by the next draw, which also gives the
    waiting time *)
Definition renew (t : Z) (d : draw) (x : slot) : slot :=
  let '(th, ph, ep, tw) := d in if (t =? s_tau x)%Z then Slot th ph ep (t + tw) else x.
Fixpoint life (t : Z) (x : slot) (ds : list draw) : list slot :=
  match ds with [] => [] | d :: r => renew t d x :: life (t + 1) (renew t d x) r end.

(** two layers that do not overlap, with at least one cell each *)
Definition layer_ok (l : layer) : Prop :=
  periodic l = false /\ (0 < pml_l l)%Z /\ (0 < pml_r l)%Z /\ (pml_l l + pml_r l + 2 <= size l)%Z /\
  0 < order_l l /\ 0 < order_r l /\ 0 <= sig_l l /\ 0 <= sig_r l.

(** how far into each layer the position [a] lies, in units of its thickness *)
Definition depth_l (l : layer) (a : R) : R := (IZR (pml_l l) + / 2 - a) / IZR (pml_l l).
Definition depth_r (l : layer) (a : R) : R := (a - IZR (size l - pml_r l - 1)) / IZR (pml_r l).

(** parameters of a convolutional layer *)
Definition cpml_ok (c : cpml) : Prop :=
  use_periodic_x c = false /\ (0 < m_pml c)%nat /\ (0 < ma_pml c)%nat /\
  0 < sigmaC c /\ 0 < alphaC c /\ 1 <= kappaC c /\ 0 < dt_nm c /\ 0 < eps0 c.

(** the source amplitude at a node of a plane wave *)
Definition pw_amp (w wx wy fr : R) (lx ly to td t i j : Z) : R :=
  Gauss_amp w fr (pw_phase PI wx wy lx ly i j) to td t.

(** where a component of the cell (i, j, k) lives, in half cells (Yee grid) *)
Definition yee (c : comp) (i j k : Z) : Z * Z * Z :=
  match c with
  | CEx => (2 * i + 1, 2 * j, 2 * k) | CEy => (2 * i, 2 * j + 1, 2 * k) | CEz => (2 * i, 2 * j, 2 * k + 1)
  | CHx => (2 * i, 2 * j + 1, 2 * k + 1) | CHy => (2 * i + 1, 2 * j, 2 * k + 1) | CHz => (2 * i + 1, 2 * j + 1, 2 * k)
  end%Z.
(** next to the node (a, b, d) *)
Definition next_to (a b d : Z) (p : Z * Z * Z) : Prop :=
  let '(x, y, z) := p in (Z.abs (x - 2 * a) <= 1 /\ Z.abs (y - 2 * b) <= 1 /\ Z.abs (z - 2 * d) <= 1)%Z.
