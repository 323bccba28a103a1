(** The monitors of openms/lib/fdtd: reading fields at the nodes of the grid
    (output.c), energies and energy flow (energy.c), and the far-field map
    (transmap.c).  Numbers are real: rounding is not modelled, pi is a parameter
    where the code uses its own value.  Files are not modelled: the functions
    return what is printed or accumulated. *)
From Coq Require Import Reals ZArith List Bool.
Import ListNotations.
Local Open Scope R_scope.

(** ** output.c:1189-1480: fields at the nodes.  An array per kind and direction *)
Inductive kind := KE | KH | KJ.
Inductive axis := AX | AY | AZ.
Definition axis_eqb (a b : axis) : bool :=
  match a, b with AX, AX | AY, AY | AZ, AZ => true | _, _ => false end.
Definition grid := Z -> Z -> Z -> R.
Definition arrays := kind -> axis -> grid.
Record box := Box { isize : Z; jsize : Z; ksize : Z; pisize : Z; pjsize : Z; pksize : Z;
                    xparity : Z; yparity : Z; zparity : Z }.
Definition mirrored (par : Z) : bool := (par =? 1)%Z || (par =? -1)%Z.
(** "if (pisize <= i && ...) i = isize - i" in one direction *)
Definition image (size psize par i : Z) : Z := if ((psize <=? i)%Z && mirrored par) then (size - i)%Z else i.
Definition folded (psize par i : Z) : bool := (psize <=? i)%Z && mirrored par.
(** the factor p of a component along [a] for a mirror plane across [d] *)
Definition turn (kd : kind) (a d : axis) (par : Z) : R :=
  match kd with
  | KH => if axis_eqb a d then - IZR par else IZR par
  | _ => if axis_eqb a d then IZR par else - IZR par
  end.
Definition factor (kd : kind) (a d : axis) (psize par i : Z) : R := if folded psize par i then turn kd a d par else 1.
(** the mean of the neighbouring array elements: two for E and J, four for H *)
Definition node (A : arrays) (kd : kind) (a : axis) (i j k : Z) : R :=
  match kd, a with
  | KH, AX => (A KH AX i j k + A KH AX i (j - 1)%Z k + A KH AX i j (k - 1)%Z + A KH AX i (j - 1)%Z (k - 1)%Z) / 4
  | KH, AY => (A KH AY i j k + A KH AY i j (k - 1)%Z + A KH AY (i - 1)%Z j k + A KH AY (i - 1)%Z j (k - 1)%Z) / 4
  | KH, AZ => (A KH AZ i j k + A KH AZ (i - 1)%Z j k + A KH AZ i (j - 1)%Z k + A KH AZ (i - 1)%Z (j - 1)%Z k) / 4
  | _, AX => (A kd AX i j k + A kd AX (i - 1)%Z j k) / 2
  | _, AY => (A kd AY i j k + A kd AY i (j - 1)%Z k) / 2
  | _, AZ => (A kd AZ i j k + A kd AZ i j (k - 1)%Z) / 2
  end.
(** efieldx ... jfieldz *)
Definition field (b : box) (A : arrays) (kd : kind) (a : axis) (i j k : Z) : R :=
  factor kd a AX (pisize b) (xparity b) i * factor kd a AY (pjsize b) (yparity b) j * factor kd a AZ (pksize b) (zparity b) k
  * node A kd a (image (isize b) (pisize b) (xparity b) i) (image (jsize b) (pjsize b) (yparity b) j)
      (image (ksize b) (pksize b) (zparity b) k).
(** eps, lines 1547-1559, from the three permittivity arrays *)
Definition eps (b : box) (e : axis -> grid) (i j k : Z) : R :=
  let i := image (isize b) (pisize b) (xparity b) i in
  let j := image (jsize b) (pjsize b) (yparity b) j in
  let k := image (ksize b) (pksize b) (zparity b) k in
  (e AX i j k + e AX (i - 1)%Z j k + e AY i j k + e AY i (j - 1)%Z k + e AZ i j k + e AZ i j (k - 1)%Z) / 6.

(** output.c:706-829 ([grid_value]), without the logarithms; the energies of
    metals in [energy_metal] below *)
Inductive quantity := QE (a : axis) | QH (a : axis) | QJ (a : axis) | QJE | QE2 | QH2 | QS (a : axis)
  | QEEnergy | QEMEnergy | QE2of (a b : axis) | QH2of (a b : axis).
Definition value_of (eo uo ups : R) (f : kind -> axis -> R) (ep : R) (q : quantity) : R :=
  let e2 := f KE AX ^ 2 + f KE AY ^ 2 + f KE AZ ^ 2 in
  let h2 := f KH AX ^ 2 + f KH AY ^ 2 + f KH AZ ^ 2 in
  match q with
  | QE a => f KE a | QH a => f KH a | QJ a => f KJ a
  | QJE => f KE AX * f KJ AX + f KE AY * f KJ AY + f KE AZ * f KJ AZ
  | QE2 => e2 | QH2 => h2
  | QS AX => f KE AY * f KH AZ - f KE AZ * f KH AY
  | QS AY => f KE AZ * f KH AX - f KE AX * f KH AZ
  | QS AZ => f KE AX * f KH AY - f KE AY * f KH AX
  | QEEnergy => / 2 * eo * ep * e2
  | QEMEnergy => / 2 * eo * ep * e2 + / 2 * uo * ups * h2
  | QE2of a b => f KE a ^ 2 + f KE b ^ 2
  | QH2of a b => f KH a ^ 2 + f KH b ^ 2
  end.
Definition grid_value (eo uo ups : R) (b : box) (A : arrays) (e : axis -> grid) (q : quantity) (i j k : Z) : R :=
  value_of eo uo ups (fun kd a => field b A kd a i j k) (eps b e i j k) q.

(** ** output.c:831-1187: replicas of a periodic box, from the real and the
    imaginary arrays *)
Definition replica (b : box) (Re Im : arrays) (angle : R) (kd : kind) (a : axis) (i j k : Z) : R :=
  field b Re kd a i j k * cos angle - field b Im kd a i j k * sin angle.
Definition angle_x (cpi kx : R) (h : Z) : R := 2 * cpi * IZR h * kx.
Definition angle_y (cpi ky : R) (h : Z) : R := 2 * cpi * IZR h * ky.
Definition angle_xy (cpi kx ky : R) (h v : Z) : R := 2 * cpi * IZR h * kx + IZR v * ky.
(** output.c:396-413: the columns of one line of out_plane_periodic, plane "y" *)
Definition zrange (lo hi : Z) : list Z := map (fun n => lo + Z.of_nat n)%Z (seq 0 (Z.to_nat (hi - lo + 1))).
Definition columns (isize m_h : Z) : list (Z * Z) :=
  flat_map (fun h => map (fun i => (h, i)) (zrange 1 (isize - 1))) (zrange 0 (m_h - 1)).

(** ** output.c:1580-1637: weights of the electric energy in a Drude metal;
    [w] the angular frequency *)
Definition eps_m (einf wp go w : R) : R :=
  einf - / 2 * wp * wp / (w * w + go * go)
  + / 2 * wp * wp * (w * w - go * go) / ((w * w + go * go) * (w * w + go * go)).
Definition eps_m2 (wp go w : R) : R := wp * wp * (w * w - go * go) / ((w * w + go * go) * (w * w + go * go)).
Definition eps_m3 (einf : R) : R := einf.

(** ** energy.c:310-346 ([Poynting_total]) and 418-526.  [S] is grid_value("Sx"),
    ("Sy"), ("Sz").  0.2 * lattice is taken as lattice / 5; a real number becomes
    an int by dropping the fraction *)
Record domain := Domain { d_isize : Z; d_jsize : Z; d_ksize : Z;
  pmlil : Z; pmlir : Z; pmljl : Z; pmljr : Z; pmlkl : Z; pmlkr : Z;
  lattice_x : Z; lattice_y : Z; lattice_z : Z; ds_x : R; ds_y : R; ds_nz : Z -> R }.
Definition to_int (n d : Z) : Z := Z.quot n d.
(** i = 1 + pml + 0.2 * lattice, and i <= size - 2 - pml - 0.2 * lattice *)
Definition from (pml lattice : Z) : Z := to_int (5 * (1 + pml) + lattice) 5.
Definition upper (size pml lattice : Z) : Z := ((5 * (size - 2 - pml) - lattice) / 5)%Z.
Definition loop_up (size pl pr lattice : Z) : list Z := zrange (from pl lattice) (upper size pr lattice).
(** k = size - 2 - pml - 0.2 * lattice; k >= 1 + pml + 0.2 * lattice; k-- *)
Definition top (size pml lattice : Z) : Z := to_int (5 * (size - 2 - pml) - lattice) 5.
Definition lowest (pml lattice : Z) : Z := (- ((- (5 * (1 + pml) + lattice)) / 5))%Z.
Definition loop_down (size pl pr lattice : Z) : list Z := rev (zrange (lowest pl lattice) (top size pr lattice)).
Definition bottom (pml lattice : Z) : Z := to_int (5 * pml + lattice) 5.

Definition sum_over {A} (f : A -> R) (l : list A) : R := fold_right (fun x s => f x + s) 0 l.
Definition sum2 {A B} (f : A -> B -> R) (l : list A) (m : list B) : R := sum_over (fun x => sum_over (f x) m) l.

Definition is_ (d : domain) := loop_up (d_isize d) (pmlil d) (pmlir d) (lattice_x d).
Definition js_ (d : domain) := loop_up (d_jsize d) (pmljl d) (pmljr d) (lattice_y d).
Definition ks_ (d : domain) := loop_down (d_ksize d) (pmlkl d) (pmlkr d) (lattice_z d).
Definition x_hi (d : domain) := top (d_isize d) (pmlir d) (lattice_x d).
Definition x_lo (d : domain) := bottom (pmlil d) (lattice_x d).
Definition y_lo (d : domain) := bottom (pmljl d) (lattice_y d).
Definition z_hi (d : domain) := top (d_ksize d) (pmlkr d) (lattice_z d).
Definition z_lo (d : domain) := bottom (pmlkl d) (lattice_z d).
(** lines 325-326 have pmljl for the upper face in y *)
Definition y_hi_total (d : domain) := top (d_jsize d) (pmljl d) (lattice_y d).
Definition y_hi (d : domain) := top (d_jsize d) (pmljr d) (lattice_y d).

Definition flux_x (d : domain) (S : axis -> grid) (ks : list Z) : R :=
  sum2 (fun k j => ds_y d * ds_nz d k * S AX (x_hi d) j k) ks (js_ d)
  - sum2 (fun k j => ds_y d * ds_nz d k * S AX (x_lo d) j k) ks (js_ d).
Definition flux_y (d : domain) (yh : Z) (S : axis -> grid) (ks : list Z) : R :=
  sum2 (fun i k => ds_nz d k * ds_x d * S AY i yh k) (is_ d) ks
  - sum2 (fun i k => ds_nz d k * ds_x d * S AY i (y_lo d) k) (is_ d) ks.
Definition flux_zp (d : domain) (S : axis -> grid) : R := sum2 (fun i j => ds_x d * ds_y d * S AZ i j (z_hi d)) (is_ d) (js_ d).
Definition flux_zn (d : domain) (S : axis -> grid) : R := sum2 (fun i j => ds_x d * ds_y d * S AZ i j (z_lo d)) (is_ d) (js_ d).
(** what one call adds to Sumx + Sumy + Sumz *)
Definition Poynting_total (d : domain) (S : axis -> grid) : R :=
  flux_x d S (ks_ d) + flux_y d (y_hi_total d) S (ks_ d) + (flux_zp d S - flux_zn d S).
(** lines 418-447 ([Poynting_side]); [ka], [kb] are the indices of
    value + zposition and -value + zposition *)
Definition Poynting_side (d : domain) (S : axis -> grid) (ka kb : Z) : R :=
  flux_x d S (rev (zrange kb ka)) + flux_y d (y_hi d) S (rev (zrange kb ka)).
(** lines 467-526 ([Poynting_UpDown]) *)
Definition SumUpper (d : domain) (S : axis -> grid) (ka : Z) : R :=
  let ks := rev (zrange ka (z_hi d)) in flux_zp d S + flux_x d S ks + flux_y d (y_hi d) S ks.
Definition SumLower (d : domain) (S : axis -> grid) (kb : Z) : R :=
  let ks := zrange (from (pmlkl d) (lattice_z d)) kb in - flux_zn d S + flux_x d S ks + flux_y d (y_hi d) S ks.

(** ** energy.c:133-164 ([max_E_Energy_detector]): the loop over the cells of a
    block, in order; [None] for the variables that were never set *)
Definition max_step {C} (v : C -> R) (s : R * option C) (c : C) : R * option C :=
  if Rlt_dec (fst s) (v c) then (v c, Some c) else s.
Definition max_detect {C} (v : C -> R) (cells : list C) : R * option C := fold_left (max_step v) cells (-12345, None).

(** ** transmap.c:138-160, 200-260: the far field as a map over the hemisphere.
    Indices of pixels are integers; [cpi] is pi *)
Definition half (n : Z) : Z := Z.quot n 2.
Definition circle_out (tnum i j : Z) : bool :=
  let tr := half tnum in
  if Rlt_dec (/ 10) (IZR ((i - tr) * (i - tr) + (j - tr) * (j - tr) - (tr - 1) * (tr - 1))) then false else true.
Definition dist (tnum i j : Z) : R := sqrt (IZR ((i - half tnum) * (i - half tnum) + (j - half tnum) * (j - half tnum))).
Definition calc_theta (cpi : R) (tnum i j : Z) : R := dist tnum i j * cpi / 2 / IZR (half tnum).
Definition calc_phi (cpi : R) (tnum i j : Z) : R :=
  let temp := dist tnum i j in
  let testphi := acos (IZR (i - half tnum) / temp) in
  let gauge := IZR (j - half tnum) - temp * sin testphi in
  if Rlt_dec (Rabs gauge) (/ 100) then testphi else 2 * cpi - testphi.
Definition zfloor (x : R) : Z := Int_part x.
Definition zceil (x : R) : Z := (- Int_part (- x))%Z.
(** the four indices of [interpol] *)
Definition corners (rcnum : Z) (p q : R) : Z * Z * Z * Z :=
  let r := half rcnum in ((zfloor p + r)%Z, (zfloor q + r)%Z, (zceil p + r)%Z, (zceil q + r)%Z).
Definition p_of (rcnum : Z) (theta phi : R) : R := IZR (half rcnum) * sin theta * cos phi.
Definition q_of (rcnum : Z) (theta phi : R) : R := IZR (half rcnum) * sin theta * sin phi.
Definition interpol (theta phi : R) (rcnum : Z) (u : Z -> Z -> R) : R :=
  let r := half rcnum in
  let p := p_of rcnum theta phi in let q := q_of rcnum theta phi in
  let '(fp, fq, cp, cq) := corners rcnum p q in
  let A := u fp fq + (p + IZR r - IZR fp) * (u cp fq - u fp fq) in
  let B := u fp cq + (p + IZR r - IZR fp) * (u cp cq - u fp cq) in
  A + (q + IZR r - IZR fq) * (B - A).
Definition into_polar (cpi : R) (u : Z -> Z -> R) (rcnum tnum i j : Z) : R :=
  if circle_out tnum i j then
    (if Rlt_dec (Rabs (calc_theta cpi tnum i j)) (/ 50) then u (half rcnum) (half rcnum)
     else interpol (calc_theta cpi tnum i j) (calc_phi cpi tnum i j) rcnum u)
  else 0.
