(** Model of the layer profiles and the sources of the FDTD library:
    openms/lib/fdtd/sigma.c, openms/lib/fdtd/incoherent.c,
    openms/lib/fdtd/source.c.  Numbers are the reals; single-precision rounding
    is not modelled.  [None] stands for a result of C that is not a finite
    number (a division by zero, or [pow] outside its domain). *)
From Coq Require Import Reals ZArith List Bool.
Import ListNotations.
Local Open Scope R_scope.

(** ** Arithmetic of C *)
Definition cdiv (x y : R) : option R := if Req_EM_T y 0 then None else Some (x / y).
(** [pow] with a real exponent.  A negative base has a finite power for an
    integer exponent only; this case is left out and counts as not finite. *)
Definition cpow (x y : R) : option R :=
  if Rlt_dec 0 x then Some (Rpower x y)
  else if Req_EM_T x 0 then
    (if Rlt_dec 0 y then Some 0 else if Req_EM_T y 0 then Some 1 else None)
  else None.
Definition obind {A B} (x : option A) (f : A -> option B) : option B :=
  match x with Some a => f a | None => None end.

(** ** sigma.c:3-51, [sigmax], [sigmay], [sigmaz].  The three functions differ
    in the names of the globals only, and [sigmaz] has no periodic case
    ([periodic] = false).  [cpi] is the global [pi], [beps] is [back_epsilon]. *)
Record layer := Layer {
  periodic : bool;
  sig_l : R; sig_r : R;       (* sig_axl, sig_axr *)
  order_l : R; order_r : R;   (* orderxl, orderxr *)
  pml_l : Z; pml_r : Z;       (* pmlil, pmlir *)
  size : Z                    (* isize *)
}.
Definition sigma_max (cpi beps sig order : R) : R := sig * (order + 1) / (150 * cpi * sqrt beps).
Definition sigma (cpi beps : R) (l : layer) (a : R) : option R :=
  if periodic l then Some 0 else
  if Rlt_dec a (IZR (pml_l l) + / 2) then
    obind (cdiv (- (a - (IZR (pml_l l) + / 2))) (IZR (pml_l l))) (fun q =>
    obind (cpow q (order_l l)) (fun w => Some (sigma_max cpi beps (sig_l l) (order_l l) * w)))
  else if Rlt_dec a (IZR (size l - pml_r l - 1)) then Some 0
  else
    obind (cdiv (a - IZR (size l - pml_r l - 1)) (IZR (pml_r l))) (fun q =>
    obind (cpow q (order_r l)) (fun w => Some (sigma_max cpi beps (sig_r l) (order_r l) * w))).

(** ** timeupdate.c:50-121 ([coefficient]): the coefficients of one direction at
    one grid point, from the conductivity there.  [k] is kx, ky or kz. *)
Definition co_minus (eo dt k s : R) : option R := cdiv (2 * eo * k - dt * s) (2 * eo * k + dt * s). (* aa, cc, gg, ii *)
Definition co_drive (eo dt k s : R) : option R := cdiv (2 * eo * dt) (2 * eo * k + dt * s).        (* bb, hh *)
Definition coefficient (cpi beps eo dt k : R) (l : layer) (a : R) : option (R * R) :=
  obind (sigma cpi beps l a) (fun s =>
  obind (co_minus eo dt k s) (fun x =>
  obind (co_drive eo dt k s) (fun y => Some (x, y)))).

(** ** sigma.c:53-125, [cpmlbx], [cpmlax], [kappa_x].  The exponents m_pml and
    ma_pml are integers (parameter.c:321-322).  [isize] and [use_periodic_x] are
    read for every direction. *)
Record cpml := Cpml { m_pml : nat; ma_pml : nat; sigmaC : R; alphaC : R; kappaC : R;
                      use_periodic_x : bool; isize : Z; dt_nm : R; eps0 : R }.
Definition cp_sigma (c : cpml) (q : R) : R := sigmaC c * q ^ m_pml c.
Definition cp_kappa (c : cpml) (q : R) : R := 1 + (kappaC c - 1) * q ^ m_pml c.
Definition cp_alpha (c : cpml) (q : R) : R := alphaC c * q ^ ma_pml c.
Definition cp_b (c : cpml) (q q' : R) : R :=
  exp (- (cp_sigma c q / cp_kappa c q + cp_alpha c q') * dt_nm c / eps0 c).
Definition cpmlbx (c : cpml) (a : R) (bl br : Z) : R :=
  if use_periodic_x c then 1 else
  if Rlt_dec a (IZR bl + / 2) then cp_b c ((IZR bl - a) / IZR bl) (a / IZR bl)
  else if Rlt_dec a (IZR (isize c - br - 1)) then 1
  else cp_b c ((a - IZR (isize c - br - 1)) / IZR br) ((IZR (isize c - 1) - a) / IZR br).
Definition cp_a (c : cpml) (q q' : R) : option R :=
  obind (cdiv (cp_sigma c q * (cp_b c q q' - 1)) (cp_sigma c q + cp_kappa c q * cp_alpha c q'))
    (fun x => cdiv x (cp_kappa c q)).
Definition cpmlax (c : cpml) (a : R) (bl br : Z) : option R :=
  if use_periodic_x c then Some 0 else
  if Rlt_dec a (IZR bl + / 2) then cp_a c ((IZR bl - a) / IZR bl) (a / IZR bl)
  else if Rlt_dec a (IZR (isize c - br - 1)) then Some 0
  else cp_a c ((a - IZR (isize c - br - 1)) / IZR br) ((IZR (isize c - 1) - a) / IZR br).
Definition kappa_x (c : cpml) (a : R) (bl br : Z) : R :=
  if use_periodic_x c then 1 else
  if Rlt_dec a (IZR bl + / 2) then cp_kappa c ((IZR bl - a) / IZR bl)
  else if Rlt_dec a (IZR (isize c - br - 1)) then 1
  else cp_kappa c ((a - IZR (isize c - br - 1)) / IZR br).

(** ** incoherent.c:161-203, the four amplitudes.  [w] is
    2 pi / S_factor / ds_x / lattice_x, the angular frequency of one update per
    unit of [frequency]; [t] is the global update count. *)
Definition in_window (t0 t1 t : Z) : bool := (t0 <? t)%Z && (t <? t1)%Z.
Definition gauss_env (td to t : Z) : R := exp (-1 * (IZR (t - to) / IZR td) ^ 2).
Definition Gauss_amp (w frequency phase : R) (to td t : Z) : R :=
  if in_window (to - 3 * td) (to + 3 * td) t
  then sin (w * frequency * IZR t + phase) * gauss_env td to t else 0.
Definition iGauss_amp (w frequency phase : R) (to td t : Z) : R :=
  if in_window (to - 3 * td) (to + 3 * td) t
  then - cos (w * frequency * IZR t + phase) * gauss_env td to t else 0.
Definition lorentz_env (td to t : Z) : R := exp (- IZR (t - to) / IZR td).
Definition Lorentz_amp (w frequency phase : R) (to td t : Z) : R :=
  if (td =? 0)%Z then sin (w * frequency * IZR (t - to) + phase)
  else if (to <=? t)%Z && (t <? to + 8 * td)%Z
  then sin (w * frequency * IZR (t - to) + phase) * lorentz_env td to t else 0.
Definition iLorentz_amp (w frequency phase : R) (to td t : Z) : R :=
  if (to <=? t)%Z && (t <? to + 8 * td)%Z then
    (if (td =? 0)%Z then - cos (w * frequency * IZR (t - to) + phase)
     else - cos (w * frequency * IZR (t - to) + phase) * lorentz_env td to t)
  else 0.

(** ** source.c:1854-1878, the two phase helpers *)
Definition Lorentzian_phase (w Wn : R) (td : Z) : R :=
  let omega := w * Wn in let gamma := 1 / IZR td in
  asin (gamma / sqrt (omega * omega + gamma * gamma)).
Definition Gaussian_phase (w Wn : R) (t_peak : Z) : R := - (w * Wn) * IZR t_peak.

(** ** Fields *)
Inductive comp := CEx | CEy | CEz | CHx | CHy | CHz.
Definition grid := Z -> Z -> Z -> R.
Definition fields := comp -> grid.
Definition comp_eqb (c d : comp) : bool :=
  match c, d with
  | CEx, CEx | CEy, CEy | CEz, CEz | CHx, CHx | CHy, CHy | CHz, CHz => true
  | _, _ => false end.
Definition loc := (comp * Z * Z * Z)%type.
(** X[i][j][k] = X[i][j][k] + v *)
Definition add_at (c : comp) (i j k : Z) (v : R) (f : fields) : fields :=
  fun d x y z => if comp_eqb c d && ((i =? x) && (j =? y) && (k =? z))%Z then f d x y z + v else f d x y z.
(** a list of such assignments *)
Definition adds (l : list (loc * R)) (f : fields) : fields :=
  fold_left (fun f a => let '((c, i, j, k), v) := a in add_at c i j k v f) l f.

(** the cells of one component around the node (i, j, k), as in every branch of
    source.c:242-438: two cells for E, four for H *)
Definition cells (c : comp) (i j k : Z) : list loc :=
  match c with
  | CEx => [(CEx, i, j, k); (CEx, i - 1, j, k)]
  | CEy => [(CEy, i, j, k); (CEy, i, j - 1, k)]
  | CEz => [(CEz, i, j, k); (CEz, i, j, k - 1)]
  | CHx => [(CHx, i, j, k); (CHx, i, j - 1, k); (CHx, i, j, k - 1); (CHx, i, j - 1, k - 1)]
  | CHy => [(CHy, i, j, k); (CHy, i, j, k - 1); (CHy, i - 1, j, k); (CHy, i - 1, j, k - 1)]
  | CHz => [(CHz, i, j, k); (CHz, i - 1, j, k); (CHz, i, j - 1, k); (CHz, i - 1, j - 1, k)]
  end%Z.
Definition is_E (c : comp) : bool := match c with CEx | CEy | CEz => true | _ => false end.
Definition share (c : comp) : R := if is_E c then / 2 else / 4.

(** source.c:232-439 ([Gaussian_dipole_source]) and 1052-1263
    ([Lorentzian_dipole_source]): the amplitude of the component name [(c, neg)]
    ("Ex", "-Ex", ...) is taken at phase + pi for a negative name.  The real
    fields; the imaginary fields get the same assignments with the imaginary
    amplitude, if a wave vector is set. *)
Definition dipole_assign (c : comp) (i j k : Z) (a : R) : list (loc * R) :=
  map (fun l => (l, a * share c)) (cells c i j k).
Definition signed_phase (cpi phase : R) (neg : bool) : R := if neg then phase + cpi else phase.
Definition Gaussian_dipole_source (w cpi frequency phase : R) (to td t : Z) (c : comp) (neg : bool) (i j k : Z)
    (f : fields) : fields :=
  adds (dipole_assign c i j k (Gauss_amp w frequency (signed_phase cpi phase neg) to td t)) f.
Definition iGaussian_dipole_source (w cpi frequency phase : R) (to td t : Z) (c : comp) (neg : bool) (i j k : Z)
    (f : fields) : fields :=
  adds (dipole_assign c i j k (iGauss_amp w frequency (signed_phase cpi phase neg) to td t)) f.

(** source.c:442-752 ([Gaussian_dipole_source_beam]): the same cells, those with
    a negative index left out, scaled by [amp], and by [z0] = sqrt(eo/uo) for H.
    The imaginary part of "Hy" at (i, j, k) itself has the factor twice
    (lines 629-631). *)
Definition nonneg (l : loc) : bool := let '(_, i, j, k) := l in (0 <=? i)%Z && (0 <=? j)%Z && (0 <=? k)%Z.
Definition imp (c : comp) (z0 : R) : R := if is_E c then 1 else z0.
Definition beam_assign (c : comp) (z0 : R) (i j k : Z) (a : R) : list (loc * R) :=
  map (fun l => (l, a * imp c z0 * share c)) (filter nonneg (cells c i j k)).
Definition ibeam_assign (c : comp) (neg : bool) (z0 : R) (i j k : Z) (a : R) : list (loc * R) :=
  map (fun l => (l, (if comp_eqb c CHy && negb neg && (let '(_, x, _, z) := l in (x =? i)%Z && (z =? k)%Z)
                     then a * z0 * z0 else a * imp c z0) * share c)) (filter nonneg (cells c i j k)).
Definition Gaussian_beam (w cpi z0 frequency amp phase : R) (to td t : Z) (c : comp) (neg : bool) (i j k : Z)
    (f : fields) : fields :=
  adds (beam_assign c z0 i j k (amp * Gauss_amp w frequency (signed_phase cpi phase neg) to td t)) f.
Definition iGaussian_beam (w cpi z0 frequency amp phase : R) (to td t : Z) (c : comp) (neg : bool) (i j k : Z)
    (f : fields) : fields :=
  adds (ibeam_assign c neg z0 i j k (amp * iGauss_amp w frequency (signed_phase cpi phase neg) to td t)) f.

(** 0, 1, ..., n *)
Definition upto (n : nat) : list Z := map Z.of_nat (seq 0 (S n)).
Definition nodes (n m : nat) : list (Z * Z) := flat_map (fun i => map (fun j => (i, j)) (upto m)) (upto n).
(** source.c:40-55 ([Gaussian_planewave]); [pw_phase] is lines 47-49.
    [n] and [m] are pisize and pjsize, lx and ly the lattice constants in cells. *)
Definition pw_phase (cpi wx wy : R) (lx ly : Z) (i j : Z) : R :=
  2 * cpi * (wx * IZR i / IZR lx + wy * IZR j / IZR ly).
Definition Gaussian_planewave (w cpi z0 wx wy frequency : R) (lx ly to td t : Z) (ec hc : comp * bool) (n m : nat) (k : Z)
    (f : fields) : fields :=
  fold_left (fun f ij => let '(i, j) := ij in
    let ph := pw_phase cpi wx wy lx ly i j in
    Gaussian_beam w cpi z0 frequency 1 ph to td t (fst hc) (snd hc) i j k
      (Gaussian_beam w cpi z0 frequency 1 ph to td t (fst ec) (snd ec) i j k f)) (nodes n m) f.
(** source.c:199-216 ([external_planewave]); the second name is not read *)
Definition external_planewave (z0 ext : R) (ecomp hcomp : comp) (n m : nat) (k : Z) (f : fields) : fields :=
  fold_left (fun f ij => let '(i, j) := ij in
    let f1 := if comp_eqb ecomp CEx then
        adds (filter (fun a => nonneg (fst a)) [((CEx, i, j, k), ext / 2); ((CEx, i - 1, j, k)%Z, ext / 2)]) f else f in
    if comp_eqb ecomp CHy then
        adds (filter (fun a => nonneg (fst a))
          [((CHy, i, j, k), ext / 2 * z0 / 4); ((CHy, i - 1, j, k)%Z, ext / 2 * z0 / 4)]) f1 else f1) (nodes n m) f.

(** ** incoherent.c:17-138 ([incoherent_point_dipole]), the bookkeeping of the
    random dipoles: the globals inc_dipole_num, store_t, one_round_turn and the
    arrays p_theta_aux, p_phi, p_eps, p_tau as lists.  The draws are an argument:
    theta_aux, phi, eps and the waiting time, in the order of the calls. *)
Record slot := Slot { s_theta : R; s_phi : R; s_eps : R; s_tau : Z }.
Record istate := IState { num : nat; store_t : Z; one_round : bool; slots : list slot }.
Definition istart : istate := IState 0 (-100) false [].
Definition draw := (R * R * R * Z)%type.
Definition set_nth {A} (n : nat) (x : A) (l : list A) : list A := firstn n l ++ x :: skipn (S n) l.
(** one call at time [t]: the slot used is the new [num] - 1; [None] when it lies
    outside the arrays.  [d] are the numbers drawn if the dipole is renewed. *)
Definition dipole_slot (t : Z) (d : draw) (s : istate) : option (nat * slot * istate) :=
  let s1 := if ((store_t s =? -100) || (store_t s =? t))%Z
            then (if one_round s then IState (S (num s)) (store_t s) true (slots s)
                  else IState (S (num s)) (store_t s) false
                         (firstn (num s) (slots s) ++ [Slot 0 0 0 t]))
            else IState 1 (store_t s) true (slots s) in
  let n := pred (num s1) in
  match nth_error (slots s1) n with
  | None => None
  | Some x =>
      let '(th, ph, ep, tw) := d in
      let x' := if (t =? s_tau x)%Z then Slot th ph ep (t + tw) else x in
      Some (n, x', IState (num s1) t (one_round s1) (set_nth n x' (slots s1)))
  end.
(** incoherent.c:66-108: the current of a dipole, from its amplitude *)
Definition dipole_current (a : R) (x : slot) : R * R * R :=
  (a * sqrt (1 - s_theta x * s_theta x) * cos (s_phi x), a * sqrt (1 - s_theta x * s_theta x) * sin (s_phi x), a * s_theta x).
(** the calls of one update: the same number of dipoles, one draw for each *)
Fixpoint one_step (t : Z) (ds : list draw) (s : istate) : option (list (nat * slot) * istate) :=
  match ds with
  | [] => Some ([], s)
  | d :: ds' =>
      match dipole_slot t d s with
      | None => None
      | Some (n, x, s') => match one_step t ds' s' with
                           | None => None
                           | Some (l, s'') => Some ((n, x) :: l, s'') end
      end
  end.
(** updates t, t + 1, ... *)
Fixpoint steps (t : Z) (dss : list (list draw)) (s : istate) : option (list (list (nat * slot)) * istate) :=
  match dss with
  | [] => Some ([], s)
  | ds :: r => match one_step t ds s with
               | None => None
               | Some (l, s') => match steps (t + 1) r s' with
                                 | None => None
                                 | Some (ls, s'') => Some (l :: ls, s'') end
               end
  end.
