(** Model of openms/qmd/bomd.py, the Molecule class of openms/lib/misc.py and
    the propagation part of openms/qmd/mqc.py and openms/qmd/sh.py.  Numbers
    are an arbitrary real field; rounding is not modelled.  The electronic
    structure driver is an argument. *)
From mathcomp Require Import all_ssreflect all_algebra.
From Verif Require Base.
Set Implicit Arguments.
Unset Strict Implicit.
Unset Printing Implicit Defensive.
Import GRing.Theory Num.Theory.
Notation res := Base.res.
Notation Ok := Base.Ok.
Notation Err := Base.Err.
Local Open Scope ring_scope.

Section Dynamics.
Variable F : realFieldType.
Notation vec := 'rV[F]_3.

(** * Molecules *)
Record atom := Atom { amass : F; apos : vec; avel : vec }.
(** [sforces] holds states[j].forces, [None] while the attribute does not
    exist: State.__init__ (misc.py 265-271) defines [force], not [forces].
    [mforces] is the attribute mol.forces that the kernel writes. *)
Record mol := Mol { atoms : seq atom; sforces : seq (option (seq vec)); mforces : option (seq vec) }.

Definition positions (ms : seq mol) : seq (seq vec) := [seq [seq apos a | a <- atoms m] | m <- ms].

(** bomd.py 156-163 [next_position] *)
Definition drift1 (dt : F) (a : atom) : atom := Atom (amass a) (apos a + dt *: avel a) (avel a).
Definition drift (dt : F) (m : mol) : mol := Mol [seq drift1 dt a | a <- atoms m] (sforces m) (mforces m).
Definition next_position (dt : F) (ms : seq mol) : seq mol := [seq drift dt m | m <- ms].

(** bomd.py 165-179 [next_velocity_many_molecule]; a force array of another
    length than the velocities is a broadcasting error (one row, which numpy
    would repeat, is not modelled) *)
Definition kick1 (dt : F) (af : atom * vec) : atom :=
  let: (a, f) := af in Atom (amass a) (apos a) (avel a + (2%:R^-1 * dt / amass a) *: f).
Definition kick (dt : F) (cs : nat) (m : mol) : res mol :=
  Base.rbind (Base.index (sforces m) cs) (fun fo =>
    match fo with
    | None => Err Base.AttributeError
    | Some f => if size f == size (atoms m)
                then Ok (Mol [seq kick1 dt p | p <- zip (atoms m) f] (sforces m) (mforces m))
                else Err Base.ValueError
    end).
Definition next_velocity_many_molecule (dt : F) (cs : nat) (ms : seq mol) : res (seq mol) :=
  Base.rmapM (kick dt cs) ms.

(** * The driver
    [qm x i s]: forces on molecule i in state s at positions x.
    hippynn_es_driver.py 152-160 [_assign_forces], [calculate_force]. *)
Definition driver := seq (seq vec) -> nat -> nat -> seq vec.
Definition assign_forces (ns : nat) (fs : nat -> seq vec) (m : mol) : res mol :=
  if (ns <= size (sforces m))%N
  then Ok (Mol (atoms m) ([seq Some (fs s) | s <- iota 0 ns] ++ drop ns (sforces m)) (mforces m))
  else Err Base.IndexError.
Definition calculate_force (ns : nat) (qm : driver) (ms : seq mol) : res (seq mol) :=
  Base.rmapM (fun im => assign_forces ns (qm (positions ms) im.1) im.2) (zip (iota 0 (size ms)) ms).

(** bomd.py 405-408: for every state j of self.mol[i], mol.forces is set to
    qm.mol[i].states[j].forces *)
Fixpoint copy_loop (src : mol) (js : seq nat) (acc : option (seq vec)) : res (option (seq vec)) :=
  match js with
  | [::] => Ok acc
  | j :: r => Base.rbind (Base.index (sforces src) j) (fun fo =>
      match fo with None => Err Base.AttributeError | Some f => copy_loop src r (Some f) end)
  end.
Definition copy_forces1 (dst src : mol) : res mol :=
  Base.rbind (copy_loop src (iota 0 (size (sforces dst))) (mforces dst)) (fun f =>
    Ok (Mol (atoms dst) (sforces dst) f)).
Fixpoint copy_forces (dst src : seq mol) : res (seq mol) :=
  match dst, src with
  | [::], _ => Ok [::]
  | _ :: _, [::] => Err Base.IndexError
  | d :: r, s :: r' => Base.rbind (copy_forces1 d s) (fun d' =>
      Base.rbind (copy_forces r r') (fun l => Ok (d' :: l)))
  end.

(** One turn of the kernel's loop, bomd.py 384-409, with the missing
    next_velocity read as next_velocity_many_molecule (whose argument has
    default 0) and without reset_bo.  First when qm.mol is the same list as
    self.mol, so that the driver writes into the molecules themselves. *)
Definition md_step (dt : F) (init_state ns : nat) (qm : driver) (ms : seq mol) : res (seq mol) :=
  Base.rbind (next_velocity_many_molecule dt 0 ms) (fun m1 =>
  Base.rbind (calculate_force ns qm (next_position dt m1)) (fun m2 =>
  Base.rbind (copy_forces m2 m2) (fun m3 =>
  next_velocity_many_molecule dt 0 m3))).

(** Second when qm.mol is a list of other objects: only coordinates (387-388)
    and mol.forces are passed. *)
Definition set_coords (dst src : mol) : mol :=
  Mol [seq Atom (amass p.1) (apos p.2) (avel p.1) | p <- zip (atoms dst) (atoms src)] (sforces dst) (mforces dst).
Fixpoint set_all_coords (dst src : seq mol) : res (seq mol) :=
  match src, dst with
  | [::], d => Ok d
  | _ :: _, [::] => Err Base.IndexError
  | s :: r, d :: r' => Base.rbind (set_all_coords r' r) (fun l => Ok (set_coords d s :: l))
  end.
Definition md_step_separate (dt : F) (init_state ns : nat) (qm : driver) (ms qms : seq mol)
    : res (seq mol * seq mol) :=
  Base.rbind (next_velocity_many_molecule dt 0 ms) (fun m1 =>
  let m2 := next_position dt m1 in
  Base.rbind (set_all_coords qms m2) (fun q1 =>
  Base.rbind (calculate_force ns qm q1) (fun q2 =>
  Base.rbind (copy_forces m2 q2) (fun m3 =>
  Base.rbind (next_velocity_many_molecule dt 0 m3) (fun m4 => Ok (m4, q2)))))).

(** * The kernel as written, bomd.py 339-431
    self.mol is a list of molecules, as declared, or a single Molecule. *)
Inductive molarg := MList (ms : seq mol) | MOne (m : mol).
Inductive restart := RNone | RWrite | RAppend | ROther.

(** list has no attribute reset_bo (361, 399) *)
Definition reset_bo (a : molarg) : res unit :=
  match a with MList _ => Err Base.AttributeError | MOne _ => Ok tt end.
(** bomd.py 185-187: Molecule defines no get_etot and is not iterable *)
Definition update_energy (a : molarg) : res unit :=
  match a with
  | MList [::] => Ok tt
  | MList (_ :: _) => Err Base.AttributeError
  | MOne _ => Err Base.TypeError
  end.
(** no class defines next_velocity (384) *)
Definition next_velocity (a : molarg) : res molarg := Err Base.AttributeError.
Definition kernel_prologue (r : restart) (old_dir : bool) (a : molarg) : res unit :=
  match r with
  | ROther => Err Base.ValueError
  | RNone => Base.rbind (reset_bo a) (fun _ => update_energy a)
  | RWrite => Ok tt
  | RAppend => if old_dir then Ok tt else Err Base.ValueError
  end.
(** [force] is the outcome of qm.calculate_force(); qstep is the step at which
    a previous run stopped, -1 initially *)
Definition first_step (r : restart) (qstep : int) : int :=
  match r with RAppend => qstep + 1 | _ => 0 end.
Definition kernel_loop (k : nat) (a : molarg) : res molarg :=
  if k is 0 then Ok a else next_velocity a.
Definition kernel (r : restart) (old_dir : bool) (qstep nsteps : int) (force : res unit) (a : molarg) : res molarg :=
  Base.rbind (kernel_prologue r old_dir a) (fun _ =>
  Base.rbind force (fun _ =>
    kernel_loop (match (nsteps - first_step r qstep)%R with Posz k => k | Negz _ => 0%N end) a)).

(** * Molecule, misc.py 274-343 *)
(** Keyword arguments that matter here: initial velocities, number of states,
    spatial dimension. *)
Record molkw := MolKw { kw_veloc : option (nat -> nat -> F); kw_nstates : option nat; kw_ndim : option nat }.
Record molecule := Molecule { m_ndim : nat; m_nstates : nat; m_natm : nat; m_ndof : nat; m_veloc : nat -> nat -> F }.
(** __init__ sets veloc to None (286) before build, which drops the keyword
    (299-300) and fills in zeros (324-325) *)
Definition build (natm : nat) (kw : molkw) (ndim : nat) (veloc : option (nat -> nat -> F)) : molecule :=
  Molecule ndim (odflt 1%N (kw_nstates kw)) natm (ndim * natm)
    (if veloc is Some v then v else fun _ _ => 0).
Definition molecule_init (natm : nat) (kw : molkw) : molecule :=
  build natm kw (odflt 3%N (kw_ndim kw)) None.
(** coords is (natm, 3), veloc is (natm, ndim): coords += dt * veloc follows
    numpy's broadcasting *)
Definition move (dt : F) (ndim : nat) (x v : nat -> nat -> F) : res (nat -> nat -> F) :=
  if ndim == 3%N then Ok (fun i c => x i c + dt * v i c)
  else if ndim == 1%N then Ok (fun i c => x i c + dt * v i 0%N)
  else Err Base.ValueError.

(** get_ekin, misc.py 341-343 *)
Definition get_ekin (natm ndim : nat) (m : nat -> F) (v : nat -> nat -> F) : F :=
  \sum_(i < natm) 2%:R^-1 * m i * \sum_(c < ndim) v i c ^+ 2.
(** temperature_many_molecule, bomd.py 189-196: self.mol.get_ekin() on the
    list; ndof is 0 without molecules *)
Definition temperature (a : molarg) : res F :=
  match a with
  | MList [::] => Err Base.ZeroDivisionError
  | MList (_ :: _) => Err Base.AttributeError
  | MOne _ => Err Base.TypeError
  end.

(** * Surface hopping
    MQC.__init__, mqc.py 50-62: line 54 reads self.dt, which only the call of
    super().__init__ on line 61 sets; [dt_attr] is what the attribute holds
    before __init__ runs, [None] for MQC, BOMD and BaseMD. *)
Definition mqc_init (dt_attr dt_kw : option F) : res (F * F) :=
  match dt_attr with
  | None => Err Base.AttributeError
  | Some d => Ok (odflt 1 dt_kw, d / 4%:R)
  end.

(** State read and written by get_coef_dot, sh.py 91-109.  Coefficients are
    pairs of real and imaginary parts. *)
Section Electronic.
Variables (nat3 n : nat).
Record sh := Sh { cur_time : F; cur_coords : 'rV[F]_nat3; cur_ham : 'M[F]_n }.
Definition coef := ('cV[F]_n * 'cV[F]_n)%type.
Variables (ham : 'rV[F]_nat3 -> 'M[F]_n) (veloc : 'rV[F]_nat3) (edt : F).
Definition refresh (s : sh) (t : F) : sh :=
  if t != cur_time s then
    let x := cur_coords s + (edt / 2%:R) *: veloc in Sh t x (ham x)
  else s.
Definition minus_i_H (H : 'M[F]_n) (c : coef) : coef := (H *m c.2, - (H *m c.1)).
Definition get_coef_dot (s : sh) (t : F) (c : coef) : sh * coef :=
  let s' := refresh s t in (s', minus_i_H (cur_ham s') c).
(** propagator.py 22-26 with the state threaded through the four calls *)
Definition axpy (a : F) (k c : coef) : coef := (c.1 + a *: k.1, c.2 + a *: k.2).
Definition rk_sum (k1 k2 k3 k4 : coef) : coef :=
  (k1.1 + 2%:R *: k2.1 + 2%:R *: k3.1 + k4.1, k1.2 + 2%:R *: k2.2 + 2%:R *: k3.2 + k4.2).
Definition rk4_st (s : sh) (t0 : F) (c : coef) (dt : F) : sh * coef :=
  let: (s1, k1) := get_coef_dot s t0 c in
  let: (s2, k2) := get_coef_dot s1 (t0 + dt / 2%:R) (axpy (dt / 2%:R) k1 c) in
  let: (s3, k3) := get_coef_dot s2 (t0 + dt / 2%:R) (axpy (dt / 2%:R) k2 c) in
  let: (s4, k4) := get_coef_dot s3 (t0 + dt) (axpy dt k3 c) in
  (s4, axpy (dt / 6%:R) (rk_sum k1 k2 k3 k4) c).
(** sh.py 70-89 electronic_propagator: nesteps quantum steps, each started at
    the stored time *)
Fixpoint electronic_propagator (nesteps : nat) (s : sh) (c : coef) : sh * coef :=
  if nesteps is k.+1 then
    let: (s', c') := rk4_st s (cur_time s) c edt in electronic_propagator k s' c'
  else (s, c).
End Electronic.

End Dynamics.
