(** Properties of the molecular-dynamics classes. *)
From mathcomp Require Import all_ssreflect all_algebra.
From Verif Require Import MdModel MdSpec MdProofs.
From Verif Require Base.
Set Implicit Arguments.
Unset Strict Implicit.
Unset Printing Implicit Defensive.
Import GRing.Theory Num.Theory.
Local Open Scope ring_scope.

(** * C169: the integrator is velocity Verlet *)
Theorem C169_verlet_partial : forall (F : realFieldType) (dt : F) st ns qm ms,
  driver_shaped qm -> fresh ns qm ms ->
  exists ms', [/\ md_step dt st ns qm ms = Ok ms', fresh ns qm ms' & verlet 0 dt qm ms ms'].
Proof. exact step_verlet. Qed.
Print Assumptions C169_verlet_partial.

Theorem C169_reversible : forall (F : realFieldType) (dt : F) st ns qm ms ms',
  driver_shaped qm -> fresh ns qm ms -> md_step dt st ns qm ms = Ok ms' ->
  exists back, md_step dt st ns qm (reversed ms') = Ok back /\ same_state back (reversed ms).
Proof. exact step_reversible. Qed.
Print Assumptions C169_reversible.

Theorem C169_momentum : forall (F : realFieldType) (dt : F) st ns qm ms ms',
  driver_shaped qm -> fresh ns qm ms -> heavy ms -> no_net_force qm 0 ->
  md_step dt st ns qm ms = Ok ms' -> momentum ms' = momentum ms.
Proof. exact step_momentum. Qed.
Print Assumptions C169_momentum.

Theorem C169_angular_momentum : forall (F : realFieldType) (dt : F) st ns qm ms ms',
  driver_shaped qm -> fresh ns qm ms -> heavy ms -> no_torque qm 0 ->
  md_step dt st ns qm ms = Ok ms' -> angular ms' = angular ms.
Proof. exact step_angular. Qed.
Print Assumptions C169_angular_momentum.

(** a driver that meets the hypotheses *)
Example C169_ex : forall F : realFieldType,
  [/\ driver_shaped (@pairs F), no_net_force (@pairs F) 0 & no_torque (@pairs F) 0].
Proof. move=> F; split; [exact: pairs_shaped|exact: pairs_net|exact: pairs_torque]. Qed.
Example C169_ex_fresh : fresh 2 push two_surfaces /\ driver_shaped push /\ heavy two_surfaces.
Proof. split; [exact: two_fresh|split; [exact: push_shaped|by move=> [|//] [|//] _ _; rewrite ltr01]]. Qed.

(** for bound atoms the energy stays within a factor fixed by the time step,
    however long the run *)
Theorem C169_energy_bounded : forall (F : realFieldType) n (k dt : F) st ns ms,
  0 <= k -> fresh ns (springs k) ms -> heavy ms ->
  (forall i j, (i < size ms)%N -> (j < natoms ms i)%N -> k * dt ^+ 2 < 4%:R * amass (atom_of ms i j)) ->
  exists ms', md_run n dt st ns (springs k) ms = Ok ms' /\
    forall i j, (i < size ms)%N -> (j < natoms ms i)%N ->
    let a := atom_of ms i j in let q := k * dt ^+ 2 / (4%:R * amass a) in
    (1 - q) * spring_energy k a <= spring_energy k (atom_of ms' i j) <= spring_energy k a / (1 - q).
Proof. exact springs_energy. Qed.
Print Assumptions C169_energy_bounded.

(** the requested surface plays no role: forces are always those of state 0 *)
Theorem C169_surface_refuted : exists ms',
  md_step 1 1 2 push two_surfaces = Ok ms' /\ ~ verlet 1 1 push two_surfaces ms'.
Proof. exact surface_ignored. Qed.
Print Assumptions C169_surface_refuted.
Theorem C169_init_state : forall (F : realFieldType) (dt : F) st st' ns qm ms,
  md_step dt st ns qm ms = md_step dt st' ns qm ms.
Proof. exact step_ignores_init_state. Qed.
Print Assumptions C169_init_state.

(** with separate molecule objects in the driver the stored forces never
    change *)
Theorem C169_separate : forall (F : realFieldType) (dt : F) st ns qm ms qms ms' qms',
  md_step_separate dt st ns qm ms qms = Ok (ms', qms') -> map (@sforces F) ms' = map (@sforces F) ms.
Proof. exact separate_stale. Qed.
Print Assumptions C169_separate.
Theorem C169_separate_refuted : exists ms' qms',
  md_step_separate 1 0 1 pull (moving [:: Some [:: 0]]) (moving [:: Some [:: 0]]) = Ok (ms', qms')
  /\ fresh 1 pull (moving [:: Some [:: 0]]) /\ ~ verlet 0 1 pull (moving [:: Some [:: 0]]) ms'.
Proof. exact separate_not_verlet. Qed.
Print Assumptions C169_separate_refuted.
Theorem C169_separate_unset : forall (F : realFieldType) (dt : F) st ns qm m ms qms,
  nth None (sforces m) 0 = None -> (0 < size (sforces m))%N ->
  md_step_separate dt st ns qm (m :: ms) qms = Err Base.AttributeError.
Proof. exact separate_unset. Qed.
Print Assumptions C169_separate_unset.

(** * C170: the BOMD kernel runs *)
Theorem C170_steps_refuted : forall (F : realFieldType) r od qstep nsteps force (a : molarg F),
  0 < nsteps - first_step r qstep -> exists e, kernel r od qstep nsteps force a = Err e.
Proof. exact kernel_fails. Qed.
Print Assumptions C170_steps_refuted.
(** a resumed run starts after the step it stopped at *)
Theorem C170_resumed_refuted : forall (F : realFieldType) (qstep nsteps : int) (a : molarg F),
  kernel RAppend true qstep nsteps (Ok tt) a = (if nsteps <= qstep + 1 then Ok a else Err Base.AttributeError) /\
  kernel RAppend false qstep nsteps (Ok tt) a = Err Base.ValueError /\
  forall od, kernel RWrite od qstep nsteps (Ok tt) a = (if nsteps <= 0 then Ok a else Err Base.AttributeError).
Proof. exact kernel_resumed. Qed.
Print Assumptions C170_resumed_refuted.
Theorem C170_fresh_refuted : forall (F : realFieldType) od qstep nsteps force (a : molarg F),
  (if a is MList [::] then False else True) -> exists e, kernel RNone od qstep nsteps force a = Err e.
Proof. exact kernel_fresh_fails. Qed.
Print Assumptions C170_fresh_refuted.
Example C170_ex : kernel RWrite true (-1) 0 (Base.Ok tt) (MList two_surfaces) = Ok (MList two_surfaces).
Proof. by []. Qed.

(** * C171: initial velocities are honoured *)
Theorem C171_refuted : forall (F : realFieldType) natm (v : nat -> nat -> F) ns nd i c, v i c != 0 ->
  m_veloc (molecule_init natm (MolKw (Some v) ns nd)) i c != v i c.
Proof. by move=> F natm v ns nd i c h; rewrite eq_sym. Qed.
Print Assumptions C171_refuted.
Theorem C171_zero : forall (F : realFieldType) natm kw i c, m_veloc (molecule_init natm kw : molecule F) i c = 0.
Proof. exact veloc_ignored. Qed.
Print Assumptions C171_zero.

(** * C172: positions move in the molecule's dimensions *)
Theorem C172_three_partial : forall (F : realFieldType) (dt : F) (x v : nat -> nat -> F),
  exists x', move dt 3 x v = Ok x' /\ forall i c, x' i c = x i c + dt * v i c.
Proof. exact move_three. Qed.
Print Assumptions C172_three_partial.
Theorem C172_one_refuted : forall (F : realFieldType) (dt : F) (x v : nat -> nat -> F) i c, dt * v i 0%N != 0 ->
  exists x', move dt 1 x v = Ok x' /\ x' i c != x i c.
Proof.
exact move_one_all.
Qed.
Print Assumptions C172_one_refuted.
Theorem C172_other_refuted : forall (F : realFieldType) (dt : F) ndim (x v : nat -> nat -> F),
  ndim != 3%N -> ndim != 1%N -> move dt ndim x v = Err Base.ValueError.
Proof. exact move_bad. Qed.
Print Assumptions C172_other_refuted.

(** * C173: kinetic energy and temperature *)
Theorem C173_formula : forall (F : realFieldType) n d (m : nat -> F) v,
  get_ekin n d m v = 2%:R^-1 * \sum_(i < n) \sum_(c < d) (m i * v i c) * v i c.
Proof. exact ekin_momentum. Qed.
Print Assumptions C173_formula.
Theorem C173_nonneg : forall (F : realFieldType) n d (m : nat -> F) v,
  (forall i, (i < n)%N -> 0 <= m i) -> 0 <= get_ekin n d m v.
Proof. exact ekin_ge0. Qed.
Print Assumptions C173_nonneg.
Theorem C173_rest : forall (F : realFieldType) n d (m : nat -> F) v, (forall i, (i < n)%N -> 0 < m i) ->
  (get_ekin n d m v = 0 <-> forall i c, (i < n)%N -> (c < d)%N -> v i c = 0).
Proof. exact ekin_eq0. Qed.
Print Assumptions C173_rest.
Theorem C173_scaling : forall (F : realFieldType) n d (m : nat -> F) v a,
  get_ekin n d m (fun i c => a * v i c) = a ^+ 2 * get_ekin n d m v.
Proof. exact ekin_scale. Qed.
Print Assumptions C173_scaling.
Example C173_ex : get_ekin 1 2 (fun _ => 2%:R : rat) (fun _ c => (c.+1)%:R) = 5%:R.
Proof. by rewrite /get_ekin !big_ord_recl !big_ord0. Qed.
Theorem C173_temperature_refuted : forall (F : realFieldType) (a : molarg F), exists e, temperature a = Err e.
Proof. exact temperature_fails. Qed.
Print Assumptions C173_temperature_refuted.

(** * C174: surface-hopping propagation follows the moving Hamiltonian *)
Theorem C174_propagation_partial : forall (F : realFieldType) d n (ham : 'rV[F]_d -> 'M[F]_n) v edt, edt != 0 ->
  forall N s c, cur_ham s = ham (cur_coords s) ->
  electronic_propagator ham v edt N s c =
  (Sh (cur_time s + edt *+ N) (cur_coords s + (edt *+ N) *: v) (ham (cur_coords s + (edt *+ N) *: v)),
   rk4_run N (ham_line ham (cur_coords s) v (cur_time s)) (cur_time s) edt c).
Proof. exact propagator_ok. Qed.
Print Assumptions C174_propagation_partial.
Theorem C174_first_refuted : forall F : realFieldType, exists c : coef F 1,
  (electronic_propagator (fun _ => 0) 0 1 1 (sh_w F) c).2 <>
  rk4_run 1 (ham_line (fun _ => 0) (cur_coords (sh_w F)) 0 0) 0 1 c.
Proof. exact uninitialised. Qed.
Print Assumptions C174_first_refuted.
Theorem C174_construct_refuted : forall (F : realFieldType) (kw : option F), mqc_init None kw = Err Base.AttributeError.
Proof. exact mqc_init_fails. Qed.
Print Assumptions C174_construct_refuted.
