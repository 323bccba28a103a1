(** Model of the SCF drivers openms/mqed/qedhf.py and scqedhf.py (kernel), of
    get_fock, of the packing of the variational parameters for DIIS
    (scqedhf.py, vtqedhf.py), and of the degeneracy resolution of the dipole
    basis.

    The methods of the mean-field object are arguments: each receives the state
    [St] of the object (parameters, cached matrices, photon amplitudes, DIIS
    history) and returns the new state, so that side effects and their order are
    kept.  Logging, checkpoint files and the callback are left out (a callback
    that changes the object is not covered).  Numbers are real. *)
From Coq Require Import Reals.
From Verif Require Import Base BosonModel ScqModel.
Open Scope R_scope.

Section Driver.
Variables (St Dm Hc V Fk Mo : Type).
Record methods := {
  get_h1e_DO : Dm -> St -> St;
  grad_var_params : Dm -> St -> St;
  get_hcore : Dm -> St -> Hc * St;
  get_veff : Dm -> option (Dm * V) -> St -> V * St;
  (** get_fock with the cycle number and the DIIS object *)
  get_fock_scf : Hc -> V -> Dm -> nat -> St -> Fk * St;
  (** get_fock without *)
  get_fock : Hc -> V -> Dm -> St -> Fk * St;
  (** eig followed by get_occ *)
  eig : Fk -> Mo;
  make_rdm1 : Mo -> Dm;
  update_cs : Dm -> St -> St;
  update_boson_coeff : Dm -> St -> St;
  energy_tot : Dm -> Hc -> V -> St -> R * St;
  norm_var_params : St -> R;
  (** norm of get_grad *)
  norm_grad : Mo -> Fk -> R }.
Variable mf : methods.

(** the local variables of the loop *)
Record loc := { l_st : St; l_dm : Dm; l_vhf : V; l_e : R; l_mo : Mo; l_fock : Fk; l_g : R }.

(** one cycle of qedhf.kernel, qedhf.py 204-239.  With TIGHT_GRAD_CONV_TOL unset
    the norm is divided by the square root of the size of a scalar, which is 1. *)
Definition qed_cycle (cycle : nat) (s : St) (dm : Dm) (vhf : V) : loc :=
  let s := get_h1e_DO mf dm s in
  let s := grad_var_params mf dm s in
  let (h1e, s) := get_hcore mf dm s in
  let (fock, s) := get_fock_scf mf h1e vhf dm cycle s in
  let mo := eig mf fock in
  let dm' := make_rdm1 mf mo in
  let s := update_cs mf dm' s in
  let (h1e, s) := get_hcore mf dm' s in
  let (vhf, s) := get_veff mf dm' (Some (dm, vhf)) s in
  let (e, s) := energy_tot mf dm' h1e vhf s in
  let s := update_boson_coeff mf dm' s in
  let (fock, s) := get_fock mf h1e vhf dm' s in
  {| l_st := s; l_dm := dm'; l_vhf := vhf; l_e := e; l_mo := mo; l_fock := fock;
     l_g := norm_grad mf mo fock + norm_var_params mf s |}.
(** one cycle of scqedhf.kernel, scqedhf.py 306-357 *)
Definition sc_cycle (cycle : nat) (s : St) (dm : Dm) (vhf : V) : loc :=
  let s := get_h1e_DO mf dm s in
  let s := grad_var_params mf dm s in
  let (h1e, s) := get_hcore mf dm s in
  let (fock, s) := get_fock_scf mf h1e vhf dm cycle s in
  let mo := eig mf fock in
  let dm' := make_rdm1 mf mo in
  let (vhf, s) := get_veff mf dm' (Some (dm, vhf)) s in
  let (h1e, s) := get_hcore mf dm' s in
  let (e, s) := energy_tot mf dm' h1e vhf s in
  let s := update_cs mf dm' s in
  let s := update_boson_coeff mf dm' s in
  let (fock, s) := get_fock mf h1e vhf dm' s in
  {| l_st := s; l_dm := dm'; l_vhf := vhf; l_e := e; l_mo := mo; l_fock := fock;
     l_g := norm_grad mf mo fock + norm_var_params mf s |}.

(** the extra cycle, qedhf.py 261-284 and scqedhf.py 382-399 (which leaves the
    norm of the variational parameters out) *)
Definition qed_extra (l : loc) : loc :=
  let mo := eig mf (l_fock l) in
  let dm' := make_rdm1 mf mo in
  let s := update_cs mf dm' (l_st l) in
  let s := update_boson_coeff mf dm' s in
  let (h1e, s) := get_hcore mf dm' s in
  let (vhf, s) := get_veff mf dm' (Some (l_dm l, l_vhf l)) s in
  let (e, s) := energy_tot mf dm' h1e vhf s in
  let (fock, s) := get_fock mf h1e vhf dm' s in
  {| l_st := s; l_dm := dm'; l_vhf := vhf; l_e := e; l_mo := mo; l_fock := fock;
     l_g := norm_grad mf mo fock + norm_var_params mf s |}.
Definition sc_extra (l : loc) : loc :=
  let mo := eig mf (l_fock l) in
  let dm' := make_rdm1 mf mo in
  let (vhf, s) := get_veff mf dm' (Some (l_dm l, l_vhf l)) (l_st l) in
  let s := update_cs mf dm' s in
  let s := update_boson_coeff mf dm' s in
  let (h1e, s) := get_hcore mf dm' s in
  let (e, s) := energy_tot mf dm' h1e vhf s in
  let (fock, s) := get_fock mf h1e vhf dm' s in
  {| l_st := s; l_dm := dm'; l_vhf := vhf; l_e := e; l_mo := mo; l_fock := fock;
     l_g := norm_grad mf mo fock |}.

(** mf.check_convergence, called with the locals: energy, previous energy, norm *)
Variable check : option (R -> R -> R -> bool).
Definition below (x y : R) : bool := if Rlt_dec x y then true else false.
(** lines 243-246 / 364-367, starting from the current value of scf_conv *)
Definition test_cycle (tol tolg : R) (conv : bool) (e e0 g : R) : bool :=
  match check with
  | Some f => f e e0 g
  | None => if (below (Rabs (e - e0)) tol && below g tolg)%bool then true else conv
  end.
(** lines 287-292 / 401-406 *)
Definition test_extra (tol tolg : R) (conv : bool) (e e0 g : R) : bool :=
  match check with
  | Some f => f e e0 g
  | None => if (below (Rabs (e - e0)) (tol * 10) || below g (tolg * 3))%bool then true else conv
  end.

Section Loop.
Variables (cyc : nat -> St -> Dm -> V -> loc) (extra : loc -> loc).
Variables (tol tolg : R).
(** the for loop over the remaining cycles; returns scf_conv, the locals and the
    index of the last cycle *)
Fixpoint loop (remaining cycle : nat) (s : St) (dm : Dm) (vhf : V) (e : R) : bool * loc * nat :=
  let l := cyc cycle s dm vhf in
  let conv := test_cycle tol tolg false (l_e l) e (l_g l) in
  if conv then (true, l, cycle) else
  match remaining with
  | O => (false, l, cycle)
  | S r => loop r (S cycle) (l_st l) (l_dm l) (l_vhf l) (l_e l)
  end.
Record outcome := { o_conv : bool; o_e : R; o_mo : Mo; o_st : St; o_cycles : option nat }.
(** from the initial energy on, qedhf.py 163-300 / scqedhf.py 254-417: [s], [dm]
    are the object and the density after the preparation.  mf.cycles is not set
    when max_cycle <= 0. *)
Definition run (max_cycle : nat) (conv_check : bool) (s : St) (dm : Dm) : outcome :=
  let (h1e, s) := get_hcore mf dm s in
  let (vhf, s) := get_veff mf dm None s in
  let (e, s) := energy_tot mf dm h1e vhf s in
  match max_cycle with
  | O => let (fock, s) := get_fock mf h1e vhf dm s in
         {| o_conv := false; o_e := e; o_mo := eig mf fock; o_st := s; o_cycles := None |}
  | S r =>
    (** the Fock matrix for the orthogonal basis of DIIS, 188-189 / 290-291 *)
    let (_, s) := get_fock mf h1e vhf dm s in
    match loop r 0 s dm vhf e with
    | (conv, l, cycle) =>
      if (conv && conv_check)%bool then
        let x := extra l in
        {| o_conv := test_extra tol tolg conv (l_e x) (l_e l) (l_g x); o_e := l_e x; o_mo := l_mo x;
           o_st := l_st x; o_cycles := Some (S cycle) |}
      else {| o_conv := conv; o_e := l_e l; o_mo := l_mo l; o_st := l_st l; o_cycles := Some (S cycle) |}
    end
  end.
End Loop.

(** kernel of qedhf.py; the preparation 150-160 is init_var_params (done before),
    get_h1e_DO, update_cs when use_cs is set, update_boson_coeff *)
Definition qed_kernel (tol tolg : R) (max_cycle : nat) (conv_check use_cs : bool) (s : St) (dm : Dm) : outcome :=
  let s := get_h1e_DO mf dm s in
  let s := if use_cs then update_cs mf dm s else s in
  let s := update_boson_coeff mf dm s in
  run qed_cycle qed_extra tol tolg max_cycle conv_check s dm.
(** kernel of scqedhf.py, 241-252, the initial density given *)
Definition sc_kernel (tol tolg : R) (max_cycle : nat) (conv_check use_cs : bool) (s : St) (dm : Dm) : outcome :=
  let s := get_h1e_DO mf dm s in
  let s := if use_cs then update_cs mf dm s else s in
  run sc_cycle sc_extra tol tolg max_cycle conv_check s dm.
End Driver.
Arguments get_h1e_DO {St Dm Hc V Fk Mo}.
Arguments grad_var_params {St Dm Hc V Fk Mo}.
Arguments get_hcore {St Dm Hc V Fk Mo}.
Arguments get_veff {St Dm Hc V Fk Mo}.
Arguments get_fock_scf {St Dm Hc V Fk Mo}.
Arguments get_fock {St Dm Hc V Fk Mo}.
Arguments eig {St Dm Hc V Fk Mo}.
Arguments make_rdm1 {St Dm Hc V Fk Mo}.
Arguments update_cs {St Dm Hc V Fk Mo}.
Arguments update_boson_coeff {St Dm Hc V Fk Mo}.
Arguments energy_tot {St Dm Hc V Fk Mo}.
Arguments norm_var_params {St Dm Hc V Fk Mo}.
Arguments norm_grad {St Dm Hc V Fk Mo}.
Arguments qed_cycle {St Dm Hc V Fk Mo}.
Arguments sc_cycle {St Dm Hc V Fk Mo}.
Arguments qed_extra {St Dm Hc V Fk Mo}.
Arguments sc_extra {St Dm Hc V Fk Mo}.
Arguments qed_kernel {St Dm Hc V Fk Mo}.
Arguments sc_kernel {St Dm Hc V Fk Mo}.
Arguments run {St Dm Hc V Fk Mo}.
Arguments l_st {St Dm V Fk Mo}.
Arguments l_dm {St Dm V Fk Mo}.
Arguments l_vhf {St Dm V Fk Mo}.
Arguments l_e {St Dm V Fk Mo}.
Arguments l_mo {St Dm V Fk Mo}.
Arguments l_fock {St Dm V Fk Mo}.
Arguments l_g {St Dm V Fk Mo}.
Arguments loop {St Dm V Fk Mo}.
Arguments o_conv {St Mo}.
Arguments o_e {St Mo}.
Arguments o_mo {St Mo}.
Arguments o_st {St Mo}.
Arguments o_cycles {St Mo}.

(** ** The methods of scqedhf.RHF for one mode *)
Section ScMethods.
Variables (n : nat) (om : R) (h : mat) (eri : nat -> nat -> nat -> nat -> R) (g : nat -> R) (G dG : R -> R).
Variables (Mo : Type) (eig0 : mat -> Mo) (rdm0 : Mo -> mat) (grad0 : Mo -> mat -> R).
(** the DIIS extrapolation: Fock matrix and displacements after it, from the cycle
    number, the density, the Fock matrix, the displacements and their gradient *)
Variable diis : nat -> mat -> mat -> (nat -> R) -> (nat -> R) -> mat * (nat -> R).
Variables (diis_start : nat) (precond : R).
Record sc_state := { s_eta : nat -> R; s_gd : nat -> R; s_grad : nat -> R }.
(** get_h1e_DO, scqedhf.py 884-932: caches g_dipole (and h1e_DO made from it) *)
Definition sc_h1e_DO (_ : mat) (s : sc_state) : sc_state :=
  {| s_eta := s_eta s; s_gd := g_dipole g (s_eta s); s_grad := s_grad s |}.
(** get_eta_gradient, 620-678, with the cached g_dipole and h1e_DO *)
Definition sc_grad (D : mat) (s : sc_state) : sc_state :=
  {| s_eta := s_eta s; s_gd := s_gd s;
     s_grad := fun p => deta_one n D om h (s_gd s) (s_eta s) dG p + deta_two n D eri (s_eta s) dG p |}.
Definition sc_hcore (_ : mat) (s : sc_state) : mat * sc_state := (hcore_do om h (s_gd s) (s_eta s) G, s).
Definition sc_veff (D : mat) (_ : option (mat * mat)) (s : sc_state) : mat * sc_state :=
  (veff_do n D om (veff_eri n D eri (s_eta s) G) (s_gd s), s).
Definition madd (A B : mat) : mat := fun p q => A p q + B p q.
(** get_fock, qedhf.py 367-397, inside the loop without damping and level shift:
    update_var_params (scqedhf.py 1095-1097), get_hcore again, DIIS *)
Definition sc_fock_scf (_ vhf D : mat) (cycle : nat) (s : sc_state) : mat * sc_state :=
  let s := {| s_eta := fun p => s_eta s p - precond * s_grad s p; s_gd := s_gd s; s_grad := s_grad s |} in
  let (h1e, s) := sc_hcore D s in
  let f := madd h1e vhf in
  if (diis_start <=? cycle)%nat then
    let (f, eta) := diis cycle D f (s_eta s) (s_grad s) in
    (f, {| s_eta := eta; s_gd := s_gd s; s_grad := s_grad s |})
  else (f, s).
Definition sc_fock (_ vhf D : mat) (s : sc_state) : mat * sc_state :=
  let (h1e, s) := sc_hcore D s in (madd h1e vhf, s).
(** norm_var_params, 1084-1085 *)
Definition sc_norm (s : sc_state) : R := sqrt (sumn n (fun p => s_grad s p ^ 2)) / sqrt (INR n).
Definition sc_methods : methods sc_state mat mat mat mat Mo :=
  {| get_h1e_DO := sc_h1e_DO; grad_var_params := sc_grad; get_hcore := sc_hcore; get_veff := sc_veff;
     get_fock_scf := sc_fock_scf; get_fock := sc_fock; eig := eig0; make_rdm1 := rdm0;
     update_cs := fun _ s => s; update_boson_coeff := fun _ s => s;
     energy_tot := fun D hc v s => (energy n D hc v, s);
     norm_var_params := sc_norm; norm_grad := grad0 |}.
End ScMethods.

(** ** Packing for DIIS *)
Section Pack.
Variable A : Type.
Record vparams := { v_eta : list A; v_f : list A; v_sq : list A }.
(** slice l[a:b] and l[a:] *)
Definition slice (a b : nat) (l : list A) : list A := firstn (b - a) (skipn a l).
(** pre_update_var_params, vtqedhf.py 549-561 *)
Definition pre_update (varf vsq : bool) (p : vparams) : list A :=
  (v_eta p ++ if varf then v_f p else []) ++ (if vsq then v_sq p else []).
(** CDIIS.update, diis.py 47: the vector handed to the extrapolation *)
Definition diis_vector (f v : list A) : list A := f ++ v.
(** x.reshape(shape) of a flat x *)
Definition reshape (size : nat) (x : list A) : res (list A) :=
  if (length x =? size)%nat then Ok x else Err ValueError.
(** the tail shared by set_var_params (563-586) and set_params (588-611) from
    [fsize] on; [cur] are the current values, whose sizes are those of the
    gradients *)
Definition set_from (varf vsq : bool) (params : list A) (fsize : nat) (cur : vparams) : res vparams :=
  let etasize := length (v_eta cur) in
  let varsize := length (v_f cur) in
  rbind (if (fsize <? length params)%nat then reshape etasize (slice fsize (fsize + etasize) params) else Ok (v_eta cur)) (fun eta =>
  let fsize := (fsize + etasize)%nat in
  rbind (if ((fsize <? length params)%nat && varf)%bool then reshape varsize (slice fsize (fsize + varsize) params) else Ok (v_f cur)) (fun f =>
  let fsize := (fsize + varsize)%nat in
  rbind (if ((fsize <? length params)%nat && vsq)%bool then reshape (length (v_sq cur)) (skipn fsize params) else Ok (v_sq cur)) (fun sq =>
  Ok {| v_eta := eta; v_f := f; v_sq := sq |}))).
Definition set_var_params (varf vsq : bool) (params : list (list A)) (cur : vparams) : res vparams :=
  set_from varf vsq (concat params) 0 cur.
Definition set_params (varf vsq : bool) (params : list A) (fsize : nat) (cur : vparams) : res (list A * vparams) :=
  rbind (reshape fsize (slice 0 fsize params)) (fun f =>
  rmap (pair f) (set_from varf vsq params fsize cur)).
End Pack.

(** ** check_n_resolve_degeneracy, scqedhf.py 526-575 *)

(** the blocks [r, s) that are diagonalised, for the eigenvalues [evals]; the loop
    is over consecutive pairs, [p] the current index *)
Fixpoint blocks_from (thr : R) (p degeneracy : nat) (evals : list R) : list (nat * nat) :=
  match evals with
  | a :: ((b :: _) as r) =>
    let d := Rabs (b - a) in
    if Rlt_dec d thr then blocks_from thr (S p) (S degeneracy) r
    else if (if Rlt_dec thr d then (1 <? degeneracy)%nat else false)
    then ((p + 1 - degeneracy)%nat, (p + 1)%nat) :: blocks_from thr (S p) 1 r
    else blocks_from thr (S p) degeneracy r
  | _ => []
  end.
Definition resolved_blocks (thr : R) (evals : list R) : list (nat * nat) := blocks_from thr 0 1 evals.

(** ** Options *)

(** get_fock, qedhf.py 367-397, inside the loop: [damping] and [level_shift] are
    called when the factors exceed 1e-4 but neither name is defined or imported *)
Definition fock_options {F} (cycle diis_start : nat) (damp level : R) (f : F) : res F :=
  if ((cycle <? diis_start - 1)%nat && below (1 / 10000) (Rabs damp))%bool then Err NameError
  else if below (1 / 10000) (Rabs level) then Err NameError else Ok f.

(** mqed.HF, mqed/__init__.py 47-54.  [call accepted given] is python's check of
    the number of positional arguments: RHF.__init__ (qedhf.py 402) takes mol
    only, RKS.__init__ (894) mol and xc; HF passes mol, qed (and xc). *)
Definition call {A} (accepted given : nat) (x : A) : res A :=
  if (given <=? accepted)%nat then Ok x else Err TypeError.
Inductive solver := SolverRHF | SolverRKS.
Definition HF (nelectron : nat) (spin : Z) (xc : bool) : res solver :=
  if ((nelectron =? 1)%nat || (spin =? 0)%Z)%bool
  then (if xc then call 2 3 SolverRKS else call 1 2 SolverRHF)
  else Err NotImplementedError.
