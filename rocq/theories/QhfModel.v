(** Model of the QED-HF mean field: openms/mqed/qedhf.py (RHF) and the parts
    of openms/lib/boson.py (Photon) it uses.  Matrices are over a real field;
    n basis functions, m modes.  [sw a] stands for sqrt(0.5 * omega[a]) and
    [ph a] for the expectation value <b + b^+> of mode a that add_oei_ao
    computes from boson_coeff.  Logging is dropped. *)
From mathcomp Require Import all_ssreflect all_algebra.
From Verif Require Base.
Set Implicit Arguments.
Unset Strict Implicit.
Unset Printing Implicit Defensive.
Import GRing.Theory Num.Theory.
Local Open Scope ring_scope.

Section Qhf.
Variables (F : realFieldType) (n m : nat).
Local Notation M := 'M[F]_n.
Local Notation half := (2%:R^-1 : F).

(** attributes of the photon object *)
Record qed := Qed_ { gmat : 'I_m -> M; q_lambda : 'I_m -> M; z_alpha : 'I_m -> F;
  couplings_var : 'I_m -> F; couplings_res : 'I_m -> F; add_dse : bool; complete_basis : bool;
  use_cs : bool; e_boson : F; sw : 'I_m -> F; ph : 'I_m -> F }.
Definition set_z (q : qed) (z : 'I_m -> F) : qed :=
  Qed_ (gmat q) (q_lambda q) z (couplings_var q) (couplings_res q) (add_dse q) (complete_basis q)
       (use_cs q) (e_boson q) (sw q) (ph q).

(** einsum("pq, Xpq -> X") *)
Definition scaled_mu (dm : M) (g : M) : F := \sum_p \sum_q dm p q * g p q.

(** Photon.update_cs, boson.py 1407-1434 *)
Definition update_cs (q : qed) (dm : M) : qed :=
  if use_cs q then set_z q (fun a => scaled_mu dm (gmat q a)) else q.

(** gvar2, boson.py 1542-1549, and dg *)
Definition gvar2 (q : qed) (residue : bool) (a : 'I_m) : F :=
  if residue then (if add_dse q then couplings_res q a ^+ 2 else couplings_var q a * (couplings_var q a - 2%:R))
  else 1.
Definition dg (q : qed) (a : 'I_m) : F := - 2%:R * couplings_res q a.

(** tmp_term, boson.py 1557-1564; [sinv] is the inverse of the overlap built
    from its eigenvectors *)
Definition tmp_term (q : qed) (sinv : M) (a : 'I_m) : M :=
  if complete_basis q then - q_lambda q a
  else \matrix_(i, j) \sum_r \sum_s gmat q a i r * sinv r s * gmat q a s j.

(** add_oei_ao, boson.py 1538-1607, after update_cs: value and, with
    compute_grad, gradient ([dg] is unbound unless residue is set). *)
Definition oei (q : qed) (s1e sinv : M) (nelec : F) (residue : bool) : M := \matrix_(i, j)
  (- (\sum_a gmat q a i j * (gvar2 q residue a * z_alpha q a))
   + (if add_dse q then half * \sum_a gvar2 q residue a * tmp_term q sinv a i j else 0)
   + (half * (\sum_a z_alpha q a ^+ 2 * gvar2 q residue a) + e_boson q) * s1e i j / nelec
   + \sum_a ph q a * ((gmat q a i j - s1e i j * z_alpha q a) * sw q a) * couplings_res q a).
Definition add_oei_ao (q : qed) (dm s1e sinv : M) (nelec : F) (residue : bool) : qed * M :=
  let q' := update_cs q dm in (q', oei q' s1e sinv nelec residue).
Definition oei_grad (q : qed) (s1e sinv : M) (nelec : F) : M := \matrix_(i, j)
  (- (\sum_a gmat q a i j * (dg q a * z_alpha q a))
   + (if add_dse q then half * \sum_a dg q a * tmp_term q sinv a i j else 0)
   + half * (\sum_a z_alpha q a ^+ 2 * dg q a) * s1e i j / nelec
   - \sum_a ph q a * ((gmat q a i j - s1e i j * z_alpha q a) * sw q a)).
Definition add_oei_ao_grad (q : qed) (dm s1e sinv : M) (nelec : F) (residue : bool) : Base.res (M * M) :=
  let q' := update_cs q dm in
  if residue then Base.Ok (oei q' s1e sinv nelec residue, oei_grad q' s1e sinv nelec)
  else Base.Err Base.UnboundLocalError.

(** RHF.get_dse_jk, qedhf.py 515-573, for one density matrix *)
Definition vj_dse (q : qed) (residue : bool) (dm : M) : M := \matrix_(i, j)
  \sum_a gmat q a i j * scaled_mu dm (gmat q a) * gvar2 q residue a.
Definition vk_dse (q : qed) (residue : bool) (dm : M) : M := \matrix_(i, j)
  \sum_a \sum_r gmat q a i r * (\sum_s gmat q a j s * dm r s) * gvar2 q residue a.
Definition grad_vjk (q : qed) (dm : M) : M := \matrix_(i, j)
  (\sum_a gmat q a i j * scaled_mu dm (gmat q a) * dg q a
   - half * \sum_a \sum_r gmat q a i r * (\sum_s gmat q a j s * dm r s) * dg q a).

(** Photon.get_dse_jk, boson.py 1754-1825 *)
Definition g_dse (q : qed) (residue : bool) (a : 'I_m) : F :=
  if residue then couplings_res q a * couplings_res q a else 1.
Definition j_dse (q : qed) (residue : bool) (dm : M) : M := \matrix_(i, j)
  \sum_a (g_dse q residue a * \sum_p \sum_r gmat q a p r * dm r p) * gmat q a i j.
Definition k_dse (q : qed) (residue : bool) (dm : M) : M := \matrix_(i, j)
  \sum_a g_dse q residue a * \sum_r \sum_s gmat q a i r * gmat q a s j * dm s r.

(** RHF.get_jk, qedhf.py 576-595.  [bare] is hf.dot_eri_dm with both flags set;
    [have_eri] stands for self._eri is not None, [fits] for incore_anyway or
    enough memory, [lr] for a range-separation omega.  Python's recursion
    limit is [fuel].  Returns the matrices and whether _eri is now held. *)
Section JK.
Variable bare : M -> M * M.
Definition opt (b : bool) (x : M) : option M := if b then Some x else None.
Definition iadd (x : option M) (y : M) : Base.res (option M) :=
  match x with Some v => Base.Ok (Some (v + y)) | None => Base.Err Base.TypeError end.
Fixpoint get_jk (fuel : nat) (q : qed) (have_eri fits lr with_j with_k : bool) (dm : M)
    : Base.res (option M * option M * bool) :=
  match fuel with
  | 0 => Base.Err Base.RecursionError
  | fuel'.+1 =>
    Base.rbind
      (if ~~ lr && (have_eri || fits)
       then Base.Ok (opt with_j (bare dm).1, opt with_k (bare dm).2, true)
       else get_jk fuel' q have_eri fits lr with_j with_k dm)
      (fun r => let '(vj, vk, held) := r in
        if add_dse q
        then Base.rbind (iadd vj (vj_dse q false dm)) (fun vj =>
             Base.rbind (iadd vk (vk_dse q false dm)) (fun vk => Base.Ok (vj, vk, held)))
        else Base.Ok (vj, vk, held))
  end.

(** RHF.get_veff, qedhf.py 636-690, with both flags; [sub1 vj vk] is
    vj - vk * 0.5.  The recursion of get_jk is cut at [fuel]. *)
Definition sub1 (r : option M * option M * bool) : Base.res M :=
  match r with
  | (Some vj, Some vk, _) => Base.Ok (vj - half *: vk)
  | _ => Base.Err Base.TypeError
  end.
Definition get_veff (fuel : nat) (q : qed) (have_eri fits direct_scf : bool) (dm dm_last vhf_last : M)
    : Base.res (M * bool) :=
  let incr := ~~ (have_eri || ~~ direct_scf) in
  Base.rbind (get_jk fuel q have_eri fits false true true (if incr then dm - dm_last else dm)) (fun r =>
  Base.rbind (sub1 r) (fun v => Base.Ok (if incr then v + vhf_last else v, r.2))).
(** the potentials of an SCF run, qedhf.py 165, 226, 273: first from the initial
    density alone, then from each density, its predecessor and the last
    potential *)
Fixpoint scf_veff (fuel : nat) (q : qed) (have_eri fits direct_scf : bool) (last vlast : M) (dms : seq M)
    : Base.res (seq M) :=
  match dms with
  | [::] => Base.Ok [::]
  | d :: r => Base.rbind (get_veff fuel q have_eri fits direct_scf d last vlast) (fun vh =>
      Base.rmap (cons vh.1) (scf_veff fuel q vh.2 fits direct_scf d vh.1 r))
  end.
End JK.

(** RHF.energy_elec, qedhf.py 696-735 *)
Definition contract (a b : M) : F := \sum_i \sum_j a i j * b j i.
Definition energy_elec (h1e vhf dm : M) : F := contract h1e dm + contract vhf dm * half.

(** the photon-dependent part of the energy and Fock matrix of a density:
    get_hcore with add_oei_ao (qedhf.py 474-512), get_veff with get_dse_jk, energy_elec *)
Definition dse_fock (q : qed) (s1e sinv : M) (nelec : F) (dm : M) : M :=
  let (q', h) := add_oei_ao q dm s1e sinv nelec false in
  h + (if add_dse q then vj_dse q' false dm - half *: vk_dse q' false dm else 0).
Definition dse_energy (q : qed) (s1e sinv : M) (nelec : F) (dm : M) : F :=
  let (q', h) := add_oei_ao q dm s1e sinv nelec false in
  energy_elec h (if add_dse q then vj_dse q' false dm - half *: vk_dse q' false dm else 0) dm.

(** get_fock, qedhf.py 303-397, outside the SCF loop (cycle < 0, diis None):
    the h1e argument is overwritten by get_hcore(dm=dm), which is the bare
    core Hamiltonian when no density is given; vhf falls back on get_veff with
    the stored density [rdm1]. *)
Definition get_hcore (bare_h : M) (oei_of : M -> M) (dm : option M) : M :=
  match dm with None => bare_h | Some d => bare_h + oei_of d end.
Definition get_fock (bare_h : M) (oei_of veff_of : M -> M) (rdm1 : M) (h1e vhf dm : option M) : M :=
  get_hcore bare_h oei_of dm +
  match vhf with Some v => v | None => veff_of match dm with Some d => d | None => rdm1 end end.
(** get_fock 389-397 inside the SCF loop without DIIS extrapolation: the names
    damping and level_shift are not defined in the module; [start] is
    diis_start_cycle *)
Definition fock_tail (f : M) (cycle start : int) (level_shift damp : F) : Base.res M :=
  if (0 <= cycle) && (cycle < start - 1) && (10000%:R^-1 < `|damp|) then Base.Err Base.NameError
  else if 10000%:R^-1 < `|level_shift| then Base.Err Base.NameError else Base.Ok f.
End Qhf.

(** ** Interaction matrices, boson.py 1834-1999, over n basis functions and m
    modes; [vec a x], [dip x], [quad k] (k = 3x + y), couplings and their
    bilinear counterpart. *)
Section Gmat.
Variables (F : realFieldType) (n m : nat).
Local Notation M := 'M[F]_n.
Variables (vec : 'I_m -> 'I_3 -> F) (couplings bilinear : 'I_m -> F).
(** what get_dipole_ao and get_quadrupole_ao return (integral library) *)
Variables (dip0 : 'I_3 -> M) (quad0 : nat -> M).
(** numpy.outer(v, v).reshape(-1) *)
Definition outer9 (a : 'I_m) (k : nat) : F := vec a (inord (k %/ 3)) * vec a (inord (k %% 3)).
Definition got (T : Type) (x : option T) (d : T) : T := if x is Some y then y else d.
(** einsum with the stored array, an error while the attribute is None *)
Definition need (T U : Type) (x : option T) (f : T -> U) : Base.res U :=
  if x is Some y then Base.Ok (f y) else Base.Err Base.ValueError.
(** get_polarized_quadrupole_ao, 1834-1858 *)
Definition polarized_quadrupole (quad : nat -> M) (a : 'I_m) : M := \matrix_(i, j) \sum_(k < 9) outer9 a k * quad k i j.
(** get_q_lambda_ao, 1861-1887; [quad] is the attribute quadrupole_ao *)
Definition get_q_lambda_ao (quad : option (nat -> M)) : Base.res ('I_m -> M) := need quad (fun quad a =>
  \matrix_(i, j) (couplings a ^+ 2 * (0 + polarized_quadrupole quad a i j))).
(** get_q_dot_lambda, 1890-1905; [cached] is the attribute q_lambda_ao *)
Definition get_q_dot_lambda (quad : option (nat -> M)) (cached : option ('I_m -> M)) : 'I_m -> M :=
  match cached with
  | Some q => q
  | None => fun a => \matrix_(i, j) \sum_(k < 9) (outer9 a k * couplings a ^+ 2) * got quad quad0 k i j
  end.
(** get_polarized_dipole_ao, 1914-1923; [dip] is the attribute dipole_ao *)
Definition polarized_dipole (dip : option ('I_3 -> M)) (a : 'I_m) : M :=
  \matrix_(i, j) \sum_x vec a x * got dip dip0 x i j.
(** get_gmat_ao, 1926-1949 *)
Definition get_gmat_ao (dip : option ('I_3 -> M)) : Base.res ('I_m -> M) := need dip (fun dip a =>
  \matrix_(i, j) (couplings a * \sum_c vec a c * dip c i j)).
(** get_gmatao, 1952-1983; [cached] is the attribute gmat *)
Definition get_gmatao (dip : option ('I_3 -> M)) (cached : option ('I_m -> M)) : 'I_m -> M :=
  match cached with
  | Some g => g
  | None => fun a => \matrix_(i, j) (polarized_dipole dip a i j * couplings a)
  end.
(** get_geb_ao, 1986-2014 *)
Definition get_geb_ao (dip : option ('I_3 -> M)) (a : 'I_m) : M := \matrix_(i, j) (polarized_dipole dip a i j * bilinear a).
End Gmat.
