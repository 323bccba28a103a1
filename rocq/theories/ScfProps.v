(** Properties of the SCF drivers: C49, C52, C53, C134, C158-C160. *)
From Coq Require Import Reals Lra Lia.
From Verif Require Import Base BosonModel ScqModel ScfModel ScfSpec ScfProofs.
Open Scope R_scope.

(** C49.  With the default test the flag says whether the last cycle met both
    tolerances; it is the first such cycle, at most max_cycle cycles are run, all
    of them if the flag is false, and what is returned belongs to the last cycle
    (or to the extra cycle after it). *)
Theorem C49_qed_flag : forall St Dm Hc V Fk Mo (mf : methods St Dm Hc V Fk Mo) tol tolg m check cs s dm,
  let o := qed_kernel mf None tol tolg (S m) check cs s dm in
  exists s1 s0 v0 e0 k, start mf s1 dm = (s0, v0, e0) /\ (k <= m)%nat /\ o_cycles o = Some (S k) /\
    (o_conv o = true <-> converged_at tol tolg (qed_cycle mf) s0 dm v0 e0 k) /\
    (forall j, (j < k)%nat -> ~ converged_at tol tolg (qed_cycle mf) s0 dm v0 e0 j) /\
    (o_conv o = false -> k = m) /\
    let l := if (o_conv o && check)%bool then qed_extra mf (after (qed_cycle mf) s0 dm v0 k) else after (qed_cycle mf) s0 dm v0 k in
    o_e o = l_e l /\ o_mo o = l_mo l /\ o_st o = l_st l.
Proof. exact (@qed_flag). Qed.
Print Assumptions C49_qed_flag.
Theorem C49_sc_flag : forall St Dm Hc V Fk Mo (mf : methods St Dm Hc V Fk Mo) tol tolg m check cs s dm,
  let o := sc_kernel mf None tol tolg (S m) check cs s dm in
  exists s1 s0 v0 e0 k, start mf s1 dm = (s0, v0, e0) /\ (k <= m)%nat /\ o_cycles o = Some (S k) /\
    (o_conv o = true <-> converged_at tol tolg (sc_cycle mf) s0 dm v0 e0 k) /\
    (forall j, (j < k)%nat -> ~ converged_at tol tolg (sc_cycle mf) s0 dm v0 e0 j) /\
    (o_conv o = false -> k = m) /\
    let l := if (o_conv o && check)%bool then sc_extra mf (after (sc_cycle mf) s0 dm v0 k) else after (sc_cycle mf) s0 dm v0 k in
    o_e o = l_e l /\ o_mo o = l_mo l /\ o_st o = l_st l.
Proof. exact (@sc_flag). Qed.
Print Assumptions C49_sc_flag.
Theorem C49_bound : forall St Dm Hc V Fk Mo (mf : methods St Dm Hc V Fk Mo) f tol tolg m check cs s dm,
  exists k k', (k <= m)%nat /\ (k' <= m)%nat /\
  o_cycles (qed_kernel mf (Some f) tol tolg (S m) check cs s dm) = Some (S k) /\
  o_cycles (sc_kernel mf (Some f) tol tolg (S m) check cs s dm) = Some (S k').
Proof. exact (@both_bound). Qed.
Print Assumptions C49_bound.
(** max_cycle = 0: not converged, energy of the initial density *)
Theorem C49_zero : forall St Dm Hc V Fk Mo (mf : methods St Dm Hc V Fk Mo) check tol tolg b cs s dm,
  (exists s', o_conv (qed_kernel mf check tol tolg 0 b cs s dm) = false /\ o_e (qed_kernel mf check tol tolg 0 b cs s dm) = energy_of mf dm None s') /\
  (exists s', o_conv (sc_kernel mf check tol tolg 0 b cs s dm) = false /\ o_e (sc_kernel mf check tol tolg 0 b cs s dm) = energy_of mf dm None s').
Proof. exact (@both_zero). Qed.
Print Assumptions C49_zero.
(** in the QED-HF driver the returned energy is that of the density of the returned
    orbitals, evaluated after the coherent state was updated with it *)
Theorem C49_energy : forall St Dm Hc V Fk Mo (mf : methods St Dm Hc V Fk Mo) tol tolg m check cs s dm,
  let o := qed_kernel mf None tol tolg (S m) check cs s dm in
  exists s' last, o_e o = energy_of mf (make_rdm1 mf (o_mo o)) last s' /\
    exists s'', s' = update_cs mf (make_rdm1 mf (o_mo o)) s'' \/
      s' = update_boson_coeff mf (make_rdm1 mf (o_mo o)) (update_cs mf (make_rdm1 mf (o_mo o)) s'').
Proof. exact (@qed_energy). Qed.
Print Assumptions C49_energy.
(** one cycle suffices for [drift]; with a negative tolerance none does *)
Example C49_ex : o_conv (qed_kernel drift None 1 1 3 false false tt 0%nat) = true /\
  o_cycles (qed_kernel drift None 1 1 3 false false tt 0%nat) = Some 1%nat /\
  o_conv (qed_kernel drift None (-1) 1 3 true false tt 0%nat) = false /\
  o_cycles (qed_kernel drift None (-1) 1 3 true false tt 0%nat) = Some 3%nat.
Proof.
  assert (A : forall x, below (Rabs x) (-1) = false) by (intros x; apply below_no; pose proof (Rabs_pos x); lra).
  assert (B : below (Rabs (0 - 0)) 1 = true) by (apply below_iff; rewrite Rminus_diag_eq, Rabs_R0 by reflexivity; lra).
  assert (C : below 0 1 = true) by (apply below_iff; lra).
  assert (D : below (0 + 0) 1 = true) by (apply below_iff; lra).
  unfold qed_kernel, run, loop, test_cycle. cbn -[below Rabs Rminus Rplus]. rewrite ?A, ?B, ?C, ?D. cbn -[below Rabs Rminus Rplus].
  rewrite ?A, ?B, ?C, ?D. cbn -[below Rabs Rminus Rplus]. auto.
Qed.

(** C134.  The extra cycle that is there to verify convergence cannot withdraw it:
    the flag stays true although the extra cycle misses both (loosened)
    tolerances. *)
Theorem C134_refuted : exists (mf : methods unit nat unit unit nat nat) tol tolg l s0 v0 e0 k,
  0 < tol /\ 0 < tolg /\ start mf tt 0%nat = (s0, v0, e0) /\ l = after (qed_cycle mf) s0 0%nat v0 k /\
  let o := qed_kernel mf None tol tolg 50 true false tt 0%nat in
  o_conv o = true /\ o_e o = l_e (qed_extra mf l) /\
  10 * tol <= Rabs (l_e (qed_extra mf l) - l_e l) /\ 3 * tolg <= l_g (qed_extra mf l).
Proof. exact refuted_extra. Qed.
Print Assumptions C134_refuted.

(** C158.  In the strong-coupling driver the reported energy uses the residual
    couplings of the displacements before the last update and overlap factors of
    the displacements after it; the gradient that is tested is that of the
    displacements (and density) before it. *)
Theorem C158_reported_partial : forall n om h eri g G dG Mo eig0 rdm0 grad0 dii start precond tol tolg m check cs s dm,
  let o := sc_kernel (sc_methods n om h eri g G dG Mo eig0 rdm0 grad0 dii start precond) None tol tolg (S m) check cs s dm in
  exists eta_prev dm_prev,
    s_gd (o_st o) = g_dipole g eta_prev /\
    s_grad (o_st o) = eta_grad n dm_prev om h eri g eta_prev dG /\
    o_e o = mixed n om h eri G (rdm0 (o_mo o)) (g_dipole g eta_prev) (s_eta (o_st o)).
Proof. exact sc_reported. Qed.
Print Assumptions C158_reported_partial.
(** it is the energy of the returned density and displacements if these are where
    the cached couplings were computed *)
Theorem C158_fixed_partial : forall n om h eri g G dG Mo eig0 rdm0 grad0 dii start precond tol tolg m check cs s dm,
  let o := sc_kernel (sc_methods n om h eri g G dG Mo eig0 rdm0 grad0 dii start precond) None tol tolg (S m) check cs s dm in
  s_gd (o_st o) = g_dipole g (s_eta (o_st o)) ->
  o_e o = sc_energy n (rdm0 (o_mo o)) om h eri G g (s_eta (o_st o)).
Proof. exact sc_fixed. Qed.
Print Assumptions C158_fixed_partial.
Theorem C158_refuted : exists om h eri g (eig0 : mat -> unit) rdm0 grad0 dii start precond s dm,
  let G := fun x => exp (- (1/2) * (exp 0 / om * x) ^ 2) in
  let dG := gaussian_derivative_vectorized 1 (fun _ => 1) 0 om in
  let o := sc_kernel (sc_methods 1 om h eri g G dG unit eig0 rdm0 grad0 dii start precond) None (1 / 10 ^ 10) (1 / 10 ^ 5) 50 true false s dm in
  0 < om /\ (forall x, FC_factor 1 (fun _ => 1) 0 om x = Ok (G x)) /\ (forall x, derivable_pt_lim G x (dG x)) /\
  o_conv o = true /\
  5 / 10 ^ 5 <= Rabs (eta_grad 1 (rdm0 (o_mo o)) om h eri g (s_eta (o_st o)) dG 0) /\
  o_e o <> sc_energy 1 (rdm0 (o_mo o)) om h eri G g (s_eta (o_st o)).
Proof. exact refuted_sc. Qed.
Print Assumptions C158_refuted.
(** the hypothesis of C158_fixed_partial holds when the gradient vanishes *)
Example C158_ex : let o := sc_kernel (sc_methods 1 1 (fun _ _ => 0) (fun _ _ _ _ => 0) (fun _ => 3) (fun _ => 1) (fun _ => 0) unit (fun _ => tt) (fun _ _ _ => 2) (fun _ _ => 0) (fun _ _ f eta _ => (f, eta)) 5 1) None 1 1 1 false false
    {| s_eta := fun _ => 3; s_gd := fun _ => 0; s_grad := fun _ => 0 |} (fun _ _ => 2) in
  s_gd (o_st o) 0%nat = g_dipole (fun _ => 3) (s_eta (o_st o)) 0%nat.
Proof.
  cbv zeta. unfold sc_kernel, run. cbn -[below eta_grad energy Rminus Rplus Rmult Rdiv sqrt].
  unfold test_cycle. destruct (below _ _ && below _ _)%bool; cbn -[below eta_grad energy Rminus Rplus Rmult Rdiv sqrt];
  unfold g_dipole, sc_fock_scf; cbn -[Rminus Rplus Rmult Rdiv]; unfold deta_one, deta_two, sumn, g_dipole, h1e_DO, diff1, diff2; cbn -[Rminus Rplus Rmult Rdiv]; field.
Qed.

(** C52.  Packing and unpacking restores the Fock matrix and every optimised
    parameter unless squeezing is optimised without the couplings; then the
    squeezing parameters are silently left as they were. *)
Theorem C52_set_params_partial : forall A varf vsq (f : list A) p c, same_sizes p c -> (vsq = true -> varf = true) ->
  exists out, set_params A varf vsq (diis_vector A f (pre_update A varf vsq p)) (length f) c = Ok (f, out) /\ restored varf vsq p c out.
Proof. exact (@params_restored). Qed.
Print Assumptions C52_set_params_partial.
Theorem C52_set_var_params_partial : forall A varf vsq (p c : vparams A), same_sizes p c -> (vsq = true -> varf = true) ->
  exists out, set_var_params A varf vsq ([v_eta A p] ++ (if varf then [v_f A p] else []) ++ (if vsq then [v_sq A p] else [])) c = Ok out /\ restored varf vsq p c out.
Proof. exact (@var_params_restored). Qed.
Print Assumptions C52_set_var_params_partial.
Theorem C52_refuted : exists (f : list R) p c out, same_sizes p c /\
  set_params R false true (diis_vector R f (pre_update R false true p)) (length f) c = Ok (f, out) /\ ~ restored false true p c out.
Proof. exact params_lost. Qed.
Print Assumptions C52_refuted.
Example C52_ex : set_params nat true true [1; 2; 3; 4; 10; 11; 20; 30]%nat 4 {| v_eta := [0; 0]%nat; v_f := [0]%nat; v_sq := [0]%nat |} =
    Ok ([1; 2; 3; 4]%nat, {| v_eta := [10; 11]%nat; v_f := [20]%nat; v_sq := [30]%nat |}).
Proof. reflexivity. Qed.

(** C53.  If no neighbouring eigenvalues differ by exactly the threshold, the
    blocks that are resolved are the maximal degenerate groups that do not reach
    the last eigenvalue; a group at the end is never resolved, and a difference
    of exactly the threshold can make the code mix unrelated levels. *)
Theorem C53_blocks_partial : forall thr e,
  (forall i, (S i < length e)%nat -> Rabs (nth (S i) e 0 - nth i e 0) <> thr) ->
  forall r t, In (r, t) (resolved_blocks thr e) <-> degenerate_block thr e r t /\ (t < length e)%nat.
Proof. exact resolved_ok. Qed.
Print Assumptions C53_blocks_partial.
Theorem C53_refuted : forall thr, 0 < thr -> exists e r t, degenerate_block thr e r t /\ ~ In (r, t) (resolved_blocks thr e).
Proof. exact trailing_missed. Qed.
Print Assumptions C53_refuted.
Theorem C53_tie_refuted : forall thr, 0 < thr -> exists e r t, In (r, t) (resolved_blocks thr e) /\ ~ degenerate_block thr e r t.
Proof. exact tie_wrong. Qed.
Print Assumptions C53_tie_refuted.
Example C53_ex : resolved_blocks 1 [0; 0; 5; 9; 9; 9; 20] = [(0, 2); (3, 6)]%nat.
Proof.
  unfold resolved_blocks. cbn [blocks_from].
  replace (0 - 0) with 0 by ring. replace (5 - 0) with 5 by ring. replace (9 - 5) with 4 by ring. replace (9 - 9) with 0 by ring. replace (20 - 9) with 11 by ring.
  rewrite Rabs_R0, !Rabs_right by lra. 
  repeat (destruct (Rlt_dec _ _); try lra). reflexivity.
Qed.

(** C160.  Damping and level shift: any factor above 1e-4 makes the SCF fail on an
    undefined name (damping only in the cycles before DIIS starts). *)
Theorem C160_damping_refuted : forall F (f : F) c ds damp level, (S c < ds)%nat -> 1 / 10000 < Rabs damp ->
  fock_options c ds damp level f = Err NameError.
Proof. exact (@damping_fails). Qed.
Print Assumptions C160_damping_refuted.
Theorem C160_level_refuted : forall F (f : F) c ds damp level, 1 / 10000 < Rabs level ->
  fock_options c ds damp level f = Err NameError.
Proof. exact (@level_fails). Qed.
Print Assumptions C160_level_refuted.
Theorem C160_off_partial : forall F (f : F) c ds damp level, Rabs damp <= 1 / 10000 -> Rabs level <= 1 / 10000 ->
  fock_options c ds damp level f = Ok f.
Proof. exact (@options_off). Qed.
Print Assumptions C160_off_partial.
Example C160_ex : fock_options 0 1 0 0 tt = Ok tt /\ fock_options 0 1 0 (1/10) tt = Err NameError.
Proof.
  split; [apply options_off; rewrite Rabs_R0; lra|apply level_fails; rewrite Rabs_right; lra].
Qed.

(** C159.  The factory mqed.HF never returns a solver. *)
Theorem C159_refuted : forall n sp xc, HF n sp xc = Err (if ((n =? 1)%nat || (sp =? 0)%Z)%bool then TypeError else NotImplementedError).
Proof. exact factory_fails. Qed.
Print Assumptions C159_refuted.
Example C159_ex : HF 2 0 false = Err TypeError /\ HF 3 1 true = Err NotImplementedError.
Proof. split; reflexivity. Qed.
