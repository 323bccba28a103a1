(** Proofs about the SCF drivers. *)
From Coq Require Import Reals Lra Lia.
From Verif Require Import Base BosonModel BosonSpec BosonProofs ScqModel ScqSpec ScqProofs ScfModel ScfSpec.
Open Scope R_scope.

Lemma below_iff x y : below x y = true <-> x < y.
Proof. unfold below. destruct (Rlt_dec x y); split; congruence || auto. Qed.
Lemma below_no x y : below x y = false <-> ~ x < y.
Proof. unfold below. destruct (Rlt_dec x y); split; try congruence; tauto. Qed.

Section Driver.
Context {St Dm Hc V Fk Mo : Type} (mf : methods St Dm Hc V Fk Mo).
Section Loop.
Variables (cyc : nat -> St -> Dm -> V -> loc St Dm V Fk Mo) (tol tolg : R) (s : St) (dm : Dm) (vhf : V) (e : R).
Notation aft := (after cyc s dm vhf).
Notation conv := (converged_at tol tolg cyc s dm vhf e).
Lemma test_iff c e' : match c with O => e | S j => l_e (aft j) end = e' ->
  (test_cycle None tol tolg false (l_e (aft c)) e' (l_g (aft c)) = true <-> conv c).
Proof.
  intros <-. unfold converged_at, test_cycle. rewrite <- !below_iff. destruct (below _ _), (below _ _); cbn; intuition congruence.
Qed.
Lemma loop_spec r : forall c s' dm' v' e',
  (match c with O => (s, dm, vhf, e) | S j => (l_st (aft j), l_dm (aft j), l_vhf (aft j), l_e (aft j)) end) = (s', dm', v', e') ->
  exists b k, loop None cyc tol tolg r c s' dm' v' e' = (b, aft k, k) /\ (c <= k <= c + r)%nat /\
    (forall j, (c <= j < k)%nat -> ~ conv j) /\ (b = true <-> conv k) /\ (b = false -> k = (c + r)%nat).
Proof.
  induction r as [|r IH]; intros c s' dm' v' e' H; cbn [loop];
  assert (A : cyc c s' dm' v' = aft c) by (destruct c; cbn in H; injection H as <- <- <- <-; reflexivity);
  assert (E : match c with O => e | S j => l_e (aft j) end = e') by (destruct c; injection H; auto);
  rewrite A; apply test_iff in E; destruct (test_cycle None tol tolg false (l_e (aft c)) e' (l_g (aft c))) eqn:T.
  - exists true, c. split; [reflexivity|]. split; [lia|]. split; [intros; lia|]. split; [tauto|discriminate].
  - exists false, c. split; [reflexivity|]. split; [lia|]. split; [intros; lia|]. split; [tauto|lia].
  - exists true, c. split; [reflexivity|]. split; [lia|]. split; [intros; lia|]. split; [tauto|discriminate].
  - destruct (IH (S c) _ _ _ _ eq_refl) as (b & k & L & B & N & C1 & C2). exists b, k.
    split; [exact L|]. split; [lia|]. split.
    { intros j Hj. destruct (Nat.eq_dec j c) as [->|]; [|apply N; lia]. intros X. apply E in X. discriminate. }
    split; [exact C1|]. intros Hb. rewrite (C2 Hb). lia.
Qed.
End Loop.

Lemma run_ok cyc extra tol tolg r check s dm : let o := run mf None cyc extra tol tolg (S r) check s dm in
  exists s0 v0 e0 k, start mf s dm = (s0, v0, e0) /\ (k <= r)%nat /\ o_cycles o = Some (S k) /\
    (o_conv o = true <-> converged_at tol tolg cyc s0 dm v0 e0 k) /\
    (forall j, (j < k)%nat -> ~ converged_at tol tolg cyc s0 dm v0 e0 j) /\
    (o_conv o = false -> k = r) /\
    let l := if (o_conv o && check)%bool then extra (after cyc s0 dm v0 k) else after cyc s0 dm v0 k in
    o_e o = l_e l /\ o_mo o = l_mo l /\ o_st o = l_st l.
Proof.
  cbv zeta. unfold run, start. destruct (get_hcore mf dm s) as [h s1]. destruct (get_veff mf dm None s1) as [v s2].
  destruct (energy_tot mf dm h v s2) as [e s3]. destruct (get_fock mf h v dm s3) as [f s4].
  destruct (loop_spec cyc tol tolg s4 dm v e r 0 s4 dm v e eq_refl) as (b & k & L & B & N & C1 & C2). rewrite L.
  exists s4, v, e, k. split; [reflexivity|]. split; [lia|].
  destruct b; cbn [andb].
  - destruct check; cbn [o_conv o_e o_mo o_st o_cycles andb test_extra].
    + match goal with |- context [if ?x then true else true] => destruct x end; (split; [reflexivity|]; split; [tauto|]; split; [intros; apply N; lia|]; split; [discriminate|]; auto).
    + split; [reflexivity|]; split; [tauto|]; split; [intros; apply N; lia|]; split; [discriminate|]; auto.
  - cbn [o_conv o_e o_mo o_st o_cycles andb]. split; [reflexivity|]; split; [tauto|]; split; [intros; apply N; lia|]; split; [intros; apply C2; reflexivity|]; auto.
Qed.

(** with check_convergence *)
Lemma run_check f cyc extra tol tolg r check s dm : let o := run mf (Some f) cyc extra tol tolg (S r) check s dm in
  exists k, o_cycles o = Some (S k) /\ (k <= r)%nat.
Proof.
  cbv zeta. unfold run. destruct (get_hcore mf dm s) as [h s1]. destruct (get_veff mf dm None s1) as [v s2].
  destruct (energy_tot mf dm h v s2) as [e s3]. destruct (get_fock mf h v dm s3) as [f' s4].
  assert (H : forall r c s dm v e, exists b l k, loop (Some f) cyc tol tolg r c s dm v e = (b, l, k) /\ (k <= c + r)%nat).
  { clear. induction r as [|r IH]; intros; cbn [loop].
    - destruct (test_cycle _ _ _ _ _ _ _); do 3 eexists; split; try reflexivity; lia.
    - destruct (test_cycle _ _ _ _ _ _ _); [do 3 eexists; split; [reflexivity|lia]|].
      destruct (IH (S c) (l_st (cyc c s dm v)) (l_dm (cyc c s dm v)) (l_vhf (cyc c s dm v)) (l_e (cyc c s dm v))) as (b & l & k & E & B).
      exists b, l, k. split; [exact E|lia]. }
  destruct (H r 0%nat s4 dm v e) as (b & l & k & -> & B). exists k. destruct (b && check)%bool; split; (reflexivity || lia).
Qed.

(** energies *)
Lemma qed_cycle_energy c s dm v : exists s', l_dm (qed_cycle mf c s dm v) = make_rdm1 mf (l_mo (qed_cycle mf c s dm v)) /\
  l_e (qed_cycle mf c s dm v) = energy_of mf (l_dm (qed_cycle mf c s dm v)) (Some (dm, v)) (update_cs mf (l_dm (qed_cycle mf c s dm v)) s').
Proof.
  unfold qed_cycle. destruct (get_hcore mf dm _) as [h s1]. destruct (get_fock_scf mf h v dm c s1) as [f s2]. cbv zeta.
  exists s2. destruct (get_hcore mf _ _) as [h' s3] eqn:E1. destruct (get_veff mf _ _ s3) as [v' s4] eqn:E2.
  destruct (energy_tot mf _ h' v' s4) as [e s5] eqn:E3. destruct (get_fock mf h' v' _ _) as [f' s6].
  cbn [l_dm l_e l_mo]. unfold energy_of. rewrite E1, E2, E3. split; reflexivity.
Qed.
Lemma qed_extra_energy l : exists s', l_dm (qed_extra mf l) = make_rdm1 mf (l_mo (qed_extra mf l)) /\
  l_e (qed_extra mf l) = energy_of mf (l_dm (qed_extra mf l)) (Some (l_dm l, l_vhf l))
    (update_boson_coeff mf (l_dm (qed_extra mf l)) (update_cs mf (l_dm (qed_extra mf l)) s')).
Proof.
  unfold qed_extra. exists (l_st l). cbv zeta. destruct (get_hcore mf _ _) as [h' s3] eqn:E1. destruct (get_veff mf _ _ s3) as [v' s4] eqn:E2.
  destruct (energy_tot mf _ h' v' s4) as [e s5] eqn:E3. destruct (get_fock mf h' v' _ _) as [f' s6].
  cbn [l_dm l_e l_mo]. unfold energy_of. rewrite E1, E2, E3. split; reflexivity.
Qed.
Lemma after_cycle (cyc : nat -> St -> Dm -> V -> loc St Dm V Fk Mo) s dm v k : exists c s' dm' v', after cyc s dm v k = cyc c s' dm' v'.
Proof. destruct k; cbn; eauto. Qed.
Lemma qed_energy tol tolg m check cs s dm : let o := qed_kernel mf None tol tolg (S m) check cs s dm in
  exists s' last, o_e o = energy_of mf (make_rdm1 mf (o_mo o)) last s' /\
    exists s'', s' = update_cs mf (make_rdm1 mf (o_mo o)) s'' \/
      s' = update_boson_coeff mf (make_rdm1 mf (o_mo o)) (update_cs mf (make_rdm1 mf (o_mo o)) s'').
Proof.
  cbv zeta. unfold qed_kernel. set (o := run _ _ _ _ _ _ _ _ _ _).
  pose proof (run_ok (qed_cycle mf) (qed_extra mf) tol tolg m check (update_boson_coeff mf dm (if cs then update_cs mf dm (get_h1e_DO mf dm s) else get_h1e_DO mf dm s)) dm) as K. cbv zeta in K. fold o in K. destruct K as (s0 & v0 & e0 & k & _ & _ & _ & _ & _ & _ & L).
  set (l := if (o_conv o && check)%bool then qed_extra mf (after (qed_cycle mf) s0 dm v0 k) else after (qed_cycle mf) s0 dm v0 k) in L. destruct L as (E & M & _).
  assert (X : exists s' last, l_dm l = make_rdm1 mf (l_mo l) /\ l_e l = energy_of mf (l_dm l) last s' /\
    exists s'', s' = update_cs mf (l_dm l) s'' \/ s' = update_boson_coeff mf (l_dm l) (update_cs mf (l_dm l) s'')).
  { unfold l. destruct (o_conv o && check)%bool.
    - destruct (qed_extra_energy (after (qed_cycle mf) s0 dm v0 k)) as (s' & A & B). do 2 eexists. split; [exact A|]. split; [exact B|]. exists s'. right. reflexivity.
    - destruct (after_cycle (qed_cycle mf) s0 dm v0 k) as (c & s1 & d1 & v1 & ->). destruct (qed_cycle_energy c s1 d1 v1) as (s' & A & B).
      do 2 eexists. split; [exact A|]. split; [exact B|]. exists s'. left. reflexivity. }
  destruct X as (s' & last & A & B & s'' & C). exists s', last. rewrite E, M, <- A. split; [exact B|]. exists s''. exact C.
Qed.
End Driver.

(** ** Strong-coupling methods *)
Section Sc.
Variables (n : nat) (om : R) (h : mat) (eri : nat -> nat -> nat -> nat -> R) (g : nat -> R) (G dG : R -> R).
Variables (Mo : Type) (eig0 : mat -> Mo) (rdm0 : Mo -> mat) (grad0 : Mo -> mat -> R).
Variable dii : nat -> mat -> mat -> (nat -> R) -> (nat -> R) -> mat * (nat -> R).
Variables (diis_start : nat) (precond : R).
Notation sm := (sc_methods n om h eri g G dG Mo eig0 rdm0 grad0 dii diis_start precond).
Notation mixed := (mixed n om h eri G).
Lemma sc_cycle_ok c s dm v : let l := sc_cycle sm c s dm v in
  l_dm l = rdm0 (l_mo l) /\ s_gd (l_st l) = g_dipole g (s_eta s) /\
  s_grad (l_st l) = eta_grad n dm om h eri g (s_eta s) dG /\
  l_e l = mixed (l_dm l) (s_gd (l_st l)) (s_eta (l_st l)).
Proof.
  cbv zeta. unfold sc_cycle. cbn. unfold sc_fock_scf. cbn. destruct (diis_start <=? c)%nat.
  - destruct (dii _ _ _ _ _) as [f' eta']. cbn. repeat split.
  - cbn. repeat split.
Qed.
Lemma sc_extra_ok l : let x := sc_extra sm l in
  l_dm x = rdm0 (l_mo x) /\ l_st x = l_st l /\ l_e x = mixed (l_dm x) (s_gd (l_st x)) (s_eta (l_st x)).
Proof. cbv zeta. unfold sc_extra. cbn. repeat split. Qed.
Lemma sc_reported tol tolg m check cs s dm : let o := sc_kernel sm None tol tolg (S m) check cs s dm in
  exists eta_prev dm_prev,
    s_gd (o_st o) = g_dipole g eta_prev /\
    s_grad (o_st o) = eta_grad n dm_prev om h eri g eta_prev dG /\
    o_e o = mixed (rdm0 (o_mo o)) (g_dipole g eta_prev) (s_eta (o_st o)).
Proof.
  cbv zeta. unfold sc_kernel. set (s1 := if cs then _ else _). set (o := run _ _ _ _ _ _ _ _ _ _).
  pose proof (run_ok sm (sc_cycle sm) (sc_extra sm) tol tolg m check s1 dm) as K. cbv zeta in K. fold o in K.
  destruct K as (s0 & v0 & e0 & k & _ & _ & _ & _ & _ & _ & E & M & T).
  destruct (after_cycle (sc_cycle sm) s0 dm v0 k) as (c & s2 & d2 & v2 & A). rewrite A in *. clear A.
  destruct (sc_cycle_ok c s2 d2 v2) as (C1 & C2 & C3 & C4). exists (s_eta s2), d2.
  destruct (o_conv o && check)%bool.
  - destruct (sc_extra_ok (sc_cycle sm c s2 d2 v2)) as (X1 & X2 & X3). rewrite X2 in X3, T. rewrite T, E, M, <- X1, <- C2. repeat split; assumption.
  - rewrite T, E, M, <- C1, <- C2. repeat split; assumption.
Qed.
Lemma sc_fixed tol tolg m check cs s dm : let o := sc_kernel sm None tol tolg (S m) check cs s dm in
  s_gd (o_st o) = g_dipole g (s_eta (o_st o)) ->
  o_e o = sc_energy n (rdm0 (o_mo o)) om h eri G g (s_eta (o_st o)).
Proof.
  cbv zeta. intros H. destruct (sc_reported tol tolg m check cs s dm) as (e & d & A & _ & B). rewrite B, <- A, H. reflexivity.
Qed.
End Sc.

(** convergence is declared while the parameters run away *)
Definition tiny : R := 1 / 10 ^ 7.
Notation fG := (fun x => exp (- (1/2) * (exp 0 / (1/10) * x) ^ 2)).
Notation fD := (gaussian_derivative_vectorized 1 one 0 (1/10)).
Notation zero2 := (fun _ _ : nat => 0).
Notation zero4 := (fun _ _ _ _ : nat => 0).
Notation two := (fun _ _ : nat => 2).
Definition flat_methods : methods sc_state mat mat mat mat unit :=
  sc_methods 1 (1/10) zero2 zero4 (fun _ => tiny) fG fD unit (fun _ => tt) (fun _ => two) (fun _ _ => 0)
    (fun _ _ f eta _ => (f, eta)) 1 (1/10).
Definition flat_init : sc_state := {| s_eta := fun _ => 0; s_gd := fun _ => 0; s_grad := fun _ => 0 |}.
Lemma fG0 : fG 0 = 1.
Proof. cbv beta. replace (- (1/2) * (exp 0 / (1/10) * 0) ^ 2) with 0 by ring. apply exp_0. Qed.
Lemma fD0 : fD 0 = 0.
Proof. unfold gaussian_derivative_vectorized. cbn [Nat.ltb Nat.leb]. ring. Qed.
Lemma flat_mixed gd eta : mixed 1 (1/10) zero2 zero4 fG two gd eta = 40 * gd 0%nat ^ 2.
Proof.
  unfold mixed, energy, hcore_do, h1e_DO, veff_do, veff_dse, veff_eri, veff_half, diff1, diff2, sumn.
  cbn [seq map lsum fold_right Nat.eqb Nat.ltb Nat.leb].
  replace (eta 0%nat - eta 0%nat + 0) with 0 by ring. 
  rewrite fG0. field.
Qed.
Lemma flat_grad g eta p : p = 0%nat -> eta_grad 1 two (1/10) zero2 zero4 g eta fD p = - 80 * (g 0%nat - eta 0%nat).
Proof.
  intros ->. unfold eta_grad, deta_one, deta_two, h1e_DO, g_dipole, diff1, diff2, sumn.
  cbn [seq map lsum fold_right Nat.eqb Nat.ltb Nat.leb].
  replace (eta 0%nat - eta 0%nat + 0) with 0 by ring. rewrite fD0. field.
Qed.
Lemma sc_runaway m : let o := sc_kernel flat_methods None (1 / 10 ^ 10) (1 / 10 ^ 5) (S m) true false flat_init two in
  o_conv o = true /\
  5 / 10 ^ 5 <= Rabs (eta_grad 1 two (1/10) zero2 zero4 (fun _ => tiny) (s_eta (o_st o)) fD 0) /\
  o_e o <> sc_energy 1 two (1/10) zero2 zero4 fG (fun _ => tiny) (s_eta (o_st o)).
Proof.
  cbv zeta. unfold sc_kernel. cbv iota. set (s1 := get_h1e_DO flat_methods two flat_init). set (o := run _ _ _ _ _ _ _ _ _ _).
  pose proof (run_ok flat_methods (sc_cycle flat_methods) (sc_extra flat_methods) (1 / 10 ^ 10) (1 / 10 ^ 5) m true s1 two) as K. cbv zeta in K. fold o in K.
  destruct K as (s0 & v0 & e0 & k & S & _ & _ & C & N & _ & E & M & T).
  assert (S0 : s0 = s1 /\ e0 = mixed 1 (1/10) zero2 zero4 fG two (s_gd s1) (s_eta s1)) by (cbn in S; injection S; intros; subst; split; reflexivity).
  destruct S0 as [-> ->]. rewrite flat_mixed in *. cbn [s1 s_gd flat_init] in *.
  set (l := after (sc_cycle flat_methods) s1 two v0 0) in *.
  assert (L : l_e l = 40 * tiny ^ 2 /\ l_g l = 80 * tiny /\ s_eta (l_st l) 0%nat = 8 * tiny /\ s_gd (l_st l) 0%nat = tiny).
  { unfold l. cbn [after]. destruct (sc_cycle_ok 1 (1/10) zero2 zero4 (fun _ => tiny) fG fD unit (fun _ => tt) (fun _ => two) (fun _ _ => 0)
      (fun _ _ f eta _ => (f, eta)) 1 (1/10) 0 s1 two v0) as (L1 & L2 & L3 & L4). fold flat_methods in L1, L2, L3, L4.
    rewrite L4, L1, flat_mixed, L2. split; [cbn; unfold g_dipole; cbn; ring|].
    assert (Gr : s_grad (l_st (sc_cycle flat_methods 0 s1 two v0)) 0%nat = - 80 * tiny).
    { rewrite L3, flat_grad by reflexivity. cbn. ring. }
    split; [|split].
    - change (l_g (sc_cycle flat_methods 0 s1 two v0)) with (0 + sc_norm 1 (l_st (sc_cycle flat_methods 0 s1 two v0))).
      unfold sc_norm, sumn. cbn [seq map lsum fold_right]. rewrite Gr.
      replace ((- 80 * tiny) ^ 2 + 0) with (Rsqr (80 * tiny)) by (unfold Rsqr; ring). rewrite sqrt_Rsqr; [cbn [INR]; rewrite sqrt_1; field|unfold tiny; lra].
    - change (s_eta (l_st (sc_cycle flat_methods 0 s1 two v0)) 0%nat) with (0 - 1/10 * s_grad (l_st (sc_cycle flat_methods 0 s1 two v0)) 0%nat).
      rewrite Gr. field.
    - cbn. unfold g_dipole. cbn. ring. }
  destruct L as (L1 & L2 & L3 & L4).
  assert (C0 : converged_at (1 / 10 ^ 10) (1 / 10 ^ 5) (sc_cycle flat_methods) s1 two v0 (40 * g_dipole (fun _ => tiny) (fun _ => 0) 0%nat ^ 2) 0).
  { unfold converged_at. cbv zeta. change (after (sc_cycle flat_methods) s1 two v0 0) with l. rewrite L1, L2. unfold g_dipole, tiny.
    split; [|lra]. replace (40 * (1 / 10 ^ 7) ^ 2 - 40 * (1 / 10 ^ 7 - 0) ^ 2) with 0 by field. rewrite Rabs_R0. lra. }
  assert (k0 : k = 0%nat). { destruct k; [reflexivity|]. exfalso. apply (N 0%nat); [lia|exact C0]. }
  subst k. assert (Co : o_conv o = true) by (apply C; exact C0). rewrite Co in E, M, T. cbn [andb] in E, M, T.
  destruct (sc_extra_ok 1 (1/10) zero2 zero4 (fun _ => tiny) fG fD unit (fun _ => tt) (fun _ => two) (fun _ _ => 0)
      (fun _ _ f eta _ => (f, eta)) 1 (1/10) l) as (X1 & X2 & X3). fold flat_methods in X1, X2, X3.
  fold l in E, M, T. rewrite X2 in T, X3. rewrite X1, flat_mixed, L4 in X3.
  split; [exact Co|]. rewrite T. split.
  - rewrite flat_grad by reflexivity. rewrite L3. unfold tiny.
    rewrite Rabs_right; lra.
  - rewrite E, X3. change (sc_energy 1 two (1/10) zero2 zero4 fG (fun _ => tiny) (s_eta (l_st l))) with
      (mixed 1 (1/10) zero2 zero4 fG two (g_dipole (fun _ => tiny) (s_eta (l_st l))) (s_eta (l_st l))).
    rewrite flat_mixed. unfold g_dipole. rewrite L3. unfold tiny. lra.
Qed.

(** ** The extra cycle does not verify *)
Definition drift : methods unit nat unit unit nat nat :=
  {| get_h1e_DO := fun _ s => s; grad_var_params := fun _ s => s; get_hcore := fun _ s => (tt, s);
     get_veff := fun _ _ s => (tt, s); get_fock_scf := fun _ _ d _ s => (d, s); get_fock := fun _ _ d s => (d, s);
     eig := S; make_rdm1 := fun m => m; update_cs := fun _ s => s; update_boson_coeff := fun _ s => s;
     energy_tot := fun d _ _ s => (if (d <=? 1)%nat then 0 else 1, s); norm_var_params := fun _ => 0;
     norm_grad := fun m _ => if (m <=? 1)%nat then 0 else 1 |}.
Lemma extra_not_verified m : let o := qed_kernel drift None (1 / 10 ^ 10) (1 / 10 ^ 5) (S m) true false tt 0%nat in
  let l := after (qed_cycle drift) tt 0%nat tt 0 in
  o_conv o = true /\ o_e o = l_e (qed_extra drift l) /\
  10 * (1 / 10 ^ 10) <= Rabs (l_e (qed_extra drift l) - l_e l) /\ 3 * (1 / 10 ^ 5) <= l_g (qed_extra drift l).
Proof.
  cbv zeta. unfold qed_kernel. cbv iota. set (o := run _ _ _ _ _ _ _ _ _ _).
  pose proof (run_ok drift (qed_cycle drift) (qed_extra drift) (1 / 10 ^ 10) (1 / 10 ^ 5) m true tt 0%nat) as K. cbv zeta in K.
  change (run drift None (qed_cycle drift) (qed_extra drift) (1 / 10 ^ 10) (1 / 10 ^ 5) (S m) true tt 0%nat) with o in K.
  destruct K as (s0 & v0 & e0 & k & S & _ & _ & C & N & _ & E & _). cbn in S. injection S as <- <- <-.
  assert (C0 : converged_at (1 / 10 ^ 10) (1 / 10 ^ 5) (qed_cycle drift) tt 0%nat tt 0 0).
  { unfold converged_at. cbn [after qed_cycle drift l_e l_g get_hcore get_veff energy_tot get_fock_scf get_fock update_cs update_boson_coeff norm_grad norm_var_params grad_var_params get_h1e_DO eig make_rdm1 Nat.leb].
    split; [replace (0 - 0) with 0 by ring; rewrite Rabs_R0|]; lra. }
  assert (k0 : k = 0%nat). { destruct k; [reflexivity|]. exfalso. apply (N 0%nat); [lia|exact C0]. } subst k.
  assert (Co : o_conv o = true) by (apply C; exact C0). rewrite Co in E. cbn [andb] in E.
  split; [exact Co|]. split; [exact E|]. 
  cbn [after qed_cycle qed_extra drift l_e l_g l_fock l_dm l_vhf l_st get_hcore get_veff energy_tot get_fock_scf get_fock update_cs update_boson_coeff norm_grad norm_var_params grad_var_params get_h1e_DO eig make_rdm1 Nat.leb].
  split; [rewrite Rabs_right|]; lra.
Qed.

(** ** Packing *)
Section Pack.
Context {A : Type}.
Lemma slice_app (a b c : list A) : slice A (length a) (length a + length b) (a ++ b ++ c) = b.
Proof.
  unfold slice. rewrite skipn_app, skipn_all, Nat.sub_diag. cbn [app skipn].
  replace (length a + length b - length a)%nat with (length b) by lia. rewrite firstn_app, Nat.sub_diag, firstn_all, firstn_O. apply app_nil_r.
Qed.
Lemma reshape_ok (x : list A) k : length x = k -> reshape A k x = Ok x.
Proof. intros <-. unfold reshape. rewrite Nat.eqb_refl. reflexivity. Qed.
Lemma same_size (p c : list A) : length p = length c -> (length c =? 0)%nat = true -> p = c.
Proof. intros H E. apply Nat.eqb_eq in E. destruct c; [|discriminate]. destruct p; [reflexivity|discriminate]. Qed.
Notation same p c := (length (v_eta A p) = length (v_eta A c) /\ length (v_f A p) = length (v_f A c) /\ length (v_sq A p) = length (v_sq A c)).
Lemma set_from_ok varf vsq (f : list A) p c : same p c -> (vsq = true -> varf = true) ->
  set_from A varf vsq (f ++ pre_update A varf vsq p) (length f) c =
  Ok {| v_eta := v_eta A p; v_f := if varf then v_f A p else v_f A c; v_sq := if vsq then v_sq A p else v_sq A c |}.
Proof.
  intros (H1 & H2 & H3) Hv. destruct p as [pe pf ps], c as [ce cf cs]. cbn [v_eta v_f v_sq] in *.
  set (P := (f ++ pre_update A varf vsq {| v_eta := pe; v_f := pf; v_sq := ps |})). unfold set_from. cbn [v_eta v_f v_sq].
  assert (LP : length P = (length f + length pe + (if varf then length pf else 0) + (if vsq then length ps else 0))%nat).
  { unfold P, pre_update. cbn. rewrite !app_length. destruct varf, vsq; cbn; lia. }
  assert (E1 : (if (length f <? length P)%nat then reshape A (length ce) (slice A (length f) (length f + length ce) P) else Ok ce) = Ok pe).
  { destruct (Nat.ltb_spec (length f) (length P)) as [L|L].
    - rewrite <- H1. replace (slice A (length f) (length f + length pe) P) with pe; [apply reshape_ok; reflexivity|].
      unfold P, pre_update. cbn. rewrite <- app_assoc. symmetry. apply slice_app.
    - f_equal. symmetry. apply same_size; [assumption|]. apply Nat.eqb_eq. lia. }
  rewrite E1. cbn [rbind].
  assert (E2 : (if ((length f + length ce <? length P)%nat && varf)%bool then reshape A (length cf) (slice A (length f + length ce) (length f + length ce + length cf) P) else Ok cf) = Ok (if varf then pf else cf)).
  { destruct varf; [|rewrite Bool.andb_false_r; reflexivity]. rewrite Bool.andb_true_r.
    destruct (Nat.ltb_spec (length f + length ce) (length P)) as [L|L].
    - rewrite <- H1, <- H2. replace (slice A _ _ P) with pf; [apply reshape_ok; reflexivity|].
      unfold P, pre_update. cbn. rewrite <- !app_assoc, (app_assoc f pe), <- app_length. symmetry. apply slice_app.
    - f_equal. symmetry. apply same_size; [assumption|]. apply Nat.eqb_eq. lia. }
  rewrite E2. cbn [rbind].
  assert (E3 : (if ((length f + length ce + length cf <? length P)%nat && vsq)%bool then reshape A (length cs) (skipn (length f + length ce + length cf) P) else Ok cs) = Ok (if vsq then ps else cs)).
  { destruct vsq; [|rewrite Bool.andb_false_r; reflexivity]. pose proof (Hv eq_refl) as Hf. subst varf. rewrite Bool.andb_true_r.
    destruct (Nat.ltb_spec (length f + length ce + length cf) (length P)) as [L|L].
    - replace (skipn _ P) with ps; [apply reshape_ok; assumption|].
      unfold P, pre_update. cbn. rewrite <- !app_assoc, (app_assoc f pe), (app_assoc (f ++ pe) pf), <- H1, <- H2, <- !app_length, skipn_app, skipn_all, Nat.sub_diag. reflexivity.
    - f_equal. symmetry. apply same_size; [assumption|]. apply Nat.eqb_eq. lia. }
  rewrite E3. reflexivity.
Qed.
Lemma set_params_ok varf vsq (f : list A) p c : same p c -> (vsq = true -> varf = true) ->
  set_params A varf vsq (diis_vector A f (pre_update A varf vsq p)) (length f) c =
  Ok (f, {| v_eta := v_eta A p; v_f := if varf then v_f A p else v_f A c; v_sq := if vsq then v_sq A p else v_sq A c |}).
Proof.
  intros H Hv. unfold set_params, diis_vector.
  replace (slice A 0 (length f) _) with f by (unfold slice; rewrite Nat.sub_0_r; cbn [skipn]; rewrite firstn_app, Nat.sub_diag, firstn_all, firstn_O, app_nil_r; reflexivity).
  rewrite reshape_ok by reflexivity. cbn [rbind]. rewrite set_from_ok by assumption. reflexivity.
Qed.
Lemma set_var_params_ok varf vsq p c : same p c -> (vsq = true -> varf = true) ->
  set_var_params A varf vsq ([v_eta A p] ++ (if varf then [v_f A p] else []) ++ (if vsq then [v_sq A p] else [])) c =
  Ok {| v_eta := v_eta A p; v_f := if varf then v_f A p else v_f A c; v_sq := if vsq then v_sq A p else v_sq A c |}.
Proof.
  intros H Hv. rewrite <- (set_from_ok varf vsq [] p c H Hv). unfold set_var_params. f_equal.
  unfold pre_update. destruct varf, vsq; cbn; rewrite ?app_nil_r, ?app_assoc; reflexivity.
Qed.
(** squeezing alone: the parameter is dropped *)
Lemma set_params_bad (f : list A) p c : same p c -> (0 < length (v_f A p))%nat -> length (v_sq A p) = length (v_f A p) ->
  set_params A false true (diis_vector A f (pre_update A false true p)) (length f) c =
  Ok (f, {| v_eta := v_eta A p; v_f := v_f A c; v_sq := v_sq A c |}).
Proof.
  intros (H1 & H2 & H3) L S. destruct p as [pe pf ps], c as [ce cf cs]. cbn in *. unfold set_params, diis_vector, pre_update. cbn [v_eta v_sq v_f]. rewrite app_nil_r.
  replace (slice A 0 (length f) _) with f by (unfold slice; rewrite Nat.sub_0_r; cbn [skipn]; rewrite firstn_app, Nat.sub_diag, firstn_all, firstn_O, app_nil_r; reflexivity).
  rewrite reshape_ok by reflexivity. cbn [rbind]. unfold set_from. cbn [v_eta v_f v_sq].
  destruct (Nat.ltb_spec (length f) (length (f ++ pe ++ ps))) as [_|B]; [|rewrite !app_length in B; lia].
  rewrite <- H1. rewrite slice_app, reshape_ok by reflexivity. cbn [rbind]. rewrite Bool.andb_false_r. cbn [rbind].
  destruct (Nat.ltb_spec (length f + length pe + length cf) (length (f ++ pe ++ ps))) as [B|_]; [rewrite !app_length in B; lia|]. reflexivity.
Qed.
End Pack.
Lemma squeezing_lost : exists (f : list R) p c out, 
  length (v_eta R p) = length (v_eta R c) /\ length (v_f R p) = length (v_f R c) /\ length (v_sq R p) = length (v_sq R c) /\
  set_params R false true (diis_vector R f (pre_update R false true p)) (length f) c = Ok (f, out) /\ v_sq R out <> v_sq R p.
Proof.
  exists [1; 2; 3; 4], {| v_eta := [1; 2]; v_f := [1]; v_sq := [5] |}, {| v_eta := [1; 2]; v_f := [1]; v_sq := [3] |}.
  eexists. split; [reflexivity|]. split; [reflexivity|]. split; [reflexivity|]. split.
  - apply set_params_bad; cbn; lia || (repeat split; reflexivity).
  - cbn. intros H. injection H. lra.
Qed.

(** ** Degenerate blocks *)
Section Blocks.
Variables (thr : R) (e : list R).
Hypothesis distinct : forall i, (S i < length e)%nat -> Rabs (nth (S i) e 0 - nth i e 0) <> thr.
Lemma blocks_ok l : forall p d r t, skipn p e = l -> (p < length e)%nat -> (1 <= d <= p + 1)%nat ->
  (forall i, (p + 1 - d <= i < p)%nat -> close_at thr e i) -> ((p + 1 - d)%nat = 0%nat \/ ~ close_at thr e (p - d)) ->
  (In (r, t) (blocks_from thr p d l) <-> degenerate_block thr e r t /\ (p < t < length e)%nat).
Proof.
  induction l as [|a l IH]; intros p d r t E P D C M.
  - apply (f_equal (@length R)) in E. rewrite skipn_length in E. cbn in E. lia.
  - assert (Ll : (length e = p + S (length l))%nat) by (apply (f_equal (@length R)) in E; rewrite skipn_length in E; cbn in E; lia).
    assert (Ea : nth p e 0 = a) by (rewrite <- (firstn_skipn p e), app_nth2; rewrite firstn_length_le by lia; [rewrite Nat.sub_diag, E; reflexivity|lia]).
    assert (El : skipn (S p) e = l).
    { change (S p) with (1 + p)%nat. rewrite <- (firstn_skipn p e) at 1. rewrite skipn_app, firstn_length_le by lia.
      rewrite skipn_all2 by (rewrite firstn_length_le; lia). replace (1 + p - p)%nat with 1%nat by lia. rewrite E. reflexivity. }
    destruct l as [|b l]; [cbn in *; split; [intros []|intros (_ & ?); lia]|].
    assert (Eb : nth (S p) e 0 = b) by (rewrite <- (firstn_skipn (S p) e), app_nth2; rewrite firstn_length_le by (cbn in Ll; lia); [rewrite Nat.sub_diag, El; reflexivity|lia]).
    assert (Cp : close_at thr e p <-> Rabs (b - a) < thr) by (unfold close_at; rewrite Ea, Eb; reflexivity).
    assert (Dp : Rabs (b - a) <> thr) by (rewrite <- Ea, <- Eb; apply distinct; cbn in Ll; lia).
    cbn [length] in Ll. cbn [blocks_from]. destruct (Rlt_dec (Rabs (b - a)) thr) as [L|L].
    + rewrite (IH (S p) (S d) r t) by (first [assumption | lia |
        intros i Hi; destruct (Nat.eq_dec i p) as [->|]; [tauto|apply C; lia] |
        replace (S p + 1 - S d)%nat with (p + 1 - d)%nat by lia; replace (S p - S d)%nat with (p - d)%nat by lia; assumption ]).
      split; intros [B T]; (split; [exact B|]); [lia|]. destruct (Nat.eq_dec t (S p)) as [->|]; [|lia].
      destruct B as (_ & _ & _ & _ & [B|B]); [lia|]. exfalso. apply B. replace (S p - 1)%nat with p by lia. tauto.
    + assert (NC : ~ close_at thr e p) by tauto.
      assert (Q : forall r t, In (r, t) (blocks_from thr (S p) 1 (b :: l)) <-> degenerate_block thr e r t /\ (S p < t < length e)%nat).
      { intros r' t'. apply IH; first [assumption | lia | intros; lia | idtac]. right. replace (S p - 1)%nat with p by lia. exact NC. }
      destruct (Rlt_dec thr (Rabs (b - a))) as [_|G]; [|lra]. destruct (Nat.ltb_spec 1 d) as [d1|d1].
      * cbn [In]. rewrite Q. split.
        -- intros [H|[B T]]; [|split; [exact B|lia]]. injection H as <- <-. split; [|lia].
           split; [lia|]. split; [lia|]. split; [intros i; intros; apply C; lia|]. split.
           ++ replace (p + 1 - d - 1)%nat with (p - d)%nat by lia. exact M.
           ++ right. replace (p + 1 - 1)%nat with p by lia. exact NC.
        -- intros [B T]. destruct (Nat.eq_dec t (S p)) as [->|]; [|right; split; [exact B|lia]]. left.
           destruct B as (B1 & _ & B3 & B4 & _). f_equal; [|lia].
           destruct (lt_eq_lt_dec r (p + 1 - d)) as [[Lr|Er]|Gr]; [|auto|].
           ++ exfalso. destruct M as [M|M]; [lia|]. apply M, B3; lia.
           ++ exfalso. destruct B4 as [B4|B4]; [lia|]. apply B4, C. lia.
      * replace d with 1%nat in * by lia. rewrite Q. split; intros [B T]; (split; [exact B|]); [lia|].
        destruct (Nat.eq_dec t (S p)) as [->|]; [|lia]. exfalso. destruct B as (B1 & _ & B3 & _ & _).
        destruct M as [M|M]; [lia|]. apply M, B3; lia.
Qed.
Lemma resolved_ok r t : In (r, t) (resolved_blocks thr e) <-> degenerate_block thr e r t /\ (t < length e)%nat.
Proof.
  unfold resolved_blocks. destruct (Nat.eq_dec (length e) 0) as [L|L].
  - apply length_zero_iff_nil in L. rewrite L. cbn. split; [intros []|intros [_ ?]; lia].
  - rewrite (blocks_ok e 0 1 r t); first [reflexivity | lia | intros; lia | left; reflexivity | idtac].
    split; intros [B T]; (split; [exact B|]); [lia|]. destruct B as (B & _). lia.
Qed.
End Blocks.
Lemma trailing_missed thr : 0 < thr -> exists e r t, degenerate_block thr e r t /\ ~ In (r, t) (resolved_blocks thr e).
Proof.
  intros P. exists [0; 0], 0%nat, 2%nat. split.
  - split; [lia|]. split; [cbn; lia|]. split; [|split; left; reflexivity].
    intros [|i] _ H; [|lia]. unfold close_at. cbn. rewrite Rminus_diag_eq, Rabs_R0 by reflexivity. exact P.
  - unfold resolved_blocks. cbn. destruct (Rlt_dec _ _) as [_|N]; [intros []|]. rewrite Rminus_diag_eq, Rabs_R0 in N by reflexivity. lra.
Qed.

(** equal to the threshold: the count carries over to an unrelated level *)
Lemma tie_wrong thr : 0 < thr -> exists e r t, In (r, t) (resolved_blocks thr e) /\ ~ degenerate_block thr e r t.
Proof.
  intros P. exists [0; 0; thr; 3 * thr; 5 * thr], 1%nat, 3%nat. split.
  - unfold resolved_blocks. cbn [blocks_from].
    replace (0 - 0) with 0 by ring. replace (thr - 0) with thr by ring. replace (3 * thr - thr) with (2 * thr) by ring. replace (5 * thr - 3 * thr) with (2 * thr) by ring.
    rewrite Rabs_R0, (Rabs_right thr), (Rabs_right (2 * thr)) by lra.
    destruct (Rlt_dec 0 thr); [|lra]. destruct (Rlt_dec thr thr); [lra|]. destruct (Rlt_dec (2 * thr) thr); [lra|].
    destruct (Rlt_dec thr (2 * thr)); [|lra]. cbn. left. reflexivity.
  - intros (_ & _ & B & _). specialize (B 1%nat (le_n _) (le_n _)). unfold close_at in B. cbn in B.
    replace (thr - 0) with thr in B by ring. rewrite Rabs_right in B; lra.
Qed.

(** ** Options and factory *)
Lemma damping_fails {F} (f : F) c ds damp level : (S c < ds)%nat -> 1 / 10000 < Rabs damp -> fock_options c ds damp level f = Err NameError.
Proof.
  intros H D. unfold fock_options. destruct (Nat.ltb_spec c (ds - 1)); [|lia]. apply below_iff in D. rewrite D. reflexivity.
Qed.
Lemma level_fails {F} (f : F) c ds damp level : 1 / 10000 < Rabs level -> fock_options c ds damp level f = Err NameError.
Proof.
  intros D. unfold fock_options. destruct (_ && _)%bool; [reflexivity|]. apply below_iff in D. rewrite D. reflexivity.
Qed.
Lemma options_off {F} (f : F) c ds damp level : Rabs damp <= 1 / 10000 -> Rabs level <= 1 / 10000 -> fock_options c ds damp level f = Ok f.
Proof.
  intros D L. unfold fock_options. rewrite (proj2 (below_no (1 / 10000) (Rabs damp))) by lra. rewrite Bool.andb_false_r.
  rewrite (proj2 (below_no (1 / 10000) (Rabs level))) by lra. reflexivity.
Qed.
Lemma factory_fails n sp xc : HF n sp xc = Err (if ((n =? 1)%nat || (sp =? 0)%Z)%bool then TypeError else NotImplementedError).
Proof. unfold HF. destruct (_ || _)%bool; [destruct xc|]; reflexivity. Qed.

(** max_cycle = 0 *)
Lemma run_zero {St Dm Hc V Fk Mo} (mf : methods St Dm Hc V Fk Mo) check cyc extra tol tolg b s dm :
  let o := run mf check cyc extra tol tolg 0 b s dm in
  o_conv o = false /\ o_e o = snd (start mf s dm).
Proof.
  cbv zeta. unfold run, start. destruct (get_hcore mf dm s). destruct (get_veff mf dm None s0). destruct (energy_tot mf dm h v s1). destruct (get_fock mf h v dm s2).
  cbn. split; reflexivity.
Qed.

(** ** Restatements for the kernels *)
Lemma qed_flag {St Dm Hc V Fk Mo} (mf : methods St Dm Hc V Fk Mo) tol tolg m check cs s dm :
  let o := qed_kernel mf None tol tolg (S m) check cs s dm in
  exists s1 s0 v0 e0 k, start mf s1 dm = (s0, v0, e0) /\ (k <= m)%nat /\ o_cycles o = Some (S k) /\
    (o_conv o = true <-> converged_at tol tolg (qed_cycle mf) s0 dm v0 e0 k) /\
    (forall j, (j < k)%nat -> ~ converged_at tol tolg (qed_cycle mf) s0 dm v0 e0 j) /\
    (o_conv o = false -> k = m) /\
    let l := if (o_conv o && check)%bool then qed_extra mf (after (qed_cycle mf) s0 dm v0 k) else after (qed_cycle mf) s0 dm v0 k in
    o_e o = l_e l /\ o_mo o = l_mo l /\ o_st o = l_st l.
Proof. cbv zeta. unfold qed_kernel. eexists. apply (run_ok mf (qed_cycle mf) (qed_extra mf)). Qed.
Lemma sc_flag {St Dm Hc V Fk Mo} (mf : methods St Dm Hc V Fk Mo) tol tolg m check cs s dm :
  let o := sc_kernel mf None tol tolg (S m) check cs s dm in
  exists s1 s0 v0 e0 k, start mf s1 dm = (s0, v0, e0) /\ (k <= m)%nat /\ o_cycles o = Some (S k) /\
    (o_conv o = true <-> converged_at tol tolg (sc_cycle mf) s0 dm v0 e0 k) /\
    (forall j, (j < k)%nat -> ~ converged_at tol tolg (sc_cycle mf) s0 dm v0 e0 j) /\
    (o_conv o = false -> k = m) /\
    let l := if (o_conv o && check)%bool then sc_extra mf (after (sc_cycle mf) s0 dm v0 k) else after (sc_cycle mf) s0 dm v0 k in
    o_e o = l_e l /\ o_mo o = l_mo l /\ o_st o = l_st l.
Proof. cbv zeta. unfold sc_kernel. eexists. apply (run_ok mf (sc_cycle mf) (sc_extra mf)). Qed.
Lemma both_bound {St Dm Hc V Fk Mo} (mf : methods St Dm Hc V Fk Mo) f tol tolg m check cs s dm : exists k k', (k <= m)%nat /\ (k' <= m)%nat /\
  o_cycles (qed_kernel mf (Some f) tol tolg (S m) check cs s dm) = Some (S k) /\
  o_cycles (sc_kernel mf (Some f) tol tolg (S m) check cs s dm) = Some (S k').
Proof.
  unfold qed_kernel, sc_kernel.
  destruct (run_check mf f (qed_cycle mf) (qed_extra mf) tol tolg m check (update_boson_coeff mf dm (if cs then update_cs mf dm (get_h1e_DO mf dm s) else get_h1e_DO mf dm s)) dm) as (k & A & B).
  destruct (run_check mf f (sc_cycle mf) (sc_extra mf) tol tolg m check (if cs then update_cs mf dm (get_h1e_DO mf dm s) else get_h1e_DO mf dm s) dm) as (k' & A' & B').
  exists k, k'. auto.
Qed.
Lemma both_zero {St Dm Hc V Fk Mo} (mf : methods St Dm Hc V Fk Mo) check tol tolg b cs s dm :
  (exists s', o_conv (qed_kernel mf check tol tolg 0 b cs s dm) = false /\ o_e (qed_kernel mf check tol tolg 0 b cs s dm) = energy_of mf dm None s') /\
  (exists s', o_conv (sc_kernel mf check tol tolg 0 b cs s dm) = false /\ o_e (sc_kernel mf check tol tolg 0 b cs s dm) = energy_of mf dm None s').
Proof.
  assert (H : forall s, snd (start mf s dm) = energy_of mf dm None s).
  { intros s'. unfold start, energy_of. destruct (get_hcore mf dm s'). destruct (get_veff mf dm None s0). destruct (energy_tot mf dm h v s1). destruct (get_fock mf h v dm s2). reflexivity. }
  unfold qed_kernel, sc_kernel. split.
  - eexists. rewrite <- H. apply (run_zero mf check (qed_cycle mf) (qed_extra mf)).
  - eexists. rewrite <- H. apply (run_zero mf check (sc_cycle mf) (sc_extra mf)).
Qed.
Lemma params_restored {A} varf vsq (f : list A) p c : same_sizes p c -> (vsq = true -> varf = true) ->
  exists out, set_params A varf vsq (diis_vector A f (pre_update A varf vsq p)) (length f) c = Ok (f, out) /\ restored varf vsq p c out.
Proof.
  intros H V. eexists. split; [apply set_params_ok; assumption|]. unfold restored. cbn. destruct varf, vsq; auto.
Qed.
Lemma var_params_restored {A} varf vsq (p c : vparams A) : same_sizes p c -> (vsq = true -> varf = true) ->
  exists out, set_var_params A varf vsq ([v_eta A p] ++ (if varf then [v_f A p] else []) ++ (if vsq then [v_sq A p] else [])) c = Ok out /\ restored varf vsq p c out.
Proof.
  intros H V. eexists. split; [apply set_var_params_ok; assumption|]. unfold restored. cbn. destruct varf, vsq; auto.
Qed.
Lemma params_lost : exists (f : list R) p c out, same_sizes p c /\
  set_params R false true (diis_vector R f (pre_update R false true p)) (length f) c = Ok (f, out) /\ ~ restored false true p c out.
Proof.
  destruct squeezing_lost as (f & p & c & out & A & B & C & D & E). exists f, p, c, out. split; [split; auto|]. split; [exact D|].
  intros (_ & _ & H). contradiction.
Qed.
Lemma refuted_extra : exists (mf : methods unit nat unit unit nat nat) tol tolg l s0 v0 e0 k,
  0 < tol /\ 0 < tolg /\ start mf tt 0%nat = (s0, v0, e0) /\ l = after (qed_cycle mf) s0 0%nat v0 k /\
  let o := qed_kernel mf None tol tolg 50 true false tt 0%nat in
  o_conv o = true /\ o_e o = l_e (qed_extra mf l) /\
  10 * tol <= Rabs (l_e (qed_extra mf l) - l_e l) /\ 3 * tolg <= l_g (qed_extra mf l).
Proof.
  exists drift, (1 / 10 ^ 10), (1 / 10 ^ 5). eexists. exists tt, tt, 0, 0%nat. split; [lra|]. split; [lra|]. split; [reflexivity|]. split; [reflexivity|].
  apply (extra_not_verified 49).
Qed.
Lemma refuted_sc : exists om h eri g (eig0 : mat -> unit) rdm0 grad0 dii start precond s dm,
  let G := fun x => exp (- (1/2) * (exp 0 / om * x) ^ 2) in
  let dG := gaussian_derivative_vectorized 1 (fun _ => 1) 0 om in
  let o := sc_kernel (sc_methods 1 om h eri g G dG unit eig0 rdm0 grad0 dii start precond) None (1 / 10 ^ 10) (1 / 10 ^ 5) 50 true false s dm in
  0 < om /\ (forall x, FC_factor 1 (fun _ => 1) 0 om x = Ok (G x)) /\ (forall x, derivable_pt_lim G x (dG x)) /\
  o_conv o = true /\
  5 / 10 ^ 5 <= Rabs (eta_grad 1 (rdm0 (o_mo o)) om h eri g (s_eta (o_st o)) dG 0) /\
  o_e o <> sc_energy 1 (rdm0 (o_mo o)) om h eri G g (s_eta (o_st o)).
Proof.
  exists (1/10), zero2, zero4, (fun _ => tiny), (fun _ => tt), (fun _ => two), (fun _ _ => 0), (fun _ _ f eta _ => (f, eta)), 1%nat, (1/10), flat_init, two.
  cbv zeta. split; [lra|]. split; [|split; [|exact (sc_runaway 49)]].
  - intros x. reflexivity.
  - intros x. apply (vac_deriv 1 (fun _ => 1) (1/10)); [lia|reflexivity].
Qed.
