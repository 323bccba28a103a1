(** Proofs about the strong-coupling QED-HF energy and gradients. *)
From Coq Require Import Reals Lra.
From Verif Require Import Base BosonModel BosonSpec BosonProofs ScqModel ScqSpec.
Open Scope R_scope.

(** ** Sums *)
Lemma sum2_ext n f g : (forall p q, (p < n)%nat -> (q < n)%nat -> f p q = g p q) -> sum2 n f = sum2 n g.
Proof. intros H. apply sum_ext. intros. apply sum_ext. intros. apply H; assumption. Qed.
Lemma sum2_add n f g : sum2 n (fun p q => f p q + g p q) = sum2 n f + sum2 n g.
Proof. unfold sum2. rewrite <- sum_add. apply sum_ext. intros. apply sum_add. Qed.
Lemma sum2_mull n c f : sum2 n (fun p q => c * f p q) = c * sum2 n f.
Proof. unfold sum2. rewrite <- sum_mull. apply sum_ext. intros. apply sum_mull. Qed.
Lemma sum2_mulr n c f : sum2 n (fun p q => f p q * c) = sum2 n f * c.
Proof. unfold sum2. rewrite <- sum_mulr. apply sum_ext. intros. apply sum_mulr. Qed.
Lemma sum2_swap n f : sum2 n f = sum2 n (fun p q => f q p).
Proof. apply (sum_swap n n f). Qed.
Lemma sum2_prod n f g : sum_below n f * sum_below n g = sum2 n (fun p q => f p * g q).
Proof. unfold sum2. rewrite <- sum_mulr. apply sum_ext. intros. rewrite sum_mull. reflexivity. Qed.
Lemma sum4_ext n f g : (forall p q r s, f p q r s = g p q r s) -> sum4 n f = sum4 n g.
Proof. intros H. apply sum2_ext. intros. apply sum2_ext. intros. apply H. Qed.
Lemma sum4_add n f g : sum4 n (fun p q r s => f p q r s + g p q r s) = sum4 n f + sum4 n g.
Proof. unfold sum4. rewrite <- sum2_add. apply sum2_ext. intros. apply sum2_add. Qed.
Lemma sum4_mull n c f : sum4 n (fun p q r s => c * f p q r s) = c * sum4 n f.
Proof. unfold sum4. rewrite <- sum2_mull. apply sum2_ext. intros. apply sum2_mull. Qed.
Lemma sum4_flip n f : sum4 n f = sum4 n (fun p q r s => f q p s r).
Proof.
  unfold sum4. rewrite (sum2_swap n (fun p q => sum2 n (fun r s => f p q r s))). apply sum2_ext. intros p q _ _.
  apply (sum2_swap n (fun r s => f q p r s)).
Qed.
Lemma sum2_comm n (f : nat -> nat -> nat -> nat -> R) :
  sum2 n (fun p q => sum2 n (fun r s => f p q r s)) = sum2 n (fun r s => sum2 n (fun p q => f p q r s)).
Proof.
  unfold sum2.
  transitivity (sum_below n (fun p => sum_below n (fun r => sum_below n (fun q => sum_below n (fun s => f p q r s))))).
  { apply sum_ext. intros p _. apply (sum_swap n n (fun q r => sum_below n (fun s => f p q r s))). }
  rewrite (sum_swap n n (fun p r => sum_below n (fun q => sum_below n (fun s => f p q r s)))). apply sum_ext. intros r _.
  transitivity (sum_below n (fun p => sum_below n (fun s => sum_below n (fun q => f p q r s)))).
  { apply sum_ext. intros p _. apply (sum_swap n n (fun q s => f p q r s)). }
  apply (sum_swap n n (fun p s => sum_below n (fun q => f p q r s))).
Qed.
Lemma sum4_pairs n f : sum4 n f = sum4 n (fun p q r s => f r s p q).
Proof. apply (sum2_comm n f). Qed.
Lemma sum_delta n p f : (p < n)%nat -> sum_below n (fun k => f k * (if (k =? p)%nat then 1 else 0)) = f p.
Proof.
  intros H. induction n; [lia|]. cbn [sum_below]. destruct (Nat.eq_dec p n) as [->|E].
  - rewrite Nat.eqb_refl, sum_zero; [lra|]. intros i Hi. destruct (Nat.eqb_spec i n); [lia|lra].
  - rewrite IHn by lia. destruct (Nat.eqb_spec n p); [lia|lra].
Qed.
Lemma sumn2 n f : sumn n (fun p => sumn n (fun q => f p q)) = sum2 n f.
Proof. rewrite sumn_below. apply sum_ext. intros. apply sumn_below. Qed.

(** ** The energy *)
Section Energy.
Variables (n : nat) (D h : mat) (eri : nat -> nat -> nat -> nat -> R) (om : R) (G : R -> R).
Hypotheses (Dsym : sym D) (hsym : sym h) (esym : eri_sym eri) (Geven : even G) (om0 : om <> 0).

Lemma eri_flip p q r s : eri p q r s = eri q p s r.
Proof. destruct (esym p q r s) as [_ ->]. destruct (esym q p r s) as [-> _]. destruct (esym r s q p) as [_ ->]. apply esym. Qed.
Definition W p q r s := eri p q r s - 1/2 * eri p s r q.
Lemma W_flip p q r s : W p q r s = W q p s r.
Proof. unfold W. rewrite (eri_flip p q r s), (eri_flip p s r q). destruct (esym s p q r) as [-> _]. reflexivity. Qed.
Lemma W_pair p q r s : W p q r s = W r s p q.
Proof. unfold W. destruct (esym p q r s) as [-> _]. destruct (esym p s r q) as [-> _]. reflexivity. Qed.

Lemma d2 eta p q r s : diff2 eta p q r s = eta p - eta q + eta r - eta s.
Proof. unfold diff2. lra. Qed.
Lemma d1 eta p q : diff1 eta 0 p q = eta p - eta q.
Proof. unfold diff1. lra. Qed.
Lemma veff_half_ok eta p q : veff_half n D eri eta G p q = 1/2 * sum2 n (fun r s => W p q r s * G (eta p - eta q + eta r - eta s) * D r s).
Proof. unfold veff_half. rewrite sumn2. f_equal. apply sum2_ext. intros r s _ _. rewrite d2. unfold W. lra. Qed.
Lemma half_sym eta p q : veff_half n D eri eta G p q = veff_half n D eri eta G q p.
Proof.
  rewrite !veff_half_ok. f_equal. rewrite sum2_swap. apply sum2_ext. intros r s _ _. rewrite W_flip, (Dsym s r).
  rewrite <- (Geven (eta p - eta q + eta s - eta r)). do 2 f_equal. f_equal. lra.
Qed.
Lemma veff_eri_ok eta p q : veff_eri n D eri eta G p q = sum2 n (fun r s => W p q r s * G (eta p - eta q + eta r - eta s) * D r s).
Proof. unfold veff_eri. rewrite (half_sym eta q p), veff_half_ok. lra. Qed.
Lemma veff_chol_ok nx L eta p q : (forall X, sym (L X)) -> (forall p q r s, eri p q r s = sum_below nx (fun X => L X p q * L X r s)) ->
  veff_chol n D nx L eta G p q = veff_eri n D eri eta G p q.
Proof.
  intros HL HI. rewrite veff_eri_ok. unfold veff_chol. rewrite sumn2. apply sum2_ext. intros r s _ _.
  unfold chol_J, chol_K, W. rewrite !sumn_below, <- !HI. unfold diff1.
  replace (eta r - eta s + (eta p - eta q)) with (eta p - eta q + eta r - eta s) by lra. lra.
Qed.
Lemma veff_dse_ok gd p q : veff_dse n D om gd p q =
  ((if (p =? q)%nat then 2 * gd p * sum_below n (fun r => D r r * gd r) else 0) - gd p * gd q * D p q) / om.
Proof.
  unfold veff_dse. rewrite sumn_below. destruct (Nat.eqb_spec p q) as [->|E]; [field; assumption|].
  destruct (p <? q)%nat; [rewrite (Dsym q p)|]; field; assumption.
Qed.
Lemma sum_diag (f : nat -> R) (F : nat -> nat -> R) : sum2 n (fun p q => (if (p =? q)%nat then f p else 0) * F p q) = sum_below n (fun p => f p * F p p).
Proof.
  apply sum_ext. intros p Hp. transitivity (sum_below n (fun q => (f p * F p q) * (if (q =? p)%nat then 1 else 0))).
  - apply sum_ext. intros q _. rewrite Nat.eqb_sym. destruct (q =? p)%nat; lra.
  - apply (sum_delta n p (fun q => f p * F p q) Hp).
Qed.
Lemma energy_ok g eta : G 0 = 1 -> sc_energy n D om h eri G g eta = expected_energy n D h eri om G g eta.
Proof.
  intros G0. unfold sc_energy, expected_energy, energy. cbv zeta. fold (g_dipole g eta). set (gd := g_dipole g eta).
  change (fun p => g p - eta p) with gd. rewrite !sumn2.
  assert (A : sum2 n (fun p q => hcore_do om h gd eta G p q * D q p) =
     sum2 n (fun p q => h p q * G (eta p - eta q) * D p q) + sum_below n (fun p => gd p ^ 2 * D p p) / om).
  { rewrite <- (sum_diag (fun p => gd p ^ 2) (fun p q => D p q)). unfold Rdiv. rewrite <- sum2_mulr, <- sum2_add.
    apply sum2_ext. intros p q _ _. unfold hcore_do, h1e_DO. rewrite d1, (Dsym q p).
    destruct (Nat.eqb_spec p q) as [->|]; [rewrite Rminus_diag_eq, G0 by reflexivity|]; unfold Rdiv; ring. }
  assert (B : sum2 n (fun p q => veff_do n D om (veff_eri n D eri eta G) gd p q * D q p) =
     2 * (sum2 n (fun p q => gd p * gd q * (D p p * D q q - 1/2 * D p q ^ 2)) / om)
     + sum4 n (fun p q r s => (eri p q r s - 1/2 * eri p s r q) * G (eta p - eta q + eta r - eta s) * D p q * D r s)).
  { transitivity (sum2 n (fun p q => veff_dse n D om gd p q * D p q) + sum2 n (fun p q => veff_eri n D eri eta G p q * D p q)).
    { rewrite <- sum2_add. apply sum2_ext. intros p q _ _. unfold veff_do. rewrite (Dsym q p). ring. }
    f_equal.
    - transitivity (sum2 n (fun p q => (if (p =? q)%nat then 2 * gd p * sum_below n (fun r => D r r * gd r) else 0) * D p q) / om
         + sum2 n (fun p q => - (gd p * gd q * D p q ^ 2)) / om).
      { unfold Rdiv. rewrite <- !sum2_mulr, <- sum2_add. apply sum2_ext. intros p q _ _. rewrite veff_dse_ok. field. assumption. }
      rewrite (sum_diag (fun p => 2 * gd p * sum_below n (fun r => D r r * gd r)) D).
      assert (P : sum_below n (fun p => 2 * gd p * sum_below n (fun r => D r r * gd r) * D p p) = 2 * sum2 n (fun p q => gd p * gd q * (D p p * D q q))).
      { rewrite <- sum2_mull. apply sum_ext. intros p _. transitivity (2 * gd p * D p p * sum_below n (fun r => D r r * gd r)); [ring|].
        rewrite <- sum_mull. apply sum_ext. intros q _. ring. }
      rewrite P. unfold Rdiv. rewrite <- !sum2_mull, <- !sum2_mulr, <- sum2_mull, <- sum2_add. apply sum2_ext. intros p q _ _. field. assumption.
    - unfold sum4. apply sum2_ext. intros p q _ _. rewrite veff_eri_ok, <- sum2_mulr. apply sum2_ext. intros r s _ _. unfold W. ring. }
  rewrite A, B. unfold gd, g_dipole. field. assumption.
Qed.
End Energy.

(** ** Derivatives of sums *)
Lemma deriv_sum2 n (f : nat -> nat -> R -> R) (g : nat -> nat -> R) x :
  (forall p q, (p < n)%nat -> (q < n)%nat -> derivable_pt_lim (f p q) x (g p q)) ->
  derivable_pt_lim (fun y => sum2 n (fun p q => f p q y)) x (sum2 n g).
Proof.
  intros H. apply (deriv_sum n (fun p y => sum_below n (fun q => f p q y)) (fun p _ => sum_below n (g p))). intros p Hp.
  apply (deriv_sum n (fun q y => f p q y) (fun q _ => g p q)). intros q Hq. apply H; assumption.
Qed.
Lemma deriv_sum4 n (f : nat -> nat -> nat -> nat -> R -> R) (g : nat -> nat -> nat -> nat -> R) x :
  (forall p q r s, derivable_pt_lim (f p q r s) x (g p q r s)) ->
  derivable_pt_lim (fun y => sum4 n (fun p q r s => f p q r s y)) x (sum4 n g).
Proof.
  intros H. apply (deriv_sum2 n (fun p q y => sum2 n (fun r s => f p q r s y)) (fun p q => sum2 n (g p q))). intros p q _ _.
  apply deriv_sum2. intros. apply H.
Qed.
Lemma deriv_const c x : derivable_pt_lim (fun _ => c) x 0.
Proof. apply derivable_pt_lim_const. Qed.
Lemma deriv_plus f g x a b : derivable_pt_lim f x a -> derivable_pt_lim g x b -> derivable_pt_lim (fun y => f y + g y) x (a + b).
Proof. apply derivable_pt_lim_plus. Qed.
Lemma deriv_minus f g x a b : derivable_pt_lim f x a -> derivable_pt_lim g x b -> derivable_pt_lim (fun y => f y - g y) x (a - b).
Proof. apply derivable_pt_lim_minus. Qed.
Lemma deriv_mult f g x a b : derivable_pt_lim f x a -> derivable_pt_lim g x b -> derivable_pt_lim (fun y => f y * g y) x (a * g x + f x * b).
Proof. apply derivable_pt_lim_mult. Qed.
Lemma deriv_scal c f x a : derivable_pt_lim f x a -> derivable_pt_lim (fun y => c * f y) x (c * a).
Proof. intros H. eapply deriv_ext; [reflexivity| |exact (deriv_mult _ _ x 0 a (deriv_const c x) H)]. cbv beta. ring. Qed.
Lemma deriv_scalr c f x a : derivable_pt_lim f x a -> derivable_pt_lim (fun y => f y * c) x (a * c).
Proof. intros H. eapply deriv_ext; [reflexivity| |exact (deriv_mult _ _ x a 0 H (deriv_const c x))]. cbv beta. ring. Qed.
Lemma deriv_comp G dG (f : R -> R) x a : deriv G dG -> derivable_pt_lim f x a -> derivable_pt_lim (fun y => G (f y)) x (dG (f x) * a).
Proof. intros HG Hf. apply (derivable_pt_lim_comp f G x a (dG (f x)) Hf). apply HG. Qed.
Definition delta (p k : nat) : R := if (k =? p)%nat then 1 else 0.
Lemma deriv_entry eta p k x : derivable_pt_lim (fun y => set_at eta p y k) x (delta p k).
Proof. unfold set_at, delta. destruct (k =? p)%nat; [apply derivable_pt_lim_id|apply deriv_const]. Qed.
Lemma set_same eta p k : set_at eta p (eta p) k = eta k.
Proof. unfold set_at. destruct (Nat.eqb_spec k p) as [->|]; reflexivity. Qed.

(** ** Gradients *)
Section Gradient.
Variables (n : nat) (D h : mat) (eri : nat -> nat -> nat -> nat -> R) (om : R) (G dG : R -> R).
Hypotheses (Dsym : sym D) (hsym : sym h) (esym : eri_sym eri) (Geven : even G) (om0 : om <> 0) (HG : deriv G dG) (G0 : G 0 = 1).
Notation W := (W eri).

Lemma dG_odd x : dG (- x) = - dG x.
Proof.
  apply (uniqueness_limite G (- x)); [apply HG|].
  assert (H : derivable_pt_lim (fun y => G (-1 * y)) (- x) (dG (-1 * - x) * (-1 * 1))).
  { apply (deriv_comp G dG (fun y => -1 * y)); [assumption|]. apply deriv_scal. apply derivable_pt_lim_id. }
  eapply deriv_ext; [| |exact H].
  - intros y. rewrite <- (Geven y). f_equal. lra.
  - replace (-1 * - x) with x by lra. lra.
Qed.
Lemma dG_0 : dG 0 = 0.
Proof. pose proof (dG_odd 0) as H. rewrite Ropp_0 in H. lra. Qed.

(** derivative along any path *)
Lemma energy_deriv (g eta dg deta : nat -> R) (gt et : nat -> R -> R) x :
  (forall k, derivable_pt_lim (gt k) x (dg k)) -> (forall k, derivable_pt_lim (et k) x (deta k)) ->
  (forall k, gt k x = g k) -> (forall k, et k x = eta k) ->
  derivable_pt_lim (fun y => expected_energy n D h eri om G (fun k => gt k y) (fun k => et k y)) x
   (let d p := g p - eta p in let dd p := dg p - deta p in
    sum2 n (fun p q => h p q * D p q * dG (eta p - eta q) * (deta p - deta q))
    + (sum_below n (fun p => 2 * d p * dd p * D p p)
       + sum2 n (fun p q => (dd p * d q + d p * dd q) * (D p p * D q q - 1/2 * D p q ^ 2))) / om
    + 1/2 * sum4 n (fun p q r s => W p q r s * D p q * D r s * dG (eta p - eta q + eta r - eta s) * (deta p - deta q + deta r - deta s))).
Proof.
  intros Hg He Eg Ee. cbv zeta. unfold expected_energy.
  assert (Hd : forall k, derivable_pt_lim (fun y => gt k y - et k y) x (dg k - deta k)).
  { intros k. apply deriv_minus; auto. }
  apply deriv_plus; [apply deriv_plus|].
  - apply (deriv_sum2 n (fun p q y => h p q * G (et p y - et q y) * D p q)). intros p q _ _.
    eapply deriv_ext; [reflexivity| |apply deriv_scalr; apply deriv_scal; apply (deriv_comp G dG); [exact HG|apply deriv_minus; apply He]].
    cbv beta. rewrite !Ee. ring.
  - unfold Rdiv. apply deriv_scalr. apply deriv_plus.
    + apply (deriv_sum n (fun p y => (gt p y - et p y) ^ 2 * D p p) (fun p _ => 2 * (g p - eta p) * (dg p - deta p) * D p p)). intros p _.
      eapply deriv_ext; [intros y; reflexivity| |apply deriv_scalr; apply (derivable_pt_lim_comp (fun y => gt p y - et p y) (fun z => z ^ 2) x (dg p - deta p) (2 * (gt p x - et p x))); [apply Hd|apply sq_deriv]].
      cbv beta. rewrite Eg, Ee. ring.
    + apply (deriv_sum2 n (fun p q y => (gt p y - et p y) * (gt q y - et q y) * (D p p * D q q - 1 * / 2 * D p q ^ 2))). intros p q _ _.
      eapply deriv_ext; [reflexivity| |apply deriv_scalr; apply deriv_mult; apply Hd]. cbv beta. rewrite !Eg, !Ee. unfold Rdiv. ring.
  - apply deriv_scal. apply (deriv_sum4 n (fun p q r s y => (eri p q r s - 1/2 * eri p s r q) * G (et p y - et q y + et r y - et s y) * D p q * D r s)). intros p q r s.
    eapply deriv_ext; [reflexivity| |do 2 apply deriv_scalr; apply deriv_scal; apply (deriv_comp G dG); [exact HG|apply deriv_minus; [apply deriv_plus; [apply deriv_minus|]|]; apply He]].
    cbv beta. rewrite !Ee. unfold ScqProofs.W. ring.
Qed.

Lemma eta_gradient g eta p : (p < n)%nat ->
  derivable_pt_lim (fun x => sc_energy n D om h eri G g (set_at eta p x)) (eta p) (eta_grad n D om h eri g eta dG p).
Proof.
  intros Hp.
  eapply (deriv_ext (fun x => expected_energy n D h eri om G (fun k => g k) (fun k => set_at eta p x k))); [intros x; symmetry; apply (energy_ok n D h eri om G Dsym esym Geven om0); exact G0| |
    apply (energy_deriv g eta (fun _ => 0) (delta p) (fun k _ => g k) (fun k x => set_at eta p x k)); [intros; apply deriv_const|intros; apply deriv_entry|reflexivity|apply set_same]].
  cbv zeta. unfold eta_grad, deta_one, deta_two. fold (g_dipole g eta). set (gd := g_dipole g eta). change (fun k => g k - eta k) with gd.
  assert (C1 : sum2 n (fun a b => h a b * D a b * dG (eta a - eta b) * (delta p a - delta p b)) = sum_below n (fun q => 2 * h p q * D p q * dG (eta p - eta q))).
  { transitivity (sum2 n (fun a b => 2 * h a b * D a b * dG (eta a - eta b) * delta p a)).
    - transitivity (sum2 n (fun a b => h a b * D a b * dG (eta a - eta b) * delta p a) + sum2 n (fun a b => - (h a b * D a b * dG (eta a - eta b) * delta p b))).
      { rewrite <- sum2_add. apply sum2_ext. intros. ring. }
      rewrite (sum2_swap n (fun a b => - (h a b * D a b * dG (eta a - eta b) * delta p b))), <- sum2_add. apply sum2_ext. intros a b _ _.
      rewrite (hsym b a), (Dsym b a). replace (eta b - eta a) with (- (eta a - eta b)) by lra. rewrite dG_odd. ring.
    - unfold sum2. transitivity (sum_below n (fun a => sum_below n (fun b => 2 * h a b * D a b * dG (eta a - eta b)) * (if (a =? p)%nat then 1 else 0))).
      + apply sum_ext. intros a _. rewrite <- sum_mulr. reflexivity.
      + apply (sum_delta n p (fun a => sum_below n (fun b => 2 * h a b * D a b * dG (eta a - eta b))) Hp). }
  assert (C2 : sum_below n (fun a => 2 * (g a - eta a) * (0 - delta p a) * D a a) = - (2 * D p p * gd p)).
  { transitivity (sum_below n (fun a => - (2 * D a a * gd a) * (if (a =? p)%nat then 1 else 0))).
    - apply sum_ext. intros a _. unfold delta, gd, g_dipole. ring.
    - apply (sum_delta n p (fun a => - (2 * D a a * gd a)) Hp). }
  assert (C3 : sum2 n (fun a b => ((0 - delta p a) * (g b - eta b) + (g a - eta a) * (0 - delta p b)) * (D a a * D b b - 1/2 * D a b ^ 2)) =
     sum_below n (fun q => - ((2 * D p p * D q q - D p q * D q p) * gd q))).
  { transitivity (sum2 n (fun a b => - ((2 * D a a * D b b - D a b ^ 2) * gd b) * delta p a)).
    - transitivity (sum2 n (fun a b => - (delta p a * gd b * (D a a * D b b - 1/2 * D a b ^ 2))) + sum2 n (fun a b => - (gd a * delta p b * (D a a * D b b - 1/2 * D a b ^ 2)))).
      { rewrite <- sum2_add. apply sum2_ext. intros. unfold gd, g_dipole. ring. }
      rewrite (sum2_swap n (fun a b => - (gd a * delta p b * _))), <- sum2_add. apply sum2_ext. intros a b _ _. rewrite (Dsym b a). lra.
    - unfold sum2. transitivity (sum_below n (fun a => sum_below n (fun b => - ((2 * D a a * D b b - D a b ^ 2) * gd b)) * (if (a =? p)%nat then 1 else 0))).
      + apply sum_ext. intros a _. rewrite <- sum_mulr. reflexivity.
      + rewrite (sum_delta n p (fun a => sum_below n (fun b => - ((2 * D a a * D b b - D a b ^ 2) * gd b))) Hp). apply sum_ext. intros q _. rewrite (Dsym q p). ring. }
  assert (C4 : sum4 n (fun a b c d => W a b c d * D a b * D c d * dG (eta a - eta b + eta c - eta d) * (delta p a - delta p b + delta p c - delta p d)) =
     4 * sum_below n (fun q => sum2 n (fun r s => W p q r s * D p q * D r s * dG (eta p - eta q + eta r - eta s)))).
  { set (X := fun a b c d => W a b c d * D a b * D c d * dG (eta a - eta b + eta c - eta d)).
    assert (Xf : forall a b c d, X a b c d = - X b a d c).
    { intros. unfold X. rewrite (W_flip eri esym a b c d), (Dsym a b), (Dsym c d).
      replace (eta b - eta a + eta d - eta c) with (- (eta a - eta b + eta c - eta d)) by lra. rewrite dG_odd. ring. }
    assert (Xp : forall a b c d, X a b c d = X c d a b).
    { intros. unfold X. rewrite (W_pair eri esym a b c d). replace (eta c - eta d + eta a - eta b) with (eta a - eta b + eta c - eta d) by lra. ring. }
    assert (S1 : sum4 n (fun a b c d => X a b c d * delta p a) = sum_below n (fun q => sum2 n (fun r s => X p q r s))).
    { unfold sum4, sum2 at 1. transitivity (sum_below n (fun a => sum_below n (fun b => sum2 n (fun c d => X a b c d)) * (if (a =? p)%nat then 1 else 0))).
      - apply sum_ext. intros a _. rewrite <- sum_mulr. apply sum_ext. intros b _. rewrite <- sum2_mulr. reflexivity.
      - apply (sum_delta n p (fun a => sum_below n (fun b => sum2 n (fun c d => X a b c d))) Hp). }
    assert (S2 : sum4 n (fun a b c d => - X a b c d * delta p b) = sum4 n (fun a b c d => X a b c d * delta p a)).
    { rewrite sum4_flip. apply sum4_ext. intros. rewrite (Xf q p0 s r). ring. }
    assert (S3 : sum4 n (fun a b c d => X a b c d * delta p c) = sum4 n (fun a b c d => X a b c d * delta p a)).
    { rewrite sum4_pairs. apply sum4_ext. intros. rewrite (Xp r s p0 q). ring. }
    assert (S4 : sum4 n (fun a b c d => - X a b c d * delta p d) = sum4 n (fun a b c d => - X a b c d * delta p b)).
    { rewrite sum4_pairs. apply sum4_ext. intros. rewrite (Xp r s p0 q). ring. }
    transitivity (sum4 n (fun a b c d => X a b c d * delta p a) + sum4 n (fun a b c d => - X a b c d * delta p b) + sum4 n (fun a b c d => X a b c d * delta p c) + sum4 n (fun a b c d => - X a b c d * delta p d)).
    { rewrite <- !sum4_add. apply sum4_ext. intros. unfold X. ring. }
    rewrite S4, S3, S2, S1. unfold X. lra. }
  rewrite C1, C2, C3, C4, !sumn_below.
  assert (E1 : sum_below n (fun q => 2 * h1e_DO om h gd p q * D p q * dG (diff1 eta 0 p q) - (2 * D p p * D q q - D p q * D q p) * gd q / om) =
     sum_below n (fun q => 2 * h p q * D p q * dG (eta p - eta q)) + sum_below n (fun q => - ((2 * D p p * D q q - D p q * D q p) * gd q)) / om).
  { unfold Rdiv at 2. rewrite <- sum_mulr, <- sum_add. apply sum_ext. intros q _. unfold h1e_DO. rewrite d1. destruct (Nat.eqb_spec p q) as [<-|E].
    - replace (eta p - eta p) with 0 by lra. rewrite dG_0. field. assumption.
    - field. assumption. }
  assert (E2 : sum_below n (fun q => sumn n (fun r => sumn n (fun s => dG (diff2 eta p q r s) * (2 * eri p q r s - eri p s r q) * D r s)) * D p q) =
     2 * sum_below n (fun q => sum2 n (fun r s => W p q r s * D p q * D r s * dG (eta p - eta q + eta r - eta s)))).
  { rewrite <- sum_mull. apply sum_ext. intros q _. rewrite sumn2, <- sum2_mulr, <- sum2_mull. apply sum2_ext. intros r s _ _. rewrite d2. unfold ScqProofs.W. lra. }
  rewrite E1, E2. field. assumption.
Qed.

Lemma f_gradient (g0 x : nat -> R) f dGf : 1 / 100000 < Rabs f -> (forall d, dGf d = dG d * d / f) ->
  derivable_pt_lim (fun y => sc_energy n D om h eri G (fun k => y * g0 k) (fun k => y * x k)) f
    (dvlf n D om h eri (fun k => f * g0 k) (fun k => f * x k) f dGf).
Proof.
  intros Hf HdG. assert (f0 : f <> 0). { intros ->. rewrite Rabs_R0 in Hf. lra. }
  eapply (deriv_ext (fun y => expected_energy n D h eri om G (fun k => y * g0 k) (fun k => y * x k))); [intros y; symmetry; apply (energy_ok n D h eri om G Dsym esym Geven om0); exact G0| |
    apply (energy_deriv (fun k => f * g0 k) (fun k => f * x k) g0 x (fun k y => y * g0 k) (fun k y => y * x k)); [| |reflexivity|reflexivity]].
  2, 3: intros k; eapply deriv_ext; [reflexivity| |apply deriv_scalr; apply derivable_pt_lim_id]; ring.
  cbv zeta. unfold dvlf. cbv zeta. fold (g_dipole (fun k => f * g0 k) (fun k => f * x k)).
  set (gd := g_dipole (fun k => f * g0 k) (fun k => f * x k)).
  assert (Egd : forall k, gd k = f * (g0 k - x k)). { intros. unfold gd, g_dipole. ring. }
  destruct (Rlt_dec (1 / 100000) (Rabs f)) as [_|]; [|contradiction].
  assert (C1 : sum2 n (fun p q => h p q * D p q * dG (f * x p - f * x q) * (x p - x q)) =
     sumn n (fun p => sumn n (fun q => h1e_DO om h gd p q * dGf (diff1 (fun k => f * x k) 0 p q) * D p q))).
  { rewrite sumn2. apply sum2_ext. intros p q _ _. unfold h1e_DO. rewrite d1, HdG. destruct (Nat.eqb_spec p q) as [<-|E].
    - replace (f * x p - f * x p) with 0 by lra. rewrite dG_0. field. split; assumption.
    - field. assumption. }
  assert (C2 : sum_below n (fun p => 2 * (f * g0 p - f * x p) * (g0 p - x p) * D p p) = 2 * sumn n (fun p => D p p * gd p ^ 2) / f).
  { rewrite sumn_below. unfold Rdiv. rewrite <- sum_mull, <- sum_mulr. apply sum_ext. intros p _. rewrite Egd. field. assumption. }
  assert (C3 : sum2 n (fun p q => ((g0 p - x p) * (f * g0 q - f * x q) + (f * g0 p - f * x p) * (g0 q - x q)) * (D p p * D q q - 1/2 * D p q ^ 2)) =
     (2 * (sumn n (fun p => D p p * gd p) * sumn n (fun p => D p p * gd p)) - sumn n (fun p => sumn n (fun q => D p q * D p q * gd p * gd q))) / f).
  { rewrite sumn2, !sumn_below, sum2_prod.
    transitivity (2 / f * sum2 n (fun p q => D p p * gd p * (D q q * gd q)) + (-1 / f) * sum2 n (fun p q => D p q * D p q * gd p * gd q)); [|field; assumption].
    rewrite <- !sum2_mull, <- sum2_add. apply sum2_ext. intros p q _ _. rewrite !Egd. field. assumption. }
  assert (C4 : 1/2 * sum4 n (fun p q r s => W p q r s * D p q * D r s * dG (f * x p - f * x q + f * x r - f * x s) * (x p - x q + x r - x s)) =
     sumn n (fun p => sumn n (fun q => sumn n (fun r => sumn n (fun s => dGf (diff2 (fun k => f * x k) p q r s) * (2 * eri p q r s - eri p s r q) * D r s)) * D p q)) / 4).
  { rewrite sumn2. unfold Rdiv at 2. rewrite <- sum4_mull, <- sum2_mulr. unfold sum4. apply sum2_ext. intros p q _ _. rewrite sumn2, Rmult_assoc, <- sum2_mulr.
    apply sum2_ext. intros r s _ _. rewrite d2, HdG. unfold ScqProofs.W. field. assumption. }
  rewrite C1, C2, C3, C4. field. split; assumption.
Qed.
End Gradient.

Section Squeezing.
Variables (n : nat) (D h : mat) (eri : nat -> nat -> nat -> nat -> R) (om : R) (G : R -> R -> R) (dGF : R -> R) (F : R).
Hypotheses (Dsym : sym D) (esym : eri_sym eri) (Geven : forall y, even (G y)) (om0 : om <> 0) (G0 : forall y, G y 0 = 1)
  (HG : forall d, derivable_pt_lim (fun y => G y d) F (dGF (- d))).
Lemma sq_gradient g eta :
  derivable_pt_lim (fun y => sc_energy n D om h eri (G y) g eta) F (dvsq n D om h eri g eta dGF).
Proof.
  assert (z : dGF 0 = 0).
  { apply (uniqueness_limite (fun y => G y 0) F); [generalize (HG 0); rewrite Ropp_0; auto|].
    eapply deriv_ext; [| |exact (deriv_const 1 F)]; [|reflexivity]. intros y. cbv beta. rewrite G0. reflexivity. }
  eapply (deriv_ext (fun y => expected_energy n D h eri om (G y) g eta)); [intros y; symmetry; apply (energy_ok n D h eri om (G y) Dsym esym (Geven y) om0); apply G0| |].
  2:{ unfold expected_energy. apply deriv_plus; [apply deriv_plus|].
    - apply (deriv_sum2 n (fun p q y => h p q * G y (eta p - eta q) * D p q)). intros p q _ _. apply deriv_scalr, deriv_scal, HG.
    - apply deriv_const.
    - apply deriv_scal. apply (deriv_sum4 n (fun p q r s y => (eri p q r s - 1/2 * eri p s r q) * G y (eta p - eta q + eta r - eta s) * D p q * D r s)). intros p q r s.
      do 2 apply deriv_scalr. apply deriv_scal, HG. }
  unfold dvsq. cbv zeta. rewrite !sumn2, Rplus_0_r. f_equal.
  - apply sum2_ext. intros p q _ _. unfold h1e_DO. rewrite d1. replace (- (eta p - eta q)) with (eta q - eta p) by lra. destruct (Nat.eqb_spec p q) as [<-|E].
    + replace (eta p - eta p) with 0 by lra. rewrite z. ring.
    + ring.
  - unfold Rdiv at 3. rewrite <- sum4_mull, <- sum2_mulr. unfold sum4. apply sum2_ext. intros p q _ _. rewrite sumn2, Rmult_assoc, <- sum2_mulr.
    apply sum2_ext. intros r s _ _. rewrite d2. replace (- (eta p - eta q + eta r - eta s)) with (eta q - eta p + eta s - eta r) by lra. field.
Qed.
Lemma sq_chol nx L eta : (forall p q r s, eri p q r s = sum_below nx (fun X => L X p q * L X r s)) ->
  dvsq_two_chol n D nx L eta dGF =
  sumn n (fun p => sumn n (fun q => sumn n (fun r => sumn n (fun s => dGF (diff2 eta q p s r) * (2 * eri p q r s - eri p s r q) * D r s)) * D p q)) / 4.
Proof.
  intros HI. unfold dvsq_two_chol. cbv zeta. rewrite !sumn2. unfold Rdiv at 2. rewrite <- sum2_mulr. apply sum2_ext. intros p q _ _. rewrite !sumn2. unfold Rdiv. do 2 f_equal.
  apply sum2_ext. intros r s _ _. unfold chol_J, chol_K. rewrite !sumn_below, <- !HI, d2. unfold diff1.
  replace (eta s - eta r + (eta q - eta p)) with (eta q - eta p + eta s - eta r) by lra. ring.
Qed.
Lemma f_chol nx L eta dG : (forall p q r s, eri p q r s = sum_below nx (fun X => L X p q * L X r s)) ->
  dvlf_two_chol n D nx L eta dG =
  sumn n (fun p => sumn n (fun q => sumn n (fun r => sumn n (fun s => dG (diff2 eta p q r s) * (2 * eri p q r s - eri p s r q) * D r s)) * D p q)) / 4.
Proof.
  intros HI. unfold dvlf_two_chol. cbv zeta. rewrite !sumn2. unfold Rdiv at 2. rewrite <- sum2_mulr. apply sum2_ext. intros p q _ _. rewrite !sumn2. unfold Rdiv. do 2 f_equal.
  apply sum2_ext. intros r s _ _. unfold chol_J, chol_K. rewrite !sumn_below, <- !HI, d2. unfold diff1.
  replace (eta r - eta s + (eta p - eta q)) with (eta p - eta q + eta r - eta s) by lra. ring.
Qed.
Lemma eta_chol nx L eta dG p : (forall p q r s, eri p q r s = sum_below nx (fun X => L X p q * L X r s)) ->
  deta_two_chol n D nx L eta dG p = deta_two n D eri eta dG p.
Proof.
  intros HI. unfold deta_two_chol, deta_two. cbv zeta. rewrite !sumn_below. apply sum_ext. intros q _. rewrite !sumn2. f_equal.
  apply sum2_ext. intros r s _ _. unfold chol_J, chol_K. rewrite !sumn_below, <- !HI, d2. unfold diff1.
  replace (eta r - eta s + (eta p - eta q)) with (eta p - eta q + eta r - eta s) by lra. ring.
Qed.
End Squeezing.

(** ** The potential *)
Section Potential.
Variables (n : nat) (h : mat) (eri : nat -> nat -> nat -> nat -> R) (om : R) (G : R -> R).
Hypotheses (esym : eri_sym eri) (Geven : even G) (om0 : om <> 0).
Notation veff D g eta := (veff_do n D om (veff_eri n D eri eta G) (g_dipole g eta)).
Definition pair (D D' : mat) (gd eta : nat -> R) : R :=
  sum2 n (fun p q => gd p * gd q * (2 * D q q * D' p p - D p q * D' p q)) / om
  + sum4 n (fun p q r s => W eri p q r s * G (eta p - eta q + eta r - eta s) * D r s * D' p q).
Lemma veff_pair D D' g eta : sym D -> sum2 n (fun p q => veff D g eta p q * D' p q) = pair D D' (g_dipole g eta) eta.
Proof.
  intros Ds. set (gd := g_dipole g eta).
  transitivity (sum2 n (fun p q => veff_dse n D om gd p q * D' p q) + sum2 n (fun p q => veff_eri n D eri eta G p q * D' p q)).
  { rewrite <- sum2_add. apply sum2_ext. intros. unfold veff_do. ring. }
  unfold pair. f_equal.
  - transitivity (sum2 n (fun p q => (if (p =? q)%nat then 2 * gd p * sum_below n (fun r => D r r * gd r) else 0) * D' p q) / om
       + sum2 n (fun p q => - (gd p * gd q * D p q * D' p q)) / om).
    { unfold Rdiv. rewrite <- !sum2_mulr, <- sum2_add. apply sum2_ext. intros p q _ _. rewrite veff_dse_ok by assumption. field. assumption. }
    rewrite (sum_diag n (fun p => 2 * gd p * sum_below n (fun r => D r r * gd r)) D').
    assert (P : sum_below n (fun p => 2 * gd p * sum_below n (fun r => D r r * gd r) * D' p p) = sum2 n (fun p q => gd p * gd q * (2 * D q q * D' p p))).
    { apply sum_ext. intros p _. transitivity (2 * gd p * D' p p * sum_below n (fun r => D r r * gd r)); [ring|].
      rewrite <- sum_mull. apply sum_ext. intros q _. ring. }
    rewrite P. unfold Rdiv. rewrite <- !sum2_mulr, <- sum2_add. apply sum2_ext. intros p q _ _. ring.
  - unfold sum4. apply sum2_ext. intros p q _ _. rewrite (veff_eri_ok n D eri G Ds esym Geven), <- sum2_mulr. apply sum2_ext. intros r s _ _. ring.
Qed.
Lemma pair_sym D D' gd eta : pair D D' gd eta = pair D' D gd eta.
Proof.
  unfold pair. f_equal.
  - f_equal. rewrite sum2_swap at 1.
    transitivity (sum2 n (fun p q => gd p * gd q * (2 * D p p * D' q q)) + sum2 n (fun p q => - (gd p * gd q * (D q p * D' q p)))).
    { rewrite <- sum2_add. apply sum2_ext. intros. ring. }
    rewrite (sum2_swap n (fun p q => - (gd p * gd q * (D q p * D' q p)))), <- sum2_add. apply sum2_ext. intros. ring.
  - rewrite sum4_pairs. apply sum4_ext. intros p q r s. rewrite (W_pair eri esym r s p q).
    replace (eta r - eta s + eta p - eta q) with (eta p - eta q + eta r - eta s) by lra. ring.
Qed.
Lemma veff_self_adjoint D D' g eta : sym D -> sym D' ->
  sum2 n (fun p q => veff D g eta p q * D' p q) = sum2 n (fun p q => veff D' g eta p q * D p q).
Proof. intros H H'. rewrite !veff_pair by assumption. apply pair_sym. Qed.
Lemma veff_symmetric D g eta p q : sym D -> veff D g eta p q = veff D g eta q p.
Proof.
  intros Ds. unfold veff_do. f_equal.
  - rewrite !veff_dse_ok by assumption. rewrite (Ds q p), Nat.eqb_sym. destruct (Nat.eqb_spec q p) as [->|]; [reflexivity|]. f_equal. ring.
  - unfold veff_eri. ring.
Qed.
Lemma pair_lin D D' X gd eta t : pair (fun p q => D p q + t * D' p q) X gd eta = pair D X gd eta + t * pair D' X gd eta.
Proof.
  unfold pair.
  transitivity ((sum2 n (fun p q => gd p * gd q * (2 * D q q * X p p - D p q * X p q)) + t * sum2 n (fun p q => gd p * gd q * (2 * D' q q * X p p - D' p q * X p q))) / om
    + (sum4 n (fun p q r s => W eri p q r s * G (eta p - eta q + eta r - eta s) * D r s * X p q) + t * sum4 n (fun p q r s => W eri p q r s * G (eta p - eta q + eta r - eta s) * D' r s * X p q))).
  - f_equal; [f_equal; rewrite <- sum2_mull, <- sum2_add; apply sum2_ext; intros; ring|].
    rewrite <- sum4_mull, <- sum4_add. apply sum4_ext. intros. ring.
  - field. assumption.
Qed.
(** the Fock matrix hcore + veff is the derivative of the energy with respect to the density *)
Lemma energy_expand D D' g eta t : sym D -> sym D' ->
  sc_energy n (fun p q => D p q + t * D' p q) om h eri G g eta =
  sc_energy n D om h eri G g eta
  + t * sum2 n (fun p q => (hcore_do om h (g_dipole g eta) eta G p q + veff D g eta p q) * D' p q)
  + t ^ 2 * (1/2 * sum2 n (fun p q => veff D' g eta p q * D' p q)).
Proof.
  intros Hs Hs'. set (T := fun p q => D p q + t * D' p q). assert (Ts : sym T). { intros p q. unfold T. rewrite (Hs p q), (Hs' p q). reflexivity. }
  set (hc := hcore_do om h (g_dipole g eta) eta G).
  assert (A : forall X, sym X -> sc_energy n X om h eri G g eta = sum2 n (fun p q => hc p q * X p q) + pair X X (g_dipole g eta) eta * (1/2)).
  { intros X Xs. unfold sc_energy, energy. cbv zeta. rewrite !sumn2. rewrite <- (veff_pair X X g eta Xs). f_equal; [|f_equal]; apply sum2_ext; intros p q _ _; rewrite (Xs q p); reflexivity. }
  rewrite (A T Ts), (A D Hs).
  assert (B : sum2 n (fun p q => (hc p q + veff D g eta p q) * D' p q) = sum2 n (fun p q => hc p q * D' p q) + pair D D' (g_dipole g eta) eta).
  { rewrite <- (veff_pair D D' g eta Hs), <- sum2_add. apply sum2_ext. intros. ring. }
  rewrite B, (veff_pair D' D' g eta Hs').
  assert (P : pair T T (g_dipole g eta) eta = pair D D (g_dipole g eta) eta + 2 * t * pair D D' (g_dipole g eta) eta + t ^ 2 * pair D' D' (g_dipole g eta) eta).
  { unfold T at 1. rewrite pair_lin. rewrite (pair_sym D T), (pair_sym D' T). unfold T. rewrite !pair_lin. rewrite (pair_sym D' D). ring. }
  assert (Q : sum2 n (fun p q => hc p q * T p q) = sum2 n (fun p q => hc p q * D p q) + t * sum2 n (fun p q => hc p q * D' p q)).
  { rewrite <- sum2_mull, <- sum2_add. apply sum2_ext. intros. unfold T. ring. }
  rewrite P, Q. field.
Qed.
End Potential.

(** ** The vacuum factor *)
Section Vacuum.
Variables (mdim : nat) (ci : nat -> R) (om : R).
Hypothesis Hm : (mdim <= 1)%nat.
Lemma mdim_ltb : (1 <? mdim)%nat = false.
Proof. apply Nat.ltb_ge. exact Hm. Qed.
Lemma vac_G F G : (forall x, FC_factor mdim ci F om x = Ok (G x)) -> forall x, G x = exp (- (1/2) * (exp F / om * x) ^ 2).
Proof. intros H x. specialize (H x). unfold FC_factor in H. rewrite mdim_ltb in H. injection H. auto. Qed.
Lemma vac_even F G : (forall x, FC_factor mdim ci F om x = Ok (G x)) -> even G.
Proof. intros H x. rewrite !(vac_G F G H). f_equal. ring. Qed.
Lemma vac_0 F G : (forall x, FC_factor mdim ci F om x = Ok (G x)) -> G 0 = 1.
Proof. intros H. rewrite (vac_G F G H). replace (- (1/2) * (exp F / om * 0) ^ 2) with 0 by ring. apply exp_0. Qed.
Lemma vac_deriv F G : (forall x, FC_factor mdim ci F om x = Ok (G x)) -> deriv G (gaussian_derivative_vectorized mdim ci F om).
Proof.
  intros H x. destruct (fc_vac_deriv' mdim ci F om Hm) as (G' & H' & Hd).
  eapply deriv_ext; [|reflexivity|apply Hd]. intros y. specialize (H y). rewrite H' in H. injection H. auto.
Qed.
Lemma vac_f F f d : f <> 0 -> gaussian_derivative_f mdim ci F om f d = gaussian_derivative_vectorized mdim ci F om d * d / f.
Proof. intros f0. unfold gaussian_derivative_f, gaussian_derivative_vectorized. rewrite mdim_ltb. unfold Rdiv. ring. Qed.
End Vacuum.

(** ** What the gradient in f is not *)
Definition one : nat -> R := fun _ => 1.
Lemma f_partial_wrong : exists n D om h eri G g0 eta f, (forall x, FC_factor 1 one 0 om x = Ok (G x)) /\
  sym D /\ eri_sym eri /\ 0 < om /\ 0 < f < 1 /\
  exists l, derivable_pt_lim (fun y => sc_energy n D om h eri G (fun k => y * g0 k) eta) f l /\
    l <> dvlf n D om h eri (fun k => f * g0 k) eta f (gaussian_derivative_f 1 one 0 om f).
Proof.
  set (G := fun x => exp (- (1/2) * (exp 0 / 1 * x) ^ 2)).
  exists 1%nat, (fun _ _ => 2), 1, (fun _ _ => 0), (fun _ _ _ _ => 0), G, (fun _ => 1), (fun _ => 1/4), (1/2).
  assert (HG : forall x, FC_factor 1 one 0 1 x = Ok (G x)) by reflexivity.
  split; [exact HG|]. split; [intros p q; reflexivity|]. split; [split; reflexivity|]. split; [lra|]. split; [lra|].
  exists 2. split.
  - eapply (deriv_ext (fun y => 4 * (y - 1/4) ^ 2)).
    + intros y. rewrite energy_ok; [|intros p q; reflexivity|intros p q r s; split; reflexivity|apply (vac_even 1 one 1 (le_n _) 0 G HG)|lra|apply (vac_0 1 one 1 (le_n _) 0 G HG)].
      unfold expected_energy, sum4, sum2. cbn [sum_below]. field.
    + reflexivity.
    + eapply (deriv_ext (fun y => 4 * (y - 1/4) ^ 2)); [reflexivity| |apply deriv_scal; apply (derivable_pt_lim_comp (fun y => y - 1/4) (fun z => z ^ 2) (1/2) (1 - 0) (2 * (1/2 - 1/4))); [apply deriv_minus; [apply derivable_pt_lim_id|apply deriv_const]|apply sq_deriv]]. lra.
  - unfold dvlf, g_dipole, h1e_DO, diff1, gaussian_derivative_f, sumn. cbn [seq map lsum fold_right Nat.ltb Nat.leb Nat.eqb].
    destruct (Rlt_dec (1 / 100000) (Rabs (1/2))) as [_|N]; [|rewrite Rabs_right in N; lra].
    replace (1/4 - 1/4 + 0) with 0 by lra. intros H. field_simplify in H. lra.
Qed.
Lemma together_wrong : exists n D om nx L eta f eri, (forall X, sym (L X)) /\ sym D /\ 0 < om /\ 0 < f <= 1 /\
  (forall p q r s, eri p q r s = sum_below nx (fun X => L X p q * L X r s)) /\
  dvlf_two_together n D nx L eta (gaussian_derivative_f 1 one 0 om f) <>
  sumn n (fun p => sumn n (fun q => sumn n (fun r => sumn n (fun s =>
      gaussian_derivative_f 1 one 0 om f (diff2 eta p q r s) * (2 * eri p q r s - eri p s r q) * D r s)) * D p q)) / 4.
Proof.
  exists 2%nat, (fun _ _ => 1), 1, 1%nat, (fun _ p q => if (p =? q)%nat then 1 else 0), (fun k => INR k), 1,
    (fun p q r s => (if (p =? q)%nat then 1 else 0) * (if (r =? s)%nat then 1 else 0)).
  split; [intros X p q; rewrite Nat.eqb_sym; reflexivity|]. split; [intros p q; reflexivity|]. split; [lra|]. split; [lra|].
  split; [intros; cbn [sum_below]; ring|].
  assert (Z : gaussian_derivative_f 1 one 0 1 1 0 = 0). { unfold gaussian_derivative_f. cbn [Nat.ltb Nat.leb]. field. }
  assert (P : forall d, d <> 0 -> gaussian_derivative_f 1 one 0 1 1 d < 0).
  { intros d Hd. unfold gaussian_derivative_f. cbn [Nat.ltb Nat.leb]. rewrite exp_0. pose proof (exp_pos (- (1/2) * (1 / 1 * d) ^ 2)).
    assert (Q : 0 < (1 / 1 * d) ^ 2).
    { replace ((1 / 1 * d) ^ 2) with (Rsqr d) by (unfold Rsqr; field). apply Rsqr_pos_lt. assumption. }
    pose proof (Rmult_lt_0_compat _ _ H Q) as M. set (e := exp _) in *. set (w := (1 / 1 * d) ^ 2) in *.
    replace (- e * w / 1) with (- (e * w)) by field. lra. }
  pose proof (P 2 ltac:(lra)) as P2. pose proof (P (-2) ltac:(lra)) as Pm.
  unfold dvlf_two_together, chol_J, chol_K, diff1, diff2, sumn. cbn [seq map lsum fold_right Nat.eqb INR].
  repeat match goal with |- context [gaussian_derivative_f 1 one 0 1 1 ?x] =>
    first [replace x with 2 by lra; set (a := gaussian_derivative_f 1 one 0 1 1 2) in *
          |replace x with (-2) by lra; set (b := gaussian_derivative_f 1 one 0 1 1 (-2)) in *
          |replace x with 0 by lra; rewrite Z
          |replace x with 1 by lra; set (c := gaussian_derivative_f 1 one 0 1 1 1) in *
          |replace x with (-1) by lra; set (d := gaussian_derivative_f 1 one 0 1 1 (-1)) in *] end.
  intros H. lra.
Qed.

(** ** States of definite parity *)
Lemma good_weak mdim ci : good_state mdim ci -> (mdim <= 1)%nat \/ parity mdim ci.
Proof. intros [H|[H _]]; auto. Qed.
Lemma good_even mdim ci F om G : good_state mdim ci -> (forall x, FC_factor mdim ci F om x = Ok (G x)) -> even G.
Proof.
  intros S H. destruct S as [S|[P _]]; [eapply vac_even; eassumption|]. intros x.
  assert (A : forall x, G x = fc mdim ci F om x) by (intros y; specialize (H y); rewrite fc_ok in H; injection H; auto).
  rewrite !A. apply fc_even. assumption.
Qed.
Lemma good_0 mdim ci F om G : good_state mdim ci -> (forall x, FC_factor mdim ci F om x = Ok (G x)) -> G 0 = 1.
Proof.
  intros S H. specialize (H 0). rewrite fc_at_zero in H. injection H as <-. destruct S as [S|[_ N]].
  - rewrite mdim_ltb by assumption. reflexivity.
  - destruct (1 <? mdim)%nat; [assumption|reflexivity].
Qed.
(** the exact derivative with respect to the argument *)
Definition exact_dG (mdim : nat) (ci : nat -> R) (F om d : R) : R :=
  (if (1 <? mdim)%nat then exp F / om else 1) * gaussian_derivative_vectorized mdim ci F om d.
Lemma good_deriv mdim ci F om G : good_state mdim ci -> (forall x, FC_factor mdim ci F om x = Ok (G x)) -> deriv G (exact_dG mdim ci F om).
Proof.
  intros S H x. unfold exact_dG. destruct (Nat.ltb_spec 1 mdim) as [L|L].
  - destruct S as [S|[P _]]; [lia|]. destruct (fc_scaled_deriv' mdim ci F om L P) as (G' & H' & Hd).
    eapply deriv_ext; [|reflexivity|apply Hd]. intros y. specialize (H y). rewrite H' in H. injection H. auto.
  - rewrite Rmult_1_l. exact (vac_deriv mdim ci om L F G H x).
Qed.
Lemma good_f mdim ci F om f d : good_state mdim ci -> f <> 0 -> gaussian_derivative_f mdim ci F om f d = exact_dG mdim ci F om d * d / f.
Proof.
  intros S f0. destruct (fc_f_deriv' mdim ci F om (d / f) (good_weak _ _ S)) as (G' & H' & Hd). specialize (Hd f f0).
  replace (f * (d / f)) with d in Hd by (field; assumption).
  pose proof (good_deriv mdim ci F om (fc mdim ci F om) S (fc_ok mdim ci F om) (f * (d / f))) as E.
  apply (uniqueness_limite G' f); [exact Hd|].
  eapply (deriv_ext (fun y => fc mdim ci F om (y * (d / f)))).
  - intros y. specialize (H' y). rewrite fc_ok in H'. injection H'. auto.
  - reflexivity.
  - eapply deriv_ext; [reflexivity| |apply (derivable_pt_lim_comp (fun y => y * (d / f)) (fc mdim ci F om) f (1 * (d / f)) (exact_dG mdim ci F om (f * (d / f)))); [apply deriv_scalr, derivable_pt_lim_id|exact E]].
    replace (f * (d / f)) with d by (field; assumption). field. assumption.
Qed.
Lemma good_eta mdim ci F n D om h eri G g eta p : good_state mdim ci -> (1 < mdim -> exp F = om)%nat -> om <> 0 -> sym D -> sym h -> eri_sym eri ->
  (forall x, FC_factor mdim ci F om x = Ok (G x)) -> (p < n)%nat ->
  derivable_pt_lim (fun x => sc_energy n D om h eri G g (set_at eta p x)) (eta p)
    (eta_grad n D om h eri g eta (gaussian_derivative_vectorized mdim ci F om) p).
Proof.
  intros S T o0 Ds Hs Es HG Hp. apply eta_gradient; try assumption.
  - eapply good_even; eassumption.
  - intros x. eapply deriv_ext; [reflexivity| |apply (good_deriv mdim ci F om G S HG)]. unfold exact_dG.
    destruct (Nat.ltb_spec 1 mdim) as [L|L]; [rewrite (T L); field; assumption|ring].
  - eapply good_0; eassumption.
Qed.
Lemma good_fgrad mdim ci F n D om h eri G g0 x f : good_state mdim ci -> om <> 0 -> sym D -> eri_sym eri ->
  (forall x, FC_factor mdim ci F om x = Ok (G x)) -> 1 / 100000 < Rabs f ->
  derivable_pt_lim (fun y => sc_energy n D om h eri G (fun k => y * g0 k) (fun k => y * x k)) f
    (dvlf n D om h eri (fun k => f * g0 k) (fun k => f * x k) f (gaussian_derivative_f mdim ci F om f)).
Proof.
  intros S o0 Ds Es HG Hf. apply (f_gradient n D h eri om G (exact_dG mdim ci F om)); try assumption.
  - eapply good_even; eassumption.
  - apply good_deriv; assumption.
  - eapply good_0; eassumption.
  - intros d. apply good_f; [assumption|]. intros ->. rewrite Rabs_R0 in Hf. lra.
Qed.
Lemma good_sq mdim ci F n D om h eri G g eta : good_state mdim ci -> om <> 0 -> sym D -> eri_sym eri ->
  (forall y x, FC_factor mdim ci y om x = Ok (G y x)) ->
  derivable_pt_lim (fun y => sc_energy n D om h eri (G y) g eta) F (dvsq n D om h eri g eta (gaussian_derivative_sq mdim ci F om)).
Proof.
  intros S o0 Ds Es HG. apply sq_gradient; try assumption.
  - intros y. eapply good_even; [eassumption|apply HG].
  - intros y. eapply good_0; [eassumption|apply HG].
  - intros d. destruct (fc_sq_deriv' mdim ci om d (good_weak _ _ S)) as (G' & H' & Hd).
    eapply deriv_ext; [|reflexivity|apply Hd]. intros y. specialize (HG y d). rewrite H' in HG. injection HG. auto.
Qed.
(** with more than one photon state the factor exp F / omega is missing *)
Definition ground : nat -> R := fun m => if (m =? 0)%nat then 1 else 0.
Lemma eta_wrong : exists n D om h eri G g eta p, good_state 2 ground /\ sym D /\ sym h /\ eri_sym eri /\ 0 < om /\ (p < n)%nat /\
  (forall x, FC_factor 2 ground 0 om x = Ok (G x)) /\
  ~ derivable_pt_lim (fun x => sc_energy n D om h eri G g (set_at eta p x)) (eta p)
    (eta_grad n D om h eri g eta (gaussian_derivative_vectorized 2 ground 0 om) p).
Proof.
  set (G := fc 2 ground 0 2). set (off := fun p q : nat => if (p =? q)%nat then 0 else 1). set (e := fun k : nat => INR k).
  assert (S : good_state 2 ground).
  { right. split; [intros m k Hm _; unfold ground; destruct m; [lia|]; cbn; ring|cbn [sum_below]; unfold ground; cbn; ring]. }
  assert (HG : forall x, FC_factor 2 ground 0 2 x = Ok (G x)) by (intros; apply fc_ok).
  exists 2%nat, (fun _ _ => 1), 2, off, (fun _ _ _ _ => 0), G, e, e, 0%nat.
  split; [exact S|]. split; [intros p q; reflexivity|]. split; [intros p q; unfold off; rewrite Nat.eqb_sym; reflexivity|].
  split; [split; reflexivity|]. split; [lra|]. split; [lia|]. split; [exact HG|]. intros H.
  assert (E : derivable_pt_lim (fun x => sc_energy 2 (fun _ _ => 1) 2 off (fun _ _ _ _ => 0) G e (set_at e 0 x)) (e 0%nat)
    (eta_grad 2 (fun _ _ => 1) 2 off (fun _ _ _ _ => 0) e e (exact_dG 2 ground 0 2) 0)).
  { assert (Ge : even G) by (eapply good_even; eassumption). assert (Gd : deriv G (exact_dG 2 ground 0 2)) by (apply good_deriv; assumption).
    assert (G1 : G 0 = 1) by (eapply good_0; eassumption).
    apply eta_gradient; first [exact Ge|exact Gd|exact G1|lra|lia|intros p q; reflexivity|intros p q r s; split; reflexivity|idtac].
    intros p q. unfold off. rewrite Nat.eqb_sym. reflexivity. }
  pose proof (uniqueness_limite _ _ _ _ H E) as U. clear - U.
  unfold eta_grad, deta_one, deta_two, h1e_DO, g_dipole, diff1, diff2, sumn, exact_dG, off, e in U.
  cbn [seq map lsum fold_right Nat.eqb Nat.ltb Nat.leb INR] in U. rewrite exp_0 in U.
  assert (K : forall d, gaussian_derivative_vectorized 2 ground 0 2 d = - (1 / 2 * d) * exp (- (1/2) * (1 / 2 * d) ^ 2)).
  { intros d. unfold gaussian_derivative_vectorized. cbn [Nat.ltb Nat.leb]. rewrite exp_0. unfold displacement_deriv_kernel. f_equal.
    change (tril_strict 2) with [(1, 0)%nat]. cbn [fold_left seq]. unfold deriv_off, deriv_diag, outer, ground.
    cbn [Nat.eqb Nat.ltb Nat.leb Nat.sub]. cbv zeta.
    replace (genlaguerre 0 0 ((1 / 2 * d) ^ 2)) with 1; [ring|].
    unfold genlaguerre. cbn [map seq lsum fold_right]. unfold C. cbn. field. }
  rewrite !K in U.
  set (a := exp (- (1/2) * (1 / 2 * (0 - 1 + 0)) ^ 2)) in *. pose proof (exp_pos (- (1/2) * (1 / 2 * (0 - 1 + 0)) ^ 2)) as Pa. fold a in Pa.
  clearbody a. lra.
Qed.

(** the potential for such states *)
Lemma good_potential mdim ci F n eri om G D D' g eta : good_state mdim ci -> om <> 0 -> eri_sym eri -> sym D -> sym D' ->
  (forall x, FC_factor mdim ci F om x = Ok (G x)) ->
  sum2 n (fun p q => veff_do n D om (veff_eri n D eri eta G) (g_dipole g eta) p q * D' p q) =
  sum2 n (fun p q => veff_do n D' om (veff_eri n D' eri eta G) (g_dipole g eta) p q * D p q).
Proof. intros S o0 Es Ds D's HG. apply veff_self_adjoint; try assumption. eapply good_even; eassumption. Qed.
Lemma good_fock mdim ci F n h eri om G D D' g eta : good_state mdim ci -> om <> 0 -> eri_sym eri -> sym D -> sym D' ->
  (forall x, FC_factor mdim ci F om x = Ok (G x)) ->
  derivable_pt_lim (fun t => sc_energy n (fun p q => D p q + t * D' p q) om h eri G g eta) 0
    (sum2 n (fun p q => (hcore_do om h (g_dipole g eta) eta G p q + veff_do n D om (veff_eri n D eri eta G) (g_dipole g eta) p q) * D' p q)).
Proof.
  intros S o0 Es Ds D's HG. set (f := sum2 n _).
  eapply (deriv_ext (fun t => (sc_energy n D om h eri G g eta + f * t) + (1/2 * sum2 n (fun p q => veff_do n D' om (veff_eri n D' eri eta G) (g_dipole g eta) p q * D' p q)) * t ^ 2)).
  - intros t. rewrite (energy_expand n h eri om G); try assumption; [unfold f; ring|]. eapply good_even; eassumption.
  - reflexivity.
  - set (c := _ * sum2 n _). eapply deriv_ext; [reflexivity| |apply deriv_plus; [apply deriv_plus; [apply deriv_const|apply deriv_scal, derivable_pt_lim_id]|apply deriv_scal, sq_deriv]]. ring.
Qed.
Lemma good_chol mdim ci F n D eri om G nx L eta p q : good_state mdim ci -> eri_sym eri -> sym D -> (forall X, sym (L X)) ->
  (forall x, FC_factor mdim ci F om x = Ok (G x)) ->
  (forall p q r s, eri p q r s = sum_below nx (fun X => L X p q * L X r s)) ->
  veff_chol n D nx L eta G p q = veff_eri n D eri eta G p q.
Proof. intros S Es Ds Ls HG HI. apply veff_chol_ok; try assumption. eapply good_even; eassumption. Qed.
Lemma good_energy mdim ci F n D h eri om G g eta : good_state mdim ci -> om <> 0 -> eri_sym eri -> sym D ->
  (forall x, FC_factor mdim ci F om x = Ok (G x)) ->
  sc_energy n D om h eri G g eta = expected_energy n D h eri om G g eta.
Proof. intros S o0 Es Ds HG. apply energy_ok; try assumption; [eapply good_even; eassumption|eapply good_0; eassumption]. Qed.
