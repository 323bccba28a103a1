From Coq Require Import Reals List Lra Lia.
From Verif Require Import Base VmcModel VmcSpec.
Import ListNotations.
Local Open Scope R_scope.

Section lists.
Variable conf : Type.
Implicit Types (l cs : list conf) (f g : conf -> R).

Lemma rsum_total l f : rsum (map f l) = total l f.
Proof. induction l as [|c l IH]; cbn [map total]; [reflexivity|]. unfold rsum in *. cbn [fold_right]. now rewrite IH. Qed.
Lemma total_ext l f g : (forall c, In c l -> f c = g c) -> total l f = total l g.
Proof. induction l as [|c l IH]; cbn; intro h; [reflexivity|]. rewrite h by now left. rewrite IH; [reflexivity|]. intros; apply h; now right. Qed.
Lemma total_add l f g : total l (fun c => f c + g c) = total l f + total l g.
Proof. induction l as [|c l IH]; cbn; lra. Qed.
Lemma total_scal l f a : total l (fun c => a * f c) = a * total l f.
Proof. induction l as [|c l IH]; cbn; [lra|]. rewrite IH. lra. Qed.
Lemma total_const l a : total l (fun _ => a) = a * INR (length l).
Proof. induction l as [|c l IH]; [cbn; lra|]. cbn [total length]. rewrite IH, S_INR. lra. Qed.
Lemma total_nonneg l f : (forall c, 0 <= f c) -> 0 <= total l f.
Proof. intro h. induction l as [|c l IH]; cbn; [lra|]. specialize (h c). lra. Qed.
Lemma total_swap l l' (f : conf -> conf -> R) :
  total l (fun c => total l' (fun d => f c d)) = total l' (fun d => total l (fun c => f c d)).
Proof.
  induction l as [|c l IH]; cbn.
  - induction l'; cbn; lra.
  - now rewrite IH, <- total_add.
Qed.

Lemma mean_total l f : mean (map f l) = total l f / INR (length l).
Proof. unfold mean. now rewrite rsum_total, map_length. Qed.
Lemma len_pos l : l <> [] -> 0 < INR (length l).
Proof. destruct l; [congruence|]. intros _. cbn [length]. rewrite S_INR. pose proof (pos_INR (length l)). lra. Qed.
Lemma mean_ext l f g : (forall c, In c l -> f c = g c) -> mean (map f l) = mean (map g l).
Proof. intro h. rewrite !mean_total. now rewrite (total_ext l f g h). Qed.
Lemma mean_add l f g : mean (map (fun c => f c + g c) l) = mean (map f l) + mean (map g l).
Proof. rewrite !mean_total, total_add. unfold Rdiv. ring. Qed.
Lemma mean_scal l f a : mean (map (fun c => a * f c) l) = a * mean (map f l).
Proof. rewrite !mean_total, total_scal. unfold Rdiv. ring. Qed.
Lemma mean_const l a : l <> [] -> mean (map (fun _ => a) l) = a.
Proof. intro h. rewrite mean_total, total_const. field. pose proof (len_pos l h). lra. Qed.
Lemma mean_nonneg l f : (forall c, 0 <= f c) -> 0 <= mean (map f l).
Proof.
  intro h. destruct l as [|c l]; [unfold mean; cbn; unfold Rdiv; lra|].
  rewrite mean_total. apply Rmult_le_pos; [now apply total_nonneg|].
  apply Rlt_le, Rinv_0_lt_compat, len_pos. discriminate.
Qed.

Lemma psum_ext n (f g : nat -> R) : (forall k, (k < n)%nat -> f k = g k) -> psum n f = psum n g.
Proof. induction n as [|n IH]; cbn; intro h; [reflexivity|]. rewrite IH, h by (intros; try apply h; lia). reflexivity. Qed.
Lemma psum_scal n (f : nat -> R) a : psum n (fun k => a * f k) = a * psum n f.
Proof. induction n as [|n IH]; cbn; [lra|]. rewrite IH. lra. Qed.
Lemma mean_psum n l (f : nat -> conf -> R) : psum n (fun k => mean (map (f k) l)) = mean (map (fun c => psum n (fun k => f k c)) l).
Proof.
  induction n as [|n IH]; cbn.
  - rewrite mean_total, (total_const l 0). unfold Rdiv. ring.
  - now rewrite IH, <- mean_add.
Qed.

Variables (eloc : conf -> R) (grad : conf -> nat -> R).
Lemma s_sym cs (k l : nat) : s_mat grad cs k l = s_mat grad cs l k.
Proof. unfold s_mat. apply mean_ext. intros; ring. Qed.
Lemma s_psd cs n x : 0 <= psum n (fun k => psum n (fun l : nat => x k * x l * s_mat grad cs k l)).
Proof.
  replace (psum n (fun k => psum n (fun l : nat => x k * x l * s_mat grad cs k l)))
    with (mean (map (fun c => Rsqr (psum n (fun k => x k * (grad c k - ok_mean grad cs k)))) cs)).
  { apply mean_nonneg. intro; apply Rle_0_sqr. }
  transitivity (psum n (fun k => psum n (fun l : nat => mean (map (fun c => (x k * (grad c k - ok_mean grad cs k)) * (x l * (grad c l - ok_mean grad cs l))) cs)))).
  - rewrite (psum_ext n _ (fun k => mean (map (fun c => (x k * (grad c k - ok_mean grad cs k)) * psum n (fun l : nat => x l * (grad c l - ok_mean grad cs l))) cs))).
    + rewrite mean_psum. apply mean_ext. intros c _. unfold Rsqr.
      rewrite (psum_ext n (fun k => _ * psum n _) (fun k => psum n (fun l : nat => x l * (grad c l - ok_mean grad cs l)) * (x k * (grad c k - ok_mean grad cs k)))) by (intros; ring).
      now rewrite psum_scal.
    + intros k _. rewrite mean_psum. apply mean_ext. intros c _. apply psum_scal.
  - apply psum_ext; intros k _. apply psum_ext; intros l _. unfold s_mat. rewrite <- mean_scal. apply mean_ext. intros; ring.
Qed.
Lemma zero_variance cs e k : cs <> [] -> (forall c, In c cs -> eloc c = e) -> e_mean eloc cs = e /\ g_vec eloc grad cs k = 0.
Proof.
  intros h he. assert (h1 : e_mean eloc cs = e).
  { unfold e_mean. rewrite (mean_ext cs eloc (fun _ => e) he). now apply mean_const. }
  split; [exact h1|]. unfold g_vec. rewrite h1.
  rewrite (mean_ext cs _ (fun c => e * grad c k)) by (intros c hc; now rewrite he).
  rewrite mean_scal. unfold ok_mean. ring.
Qed.
Lemma shift_invariant cs (a : nat -> R) (k l : nat) : cs <> [] ->
  s_mat (fun c k => grad c k + a k) cs k l = s_mat grad cs k l /\
  g_vec eloc (fun c k => grad c k + a k) cs k = g_vec eloc grad cs k.
Proof.
  intro h. assert (ho : forall k, ok_mean (fun c k => grad c k + a k) cs k = ok_mean grad cs k + a k).
  { intro j. unfold ok_mean. rewrite mean_add, mean_const by exact h. reflexivity. }
  split.
  - unfold s_mat. apply mean_ext. intros c _. rewrite !ho. ring.
  - unfold g_vec. rewrite ho. rewrite (mean_ext cs _ (fun c => eloc c * grad c k + a k * eloc c)) by (intros; ring).
    rewrite mean_add, mean_scal. unfold e_mean. ring.
Qed.

(** exact sampling *)
Variables (all : list conf) (H : conf -> conf -> R) (psi : conf -> R).
Hypothesis nz : forall c, In c all -> psi c <> 0.
Lemma faithful_mean cs f : faithful all psi cs -> 0 < norm all psi ->
  mean (map f cs) = total all (fun c => psi c * psi c * f c) / norm all psi.
Proof.
  intros (k & hk & h) hn. rewrite mean_total.
  assert (hl : INR (length cs) = k * norm all psi).
  { pose proof (total_const cs 1) as e. rewrite h in e. unfold norm.
    rewrite (total_ext all _ (fun c => psi c * psi c)) in e by (intros; ring). lra. }
  rewrite hl, h. field. lra.
Qed.
Lemma local_total c : In c all -> psi c * psi c * local_energy all H psi c = total all (fun d => psi c * H c d * psi d).
Proof.
  intro hc. unfold local_energy. rewrite (total_ext all (fun d => psi c * H c d * psi d) (fun d => psi c * (H c d * psi d))) by (intros; ring).
  rewrite total_scal. field. now apply nz.
Qed.
Lemma energy_mean cs : faithful all psi cs -> 0 < norm all psi ->
  e_mean (local_energy all H psi) cs = energy all H psi.
Proof.
  intros hf hn. unfold e_mean, energy, ham. rewrite (faithful_mean cs _ hf hn). f_equal.
  apply total_ext. exact local_total.
Qed.
End lists.

Lemma total_derive conf (l : list conf) (f : conf -> R -> R) (df : conf -> R) t :
  (forall c, In c l -> derivable_pt_lim (f c) t (df c)) ->
  derivable_pt_lim (fun s => total l (fun c => f c s)) t (total l df).
Proof.
  induction l as [|c l IH]; intro h; cbn [total].
  - apply derivable_pt_lim_const.
  - apply (derivable_pt_lim_plus (f c) (fun s => total l (fun c => f c s))); [apply h; now left|].
    apply IH. intros; apply h; now right.
Qed.

Section gradient.
Variables (conf : Type) (all : list conf) (H : conf -> conf -> R) (psi : R -> conf -> R) (dpsi : conf -> R) (t : R).
Hypothesis sym : forall c d, In c all -> In d all -> H c d = H d c.
Hypothesis der : forall c, In c all -> derivable_pt_lim (fun s => psi s c) t (dpsi c).
Hypothesis nz : forall c, In c all -> psi t c <> 0.

Lemma norm_derive : derivable_pt_lim (fun s => norm all (psi s)) t (2 * total all (fun c => psi t c * dpsi c)).
Proof.
  unfold norm. rewrite <- total_scal. apply (total_derive conf all (fun c s => psi s c * psi s c)).
  intros c hc. replace (2 * (psi t c * dpsi c)) with (dpsi c * psi t c + psi t c * dpsi c) by ring.
  apply (derivable_pt_lim_mult (fun s => psi s c) (fun s => psi s c)); now apply der.
Qed.
Lemma ham_derive : derivable_pt_lim (fun s => ham all H (psi s)) t
  (2 * total all (fun c => dpsi c * total all (fun d => H c d * psi t d))).
Proof.
  unfold ham.
  assert (e : 2 * total all (fun c => dpsi c * total all (fun d => H c d * psi t d))
    = total all (fun c => total all (fun d => (dpsi c * H c d) * psi t d + psi t c * H c d * dpsi d))).
  { rewrite (total_ext conf all (fun c => total all (fun d => dpsi c * H c d * psi t d + psi t c * H c d * dpsi d))
      (fun c => total all (fun d => dpsi c * H c d * psi t d) + total all (fun d => psi t c * H c d * dpsi d)))
      by (intros; apply total_add).
    rewrite total_add, (total_swap conf all all (fun c d => psi t c * H c d * dpsi d)).
    rewrite (total_ext conf all (fun d => total all (fun c => psi t c * H c d * dpsi d)) (fun d => total all (fun c => dpsi d * H d c * psi t c))).
    - rewrite (total_ext conf all (fun c => dpsi c * total all (fun d => H c d * psi t d)) (fun c => total all (fun d => dpsi c * H c d * psi t d))); [ring|].
      intros c _. rewrite <- total_scal. apply total_ext. intros; ring.
    - intros d hd. apply total_ext. intros c hc. rewrite (sym c d hc hd). ring. }
  rewrite e. apply (total_derive conf all (fun c s => total all (fun d => psi s c * H c d * psi s d))).
  intros c hc. apply (total_derive conf all (fun d s => psi s c * H c d * psi s d)). intros d hd.
  apply (derivable_pt_lim_mult (fun s => psi s c * H c d) (fun s => psi s d)); [|now apply der].
  replace (dpsi c * H c d) with (dpsi c * H c d + psi t c * 0) by ring.
  apply (derivable_pt_lim_mult (fun s => psi s c) (fun _ => H c d)); [now apply der|apply derivable_pt_lim_const].
Qed.
Lemma gradient (grad : conf -> nat -> R) k cs : 0 < norm all (psi t) ->
  (forall c, grad c k = dpsi c / psi t c) -> faithful all (psi t) cs ->
  derivable_pt_lim (fun s => energy all H (psi s)) t
    (2 * g_vec (local_energy all H (psi t)) grad cs k).
Proof.
  intros hn hg hf. unfold energy.
  pose proof (derivable_pt_lim_div (fun s => ham all H (psi s)) (fun s => norm all (psi s)) t _ _ ham_derive norm_derive ltac:(lra)) as d.
  match type of d with derivable_pt_lim _ _ ?v => replace (2 * g_vec (local_energy all H (psi t)) grad cs k) with v end; [exact d|].
  unfold g_vec. rewrite (energy_mean conf all H (psi t) nz cs hf hn). unfold ok_mean.
  rewrite (faithful_mean conf all (psi t) cs _ hf hn), (faithful_mean conf all (psi t) cs (fun c => grad c k) hf hn).
  rewrite (total_ext conf all (fun c => psi t c * psi t c * grad c k) (fun c => psi t c * dpsi c)).
  2:{ intros c hc. rewrite hg. field. now apply nz. }
  rewrite (total_ext conf all (fun c => psi t c * psi t c * (local_energy all H (psi t) c * grad c k)) (fun c => dpsi c * total all (fun d => H c d * psi t d))).
  2:{ intros c hc. rewrite hg. unfold local_energy. field. now apply nz. }
  unfold energy, Rsqr. field. lra.
Qed.
End gradient.

Lemma kernel_fold conf theta (eloc : theta -> conf -> R) grad sample step n it t :
  kernel_from eloc grad sample step (Attrs true true true) it n t =
  Ok (fold_left (fun t i => step t (s_mat (grad t) (sample i t)) (g_vec (eloc t) (grad t) (sample i t))) (seq it n) t).
Proof. revert it t. induction n as [|n IH]; intros it t; cbn; [reflexivity|]. now rewrite IH. Qed.
