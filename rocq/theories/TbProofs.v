From Coq Require Import Reals Lra Lia List ZArith.
From Verif Require Import Base TbModel TbSpec.
Import ListNotations.
Open Scope R_scope.

(** * Gaussian products *)
Section Gauss.
(** psi(Q) = prod_i exp (- k/2 (Q_i - c_i)^2) *)
Variable k : R.
Let g (q c : R) := exp (- (1 / 2) * k * (q - c) * (q - c)).
Let psi (s Q : list R) := rprod (zip g Q s).

Lemma zip_length f (a b : list R) : length a = length b -> length (zip f a b) = length a.
Proof. revert b; induction a as [|x a IH]; intros [|y b] H; cbn in *; try lia. rewrite IH; lia. Qed.
Lemma zip_nth f (a b : list R) i d : (i < length a)%nat -> length a = length b ->
  nth i (zip f a b) d = f (nth i a 0) (nth i b 0).
Proof.
  revert b i; induction a as [|x a IH]; intros [|y b] [|i] H L; cbn in *; try lia; try reflexivity.
  apply IH; lia.
Qed.

Lemma psi_split s Q i : length Q = length s -> (i < length Q)%nat ->
  exists C, forall t, psi s (upd Q i t) = g t (nth i s 0) * C.
Proof.
  unfold psi. revert s i; induction Q as [|q Q IH]; intros [|c s] [|i] L H; cbn in *; try lia.
  - eexists; intro t; reflexivity.
  - destruct (IH s i) as [C HC]; try lia. exists (g q c * C). intro t. rewrite HC. ring.
Qed.
Lemma upd_same (Q : list R) i : upd Q i (nth i Q 0) = Q.
Proof. revert i; induction Q as [|q Q IH]; intros [|i]; cbn; try reflexivity. now rewrite IH. Qed.

Lemma dlin a b t : derivable_pt_lim (fun u => a * (u - b)) t a.
Proof.
  intros eps H. exists (mkposreal 1 Rlt_0_1). intros h Hh _.
  replace ((a * (t + h - b) - a * (t - b)) / h - a) with 0 by (field; auto).
  rewrite Rabs_R0. exact H.
Qed.
Lemma dconstm a f t l : derivable_pt_lim f t l -> derivable_pt_lim (fun u => f u * a) t (l * a).
Proof.
  intro H. pose proof (derivable_pt_lim_scal f a t l H) as H1.
  intros eps He. destruct (H1 eps He) as [d Hd]. exists d. intros h h0 hd.
  specialize (Hd h h0 hd). unfold mult_real_fct in Hd.
  replace ((f (t + h) * a - f t * a) / h - l * a) with ((a * f (t + h) - a * f t) / h - a * l) by (field; auto). exact Hd.
Qed.
Lemma dext f f' t l : (forall u, f u = f' u) -> derivable_pt_lim f t l -> derivable_pt_lim f' t l.
Proof. intros E H eps He. destruct (H eps He) as [d Hd]. exists d. intros h h0 hd. rewrite <- !E. now apply Hd. Qed.

Lemma dg c t : derivable_pt_lim (fun u => g u c) t (- k * (t - c) * g t c).
Proof.
  assert (A : derivable_pt_lim (fun u => (- (1 / 2) * k * (u - c)) * (1 * (u - c))) t (- k * (t - c))).
  { replace (- k * (t - c)) with ((- (1 / 2) * k) * (1 * (t - c)) + (- (1 / 2) * k * (t - c)) * 1) by field.
    apply (derivable_pt_lim_mult (fun u => - (1 / 2) * k * (u - c)) (fun u => 1 * (u - c))); apply dlin. }
  pose proof (derivable_pt_lim_comp _ exp t _ _ A (derivable_pt_lim_exp _)) as B.
  unfold comp in B. rewrite Rmult_comm.
  replace (g t c) with (exp ((- (1 / 2) * k * (t - c)) * (1 * (t - c)))) by (unfold g; f_equal; ring).
  eapply dext; [|exact B]. intro u. unfold g. cbv beta. f_equal. ring.
Qed.

Lemma psi_partial s Q i : length Q = length s -> (i < length Q)%nat ->
  forall t, derivable_pt_lim (fun u => psi s (upd Q i u)) t (- k * (t - nth i s 0) * psi s (upd Q i t)).
Proof.
  intros L H t. destruct (psi_split s Q i L H) as [C HC].
  rewrite HC, <- Rmult_assoc. eapply dext; [intro u; symmetry; apply HC|]. apply dconstm, dg.
Qed.
Lemma psi_partial1 s Q i : length Q = length s -> (i < length Q)%nat ->
  partial (psi s) Q i (- k * (nth i Q 0 - nth i s 0) * psi s Q).
Proof.
  intros L H. unfold partial. pose proof (psi_partial s Q i L H (nth i Q 0)) as P.
  rewrite upd_same in P. exact P.
Qed.
Lemma psi_partial2 s Q i : length Q = length s -> (i < length Q)%nat ->
  partial2 (psi s) Q i (((k * (nth i Q 0 - nth i s 0)) ^ 2 - k) * psi s Q).
Proof.
  intros L H. exists (fun t => - k * (t - nth i s 0) * psi s (upd Q i t)). split.
  - intro t. now apply psi_partial.
  - replace (((k * (nth i Q 0 - nth i s 0)) ^ 2 - k) * psi s Q) with
      (- k * psi s (upd Q i (nth i Q 0)) + - k * (nth i Q 0 - nth i s 0) *
        (- k * (nth i Q 0 - nth i s 0) * psi s (upd Q i (nth i Q 0)))).
    + apply (derivable_pt_lim_mult (fun t => - k * (t - nth i s 0)) (fun t => psi s (upd Q i t))).
      * apply dlin.
      * now apply psi_partial.
    + rewrite upd_same. ring.
Qed.
End Gauss.

(** * TrialQ *)
Section TQ.
Variables m w : R.
Lemma q_gradient_ok s Q i : length Q = length s -> (i < length Q)%nat ->
  partial (q_value m w s) Q i (nth i (q_gradient m w s Q) 0 * q_value m w s Q).
Proof.
  intros L H. unfold q_gradient. rewrite zip_nth by assumption. exact (psi_partial1 (m * w) s Q i L H).
Qed.
Lemma q_laplacian_ok s Q i : length Q = length s -> (i < length Q)%nat ->
  partial2 (q_value m w s) Q i (nth i (q_laplacian m w s Q) 0 * q_value m w s Q).
Proof.
  intros L H. unfold q_laplacian. rewrite zip_nth by assumption. exact (psi_partial2 (m * w) s Q i L H).
Qed.
Lemma rsum_mul c (l : list R) : rsum (map (fun x => x * c) l) = rsum l * c.
Proof. induction l as [|x l IH]; cbn; [ring|]. unfold rsum in *. rewrite IH. ring. Qed.
Lemma q_energy_H s Q : m <> 0 -> length Q = length s ->
  exists L, length L = length Q /\ (forall i, (i < length Q)%nat -> partial2 (q_value m w s) Q i (nth i L 0)) /\
    q_local_energy m w s Q * q_value m w s Q =
      - (1 / (2 * m)) * rsum L + (1 / 2 * m * w ^ 2 * rsum (map (fun q => q * q) Q) - 1 / 2 * w * INR (length Q)) * q_value m w s Q.
Proof.
  intros Hm L. exists (map (fun x => x * q_value m w s Q) (q_laplacian m w s Q)).
  assert (LL : length (q_laplacian m w s Q) = length Q) by (apply zip_length; exact L).
  split; [now rewrite map_length|]. split.
  - intros i H. rewrite (nth_indep _ 0 (0 * q_value m w s Q)) by (rewrite map_length; lia).
    rewrite (map_nth (fun x => x * q_value m w s Q)). now apply q_laplacian_ok.
  - rewrite rsum_mul. unfold q_local_energy. cbv zeta. field. exact Hm.
Qed.
Lemma q_energy_shift s Q : m <> 0 -> length Q = length s ->
  q_local_energy m w s Q = m * w ^ 2 * rsum (zip (fun q c => c * (q - c / 2)) Q s).
Proof.
  intro Hm. unfold q_local_energy, q_laplacian. cbv zeta. revert s.
  induction Q as [|q Q IH]; intros [|c s] L; try discriminate.
  - cbn [zip map length]. unfold rsum; cbn. field; exact Hm.
  - cbn [zip map length]. rewrite S_INR. injection L as L. specialize (IH s L). unfold rsum in *. cbn [fold_right].
    set (A := fold_right Rplus 0 (zip _ Q s)) in *. set (B := fold_right Rplus 0 (map _ Q)) in *.
    set (D := fold_right Rplus 0 (zip _ Q s)) in *.
    transitivity ((- (1 / 2) * A / m + 1 / 2 * (m * w) * w * B - 1 / 2 * w * INR (length Q)) + m * w ^ 2 * (c * (q - c / 2))).
    + field; exact Hm.
    + rewrite IH. ring.
Qed.
Lemma q_energy_zero Q : m <> 0 -> q_local_energy m w (repeat 0 (length Q)) Q = 0.
Proof.
  intro Hm. rewrite q_energy_shift by (try exact Hm; now rewrite repeat_length).
  replace (rsum _) with 0; [ring|]. unfold rsum.
  induction Q as [|q Q IH]; cbn; [reflexivity|]. rewrite <- IH. field.
Qed.
End TQ.

(** * TrialP *)
Section TP.
Variables m w : R.
Lemma p_value_eq s P : p_value m w s P = rprod (zip (fun q c => exp (- (1 / 2) * / (m * w) * (q - c) * (q - c))) P s).
Proof. reflexivity. Qed.
Lemma p_gradient_ok s P i : length P = length s -> (i < length P)%nat ->
  partial (p_value m w s) P i (nth i (p_gradient m w s P) 0 * p_value m w s P).
Proof.
  intros L H. unfold p_gradient. rewrite zip_nth by assumption.
  replace (- 1 / (m * w)) with (- / (m * w)) by (unfold Rdiv; ring).
  exact (psi_partial1 (/ (m * w)) s P i L H).
Qed.
Lemma p_laplacian_ok s P i : length P = length s -> (i < length P)%nat ->
  partial2 (p_value m w s) P i (nth i (p_laplacian m w s P) 0 * p_value m w s P).
Proof.
  intros L H. unfold p_laplacian. rewrite zip_nth by assumption.
  replace ((nth i P 0 - nth i s 0) / (m * w)) with (/ (m * w) * (nth i P 0 - nth i s 0)) by (unfold Rdiv; ring).
  replace (1 / (m * w)) with (/ (m * w)) by (unfold Rdiv; ring).
  exact (psi_partial2 (/ (m * w)) s P i L H).
Qed.
Lemma p_energy_H s P : m <> 0 -> length P = length s ->
  exists L, length L = length P /\ (forall i, (i < length P)%nat -> partial2 (p_value m w s) P i (nth i L 0)) /\
    p_local_energy m w s P * p_value m w s P =
      - (m * w ^ 2 / 2) * rsum L + (1 / (2 * m) * rsum (map (fun q => q * q) P) - 1 / 2 * w * INR (length P)) * p_value m w s P.
Proof.
  intros Hm L. exists (map (fun x => x * p_value m w s P) (p_laplacian m w s P)).
  assert (LL : length (p_laplacian m w s P) = length P) by (apply zip_length; exact L).
  split; [now rewrite map_length|]. split.
  - intros i H. rewrite (nth_indep _ 0 (0 * p_value m w s P)) by (rewrite map_length; lia).
    rewrite (map_nth (fun x => x * p_value m w s P)). now apply p_laplacian_ok.
  - rewrite rsum_mul. unfold p_local_energy. cbv zeta. field. exact Hm.
Qed.
Lemma p_energy_shift s P : m <> 0 -> w <> 0 -> length P = length s ->
  p_local_energy m w s P = / m * rsum (zip (fun q c => c * (q - c / 2)) P s).
Proof.
  intros Hm Hw. unfold p_local_energy, p_laplacian. cbv zeta. revert s.
  induction P as [|q P IH]; intros [|c s] L; try discriminate.
  - cbn [zip map length]. unfold rsum; cbn. field; exact Hm.
  - cbn [zip map length]. rewrite S_INR. injection L as L. specialize (IH s L). unfold rsum in *. cbn [fold_right].
    set (A := fold_right Rplus 0 (zip _ P s)) in *. set (B := fold_right Rplus 0 (map _ P)) in *.
    set (D := fold_right Rplus 0 (zip _ P s)) in *.
    transitivity ((1 / 2 / m * B + - (1 / 2) * (m * w) * w * A - 1 / 2 * w * INR (length P)) + / m * (c * (q - c / 2))).
    + field; auto.
    + rewrite IH. ring.
Qed.
Lemma p_energy_zero P : m <> 0 -> w <> 0 -> p_local_energy m w (repeat 0 (length P)) P = 0.
Proof.
  intros Hm Hw. rewrite p_energy_shift by (try assumption; now rewrite repeat_length).
  replace (rsum _) with 0; [ring|]. unfold rsum.
  induction P as [|q P IH]; cbn; [reflexivity|]. rewrite <- IH. field.
Qed.
End TP.

(** * Coherent states *)
Lemma fact_pos n : 0 < INR (fact n).
Proof. apply lt_0_INR, lt_O_fact. Qed.
Lemma coherent_eigen n a : sqrt (INR (S n)) * coherent_state_coeff (S n) a = a * coherent_state_coeff n a.
Proof.
  unfold coherent_state_coeff.
  replace (fact (S n)) with (S n * fact n)%nat by reflexivity. rewrite mult_INR.
  assert (P : 0 < INR (S n)) by (apply lt_0_INR; lia). pose proof (fact_pos n) as F.
  rewrite sqrt_mult by lra. cbn [pow].
  pose proof (sqrt_lt_R0 _ P). pose proof (sqrt_lt_R0 _ F). field. lra.
Qed.
Lemma coherent_zero a : coherent_state_coeff 0 a = exp (- (a * a) / 2).
Proof.
  unfold coherent_state_coeff. cbn [pow fact INR]. rewrite sqrt_1.
  replace (Rabs a * (Rabs a * 1)) with (a * a).
  - field.
  - rewrite Rmult_1_r, <- Rabs_mult, Rabs_right; [reflexivity|]. apply Rle_ge, Rle_0_sqr.
Qed.
Lemma coherent_sq n a : coherent_state_coeff n a * coherent_state_coeff n a = exp (- (a * a)) * (/ INR (fact n) * (a * a) ^ n).
Proof.
  unfold coherent_state_coeff.
  replace (Rabs a ^ 2) with (a * a).
  2:{ cbn [pow]. rewrite Rmult_1_r, <- Rabs_mult, Rabs_right; [reflexivity|]. apply Rle_ge, Rle_0_sqr. }
  pose proof (fact_pos n) as F. pose proof (sqrt_lt_R0 _ F) as S0.
  replace (exp (- (a * a))) with (exp (- (a * a) / 2) * exp (- (a * a) / 2)) by (rewrite <- exp_plus; f_equal; field).
  rewrite <- (sqrt_sqrt (INR (fact n))) at 3 by lra.
  rewrite Rpow_mult_distr. field. lra.
Qed.
Lemma coherent_norm a : infinite_sum (fun n => coherent_state_coeff n a * coherent_state_coeff n a) 1.
Proof.
  pose proof (proj2_sig (exist_exp (a * a))) as H. cbv beta in H. fold (exp (a * a)) in H.
  unfold exp_in in H. intros eps He.
  assert (E : 0 < exp (- (a * a))) by apply exp_pos.
  destruct (H (eps / exp (- (a * a)))) as [N HN].
  { apply Rlt_gt, Rdiv_lt_0_compat; assumption. }
  exists N. intros n Hn. specialize (HN n Hn). unfold R_dist in *.
  replace (sum_f_R0 _ n - 1) with (exp (- (a * a)) * (sum_f_R0 (fun i => / INR (fact i) * (a * a) ^ i) n - exp (a * a))).
  - rewrite Rabs_mult, (Rabs_right (exp (- (a * a)))) by lra.
    apply (Rmult_lt_compat_l _ _ _ E) in HN. replace (exp (- (a * a)) * (eps / exp (- (a * a)))) with eps in HN by (field; lra). exact HN.
  - rewrite Rmult_minus_distr_l, <- exp_plus. replace (- (a * a) + a * a) with 0 by ring. rewrite exp_0. f_equal.
    rewrite scal_sum. apply sum_eq. intros i _. rewrite coherent_sq. ring.
Qed.

(** * Fock trial *)
Lemma ndindex_length n k : length (ndindex n k) = (n ^ k)%nat.
Proof.
  induction k as [|k IH]; [reflexivity|]. cbn [ndindex].
  assert (G : forall l : list nat, length (flat_map (fun i => map (cons i) (ndindex n k)) l) = (length l * n ^ k)%nat).
  { induction l as [|x l IHl]; [reflexivity|]. cbn. rewrite app_length, map_length, IHl, IH. lia. }
  rewrite G, seq_length. cbn. lia.
Qed.
Lemma ndindex_in n k nv : In nv (ndindex n k) <-> (length nv = k /\ Forall (fun i => (i < n)%nat) nv).
Proof.
  revert nv. induction k as [|k IH]; intro nv; cbn [ndindex].
  - split; [intros [<-|[]]; split; [reflexivity|constructor] | intros [H _]; destruct nv; [now left|discriminate]].
  - rewrite in_flat_map. split.
    + intros (i & Hi & H). apply in_map_iff in H as (r & <- & Hr). apply IH in Hr as [Lr Fr]. apply in_seq in Hi.
      split; [cbn; lia|]. constructor; [lia|assumption].
    + intros [L F]. destruct nv as [|i r]; [discriminate|]. inversion F; subst. exists i. split; [apply in_seq; lia|].
      apply in_map, IH. split; [now injection L|assumption].
Qed.
Lemma coeffs_ok alpha nv : (length nv <= length alpha)%nat ->
  coeffs alpha nv = Ok (rprod (map (fun x => coherent_state_coeff (fst x) (snd x)) (combine nv alpha))).
Proof.
  revert alpha; induction nv as [|n nv IH]; intros alpha L; [now destruct alpha|].
  destruct alpha as [|a al]; [cbn in L; lia|]. cbn [coeffs combine map]. rewrite IH by (cbn in L; lia). reflexivity.
Qed.
Lemma rmapM_ok {A B} (f : A -> res B) (g : A -> B) l : (forall x, In x l -> f x = Ok (g x)) -> rmapM f l = Ok (map g l).
Proof.
  induction l as [|x l IH]; intro H; [reflexivity|]. cbn. rewrite (H x) by now left. cbn.
  rewrite IH; [reflexivity|]. intros y Hy. apply H. now right.
Qed.
Definition fcoef (alpha : list R) (nv : list nat) : R :=
  rprod (map (fun x => coherent_state_coeff (fst x) (snd x)) (combine nv alpha)).
Lemma fock_build_ok k n al : (k <= length al)%nat ->
  fock_build k n (Some al) = Ok (map (fcoef al) (ndindex n k)).
Proof.
  intro L. unfold fock_build. cbn [fock_coeff].
  rewrite (rmapM_ok _ (fcoef al)).
  - cbn [rbind]. rewrite map_length, ndindex_length, Nat.ltb_irrefl, Nat.eqb_refl. reflexivity.
  - intros nv H. apply ndindex_in in H as [<- _]. now apply coeffs_ok.
Qed.
Lemma fock_build_short k n al : (length al < k)%nat -> (0 < n)%nat -> fock_build k n (Some al) = Err IndexError.
Proof.
  intros L N. unfold fock_build. cbn [fock_coeff].
  assert (E : exists r, ndindex n k = repeat 0%nat k :: r).
  { clear L. induction k as [|k [r IH]]; [now exists []|]. cbn [ndindex]. destruct n as [|n]; [lia|]. cbn [seq flat_map].
    rewrite IH. cbn. eexists; reflexivity. }
  destruct E as [r ->]. cbn [rmapM].
  assert (C : coeffs al (repeat 0%nat k) = Err IndexError).
  { clear r. revert k L. induction al as [|a al IH]; intros [|k] L; cbn in *; try lia; [reflexivity|].
    rewrite IH by lia. reflexivity. }
  cbn [fock_coeff]. rewrite C. reflexivity.
Qed.
Lemma nth_flat {A} n k (f : nat -> list A) i j d : (forall x, length (f x) = k) -> (i < n)%nat -> (j < k)%nat ->
  nth (i * k + j) (flat_map f (seq 0 n)) d = nth j (f i) d.
Proof.
  intros L. cut (forall m s i, (i < m)%nat -> (j < k)%nat -> nth (i * k + j) (flat_map f (seq s m)) d = nth j (f (s + i)%nat) d).
  { intros H Hi Hj. rewrite (H n 0%nat i Hi Hj). reflexivity. }
  induction m as [|m IH]; intros s i' Hi Hj; [lia|]. cbn [seq flat_map]. destruct i' as [|i'].
  - rewrite app_nth1 by (rewrite L; lia). now rewrite Nat.add_0_r.
  - rewrite app_nth2 by (rewrite L; nia). rewrite L. replace (S i' * k + j - k)%nat with (i' * k + j)%nat by nia.
    rewrite IH by lia. f_equal. f_equal. lia.
Qed.
Lemma fock_pos_acc n nv a : fold_left (fun a n' => (a * n + n')%nat) nv a = (a * n ^ length nv + fock_pos n nv)%nat.
Proof.
  unfold fock_pos. revert a. induction nv as [|x nv IH]; intro a; [cbn; lia|]. cbn [fold_left length].
  rewrite IH, (IH (0 * n + x)%nat). cbn [Nat.pow]. nia.
Qed.
Lemma fock_pos_cons n x nv : fock_pos n (x :: nv) = (x * n ^ length nv + fock_pos n nv)%nat.
Proof. unfold fock_pos at 1. cbn [fold_left]. rewrite fock_pos_acc. cbn. lia. Qed.
Lemma fock_pos_lt n nv : Forall (fun i => (i < n)%nat) nv -> (fock_pos n nv < n ^ length nv)%nat.
Proof.
  induction 1 as [|x nv H F IH]; [cbn; lia|]. rewrite fock_pos_cons. cbn [length Nat.pow]. nia.
Qed.
Lemma ndindex_nth n nv d : Forall (fun i => (i < n)%nat) nv -> nth (fock_pos n nv) (ndindex n (length nv)) d = nv.
Proof.
  induction 1 as [|x nv H F IH]; [reflexivity|]. rewrite fock_pos_cons. cbn [length ndindex].
  rewrite (nth_flat n (n ^ length nv)); [| intro y; now rewrite map_length, ndindex_length | assumption | now apply fock_pos_lt].
  rewrite (nth_indep _ d (x :: d)) by (rewrite map_length, ndindex_length; now apply fock_pos_lt).
  rewrite (map_nth (cons x)). now rewrite IH.
Qed.
Lemma fock_entry n al nv psi : (length nv <= length al)%nat -> Forall (fun i => (i < n)%nat) nv ->
  fock_build (length nv) n (Some al) = Ok psi ->
  length psi = (n ^ length nv)%nat /\
  nth (fock_pos n nv) psi 0 = rprod (map (fun x => coherent_state_coeff (fst x) (snd x)) (combine nv al)).
Proof.
  intros L F H. rewrite fock_build_ok in H by assumption. injection H as <-. split; [now rewrite map_length, ndindex_length|].
  rewrite (nth_indep _ 0 (fcoef al [])) by (rewrite map_length, ndindex_length; now apply fock_pos_lt).
  rewrite map_nth, ndindex_nth by assumption. reflexivity.
Qed.

Lemma rsum_app a b : rsum (a ++ b) = rsum a + rsum b.
Proof. unfold rsum. induction a as [|x a IH]; cbn; [ring|]. rewrite IH. ring. Qed.
Definition trunc (n : nat) (a : R) : R := rsum (map (fun i => coherent_state_coeff i a * coherent_state_coeff i a) (seq 0 n)).
Lemma fock_norm n k al : (k <= length al)%nat ->
  norm2 (map (fcoef al) (ndindex n k)) = rprod (map (trunc n) (firstn k al)).
Proof.
  revert al. induction k as [|k IH]; intros al L; [cbn; ring|]. destruct al as [|a al]; [cbn in L; lia|].
  cbn [firstn map]. change (rprod (trunc n a :: map (trunc n) (firstn k al))) with (trunc n a * rprod (map (trunc n) (firstn k al))).
  rewrite <- IH by (cbn in L; lia). unfold trunc. cbn [ndindex].
  generalize (seq 0 n). induction l as [|i l IHl]; [cbn; ring|]. cbn [flat_map map].
  rewrite map_app. unfold norm2 in *. rewrite map_app, rsum_app, IHl. rewrite !map_map.
  change (rsum (?x :: ?y)) with (x + rsum y). rewrite Rmult_plus_distr_r. f_equal.
  rewrite (Rmult_comm (_ * _)). rewrite <- rsum_mul, map_map. f_equal. apply map_ext. intro nv.
  unfold fcoef. cbn [combine map fst snd]. change (rprod (?x :: ?y)) with (x * rprod y). ring.
Qed.
Lemma trunc_sum n a : trunc (S n) a = sum_f_R0 (fun i => coherent_state_coeff i a * coherent_state_coeff i a) n.
Proof.
  unfold trunc. induction n as [|n IH]; [cbn; ring|]. rewrite seq_S, map_app, rsum_app, IH. cbn [sum_f_R0]. cbn. ring.
Qed.
Lemma trunc_bound n a : 0 <= trunc n a <= 1.
Proof.
  assert (P : forall i, 0 <= coherent_state_coeff i a * coherent_state_coeff i a) by (intro i; apply Rle_0_sqr).
  destruct n as [|n]; [unfold trunc; cbn; lra|]. rewrite trunc_sum. split.
  - now apply cond_pos_sum.
  - pose proof (coherent_norm a) as H. apply (sum_incr _ n 1); [exact H | exact P].
Qed.
Lemma fock_norm_le n k al psi : fock_build k n (Some al) = Ok psi -> (k <= length al)%nat -> norm2 psi <= 1.
Proof.
  intros H L. rewrite fock_build_ok in H by assumption. injection H as <-. rewrite fock_norm by assumption.
  clear L. revert al. induction k as [|k IH]; intro al; [cbn; lra|]. destruct al as [|a al]; [cbn; lra|].
  cbn [firstn map]. change (rprod (?x :: ?y)) with (x * rprod y). specialize (IH al).
  pose proof (trunc_bound n a). assert (0 <= rprod (map (trunc n) (firstn k al))).
  { clear IH. generalize (firstn k al). induction l as [|b l IHl]; [cbn; lra|]. cbn [map]. change (rprod (?x :: ?y)) with (x * rprod y).
    pose proof (trunc_bound n b). apply Rmult_le_pos; lra. }
  rewrite <- (Rmult_1_r 1). apply Rmult_le_compat; lra.
Qed.
Lemma fock_none k n : fock_build k n None = Ok (map (fun nv => exp (- INR (fold_right plus 0%nat nv))) (ndindex n k)).
Proof.
  unfold fock_build. rewrite (rmapM_ok _ (fun nv => exp (- INR (fold_right plus 0%nat nv)))) by reflexivity.
  cbn [rbind]. rewrite map_length, ndindex_length, Nat.ltb_irrefl, Nat.eqb_refl. reflexivity.
Qed.
Lemma fock_none_norm : exists k n psi, fock_build k n None = Ok psi /\ norm2 psi > 1.
Proof.
  exists 1%nat, 2%nat. eexists. split; [apply fock_none|]. unfold norm2, rsum. cbn. rewrite Ropp_0, exp_0.
  pose proof (exp_pos (- (1))). nra.
Qed.
