(** Proofs for the neural-network driver. *)
From Coq Require Import Reals Lra FunctionalExtensionality.
From Coq Require Lqa FinFun.
From Verif Require Import Base HopModel HopSpec HopProofs NnModel NnSpec.
Open Scope R_scope.

Lemma d_ext f g x l : (forall y, f y = g y) -> derivable_pt_lim f x l -> derivable_pt_lim g x l.
Proof.
  intros H D eps He. destruct (D eps He) as [del Hd]. exists del.
  intros h H1 H2. rewrite <- !H. now apply Hd.
Qed.

Lemma bump_scale x k h c : c <> 0 ->
  (fun k' => bump x k h k' / c) = bump (fun k' => x k' / c) k (h / c).
Proof.
  intros Hc. apply functional_extensionality. intros k'. unfold bump.
  destruct (Nat.eqb k' k); field; easy.
Qed.
Lemma bump_batch_same r m k h : bump_batch r m k h m = bump (r m) k h.
Proof. unfold bump_batch. now rewrite Nat.eqb_refl. Qed.
Lemma bump_batch_other r m k h a : a <> m -> bump_batch r m k h a = r a.
Proof. intros H. unfold bump_batch. now rewrite (proj2 (Nat.eqb_neq a m) H). Qed.

(** only the molecule that moves contributes to the derivative of the sum *)
Lemma rsum_deriv (q : nat -> geom -> R) r m k l : forall n,
  derivable_pt_lim (fun h => q m (bump (r m) k h)) 0 l ->
  derivable_pt_lim (fun h => rsum n (fun a => q a (bump_batch r m k h a))) 0 (if (m <? n)%nat then l else 0).
Proof.
  induction n as [|n IH]; intros H; cbn [rsum].
  - apply derivable_pt_lim_const.
  - destruct (Nat.eq_dec n m) as [->|Hn].
    + replace (m <? S m)%nat with true by (symmetry; apply Nat.ltb_lt; lia).
      replace l with ((if (m <? m)%nat then l else 0) + l) by (rewrite Nat.ltb_irrefl; ring).
      apply (derivable_pt_lim_plus (fun h => rsum m (fun a => q a (bump_batch r m k h a)))
        (fun h => q m (bump_batch r m k h m))); [now apply IH|].
      eapply d_ext; [|exact H]. intros y. cbv beta. now rewrite bump_batch_same.
    + replace (m <? S n)%nat with (m <? n)%nat
        by (destruct (Nat.ltb_spec m n), (Nat.ltb_spec m (S n)); lia || reflexivity).
      replace (if (m <? n)%nat then l else 0) with ((if (m <? n)%nat then l else 0) + 0) by ring.
      apply (derivable_pt_lim_plus (fun h => rsum n (fun a => q a (bump_batch r m k h a)))
        (fun h => q n (bump_batch r m k h n))); [now apply IH|].
      eapply d_ext with (f := fct_cte (q n (r n))); [|apply derivable_pt_lim_const].
      intros y. unfold fct_cte. now rewrite bump_batch_other.
Qed.
Lemma mult_const_deriv f c l : derivable_pt_lim f 0 l -> derivable_pt_lim (fun h => f h * c) 0 (l * c).
Proof.
  intros H. replace (l * c) with (c * l) by ring.
  eapply d_ext; [|apply (derivable_pt_lim_scal f c 0 l H)]. intros y. unfold mult_real_fct. ring.
Qed.

(** chain rule: derivative with respect to the coordinate in bohr *)
Lemma in_bohr_deriv (q : geom -> R) c u x k l : c <> 0 ->
  derivable_pt_lim (fun h => q (bump (fun k' => x k' / c) k h)) 0 l ->
  derivable_pt_lim (fun h => in_bohr q c u (bump x k h)) 0 (l * u / c).
Proof.
  intros Hc H. unfold in_bohr. replace (l * u / c) with (l * (/ c) * u) by (field; easy).
  apply (mult_const_deriv (fun h => q (fun k' => bump x k h k' / c))).
  eapply d_ext with (f := comp (fun h => q (bump (fun k' => x k' / c) k h)) (fun h => h * / c)).
  { intros y. unfold comp. now rewrite bump_scale. }
  apply derivable_pt_lim_comp.
  - pose proof (mult_const_deriv id (/ c) 1 (derivable_pt_lim_id 0)) as P. rewrite Rmult_1_l in P. exact P.
  - now rewrite Rmult_0_l.
Qed.

Lemma upd_length {A} : forall (l : list A) i x, length (upd l i x) = length l.
Proof. induction l as [|a l IH]; intros [|i] x; cbn; auto. Qed.
Lemma upd_nth {A} : forall (l : list A) i x j, nth_error (upd l i x) j =
  if Nat.eqb j i then (if (i <? length l)%nat then Some x else None) else nth_error l j.
Proof.
  induction l as [|a l IH]; intros [|i] x [|j]; cbn [upd nth_error Nat.eqb length]; try easy.
  - now destruct (Nat.eqb j i).
  - rewrite IH. reflexivity.
Qed.
Lemma assign_loop_spec {A} (f : nat -> A) : forall is st, (forall i, In i is -> (i < length st)%nat) ->
  exists st', assign_loop f st is = Ok st' /\ length st' = length st /\
    forall j, nth_error st' j = if in_dec Nat.eq_dec j is then Some (f j) else nth_error st j.
Proof.
  induction is as [|i is IH]; intros st H; cbn [assign_loop].
  - exists st. repeat split.
  - rewrite (proj2 (Nat.ltb_lt _ _) (H i (or_introl eq_refl))).
    destruct (IH (upd st i (f i))) as (st' & H1 & H2 & H3).
    { intros j Hj. rewrite upd_length. apply H. now right. }
    exists st'. rewrite upd_length in H2. repeat split; [easy|easy|]. intros j. rewrite H3, upd_nth.
    destruct (in_dec Nat.eq_dec j is) as [Hj|Hj], (in_dec Nat.eq_dec j (i :: is)) as [Hk|Hk]; try easy.
    + exfalso. apply Hk. now right.
    + destruct Hk as [->|Hk]; [|easy]. rewrite Nat.eqb_refl.
      now rewrite (proj2 (Nat.ltb_lt _ _) (H j (or_introl eq_refl))).
    + destruct (Nat.eqb_spec j i) as [->|]; [|easy]. exfalso. apply Hk. now left.
Qed.
Lemma assign_short {A} (f : nat -> A) : forall is st, (exists i, In i is /\ (length st <= i)%nat) ->
  assign_loop f st is = Err IndexError.
Proof.
  induction is as [|i is IH]; intros st (j & H1 & H2); [easy|]. cbn [assign_loop].
  destruct (Nat.ltb_spec i (length st)); [|easy]. apply IH. exists j. rewrite upd_length.
  destruct H1 as [->|H1]; [lia|]. auto.
Qed.
Lemma assign_ok {A} n (st : list A) f : (n <= length st)%nat ->
  exists st', assign_forces n st f = Ok st' /\ length st' = length st /\
    forall j, nth_error st' j = if (j <? n)%nat then Some (f j) else nth_error st j.
Proof.
  intros H. destruct (assign_loop_spec f (seq 0 n) st) as (st' & H1 & H2 & H3).
  { intros i Hi. apply in_seq in Hi. lia. }
  exists st'. repeat split; [easy|easy|]. intros j. rewrite H3.
  destruct (in_dec Nat.eq_dec j (seq 0 n)) as [Hj|Hj], (Nat.ltb_spec j n); try easy.
  - apply in_seq in Hj. lia.
  - exfalso. apply Hj, in_seq. lia.
Qed.

Lemma rmapM_nth {A B} (f : A -> res B) : forall l ys, rmapM f l = Ok ys ->
  length ys = length l /\ forall i x, nth_error l i = Some x -> exists y, nth_error ys i = Some y /\ f x = Ok y.
Proof.
  induction l as [|a l IH]; cbn [rmapM]; intros ys H.
  - injection H as <-. split; [easy|]. intros [|i] x; easy.
  - destruct (f a) as [y|] eqn:E; cbn [rbind] in H; [|easy].
    destruct (rmapM f l) as [zs|] eqn:E2; cbn [rbind] in H; [|easy]. injection H as <-.
    destruct (IH zs eq_refl) as [H1 H2]. split; [cbn; lia|].
    intros [|i] x; cbn; [intros [= <-]; eauto|apply H2].
Qed.
Lemma nth_combine_seq {A} : forall (l : list A) a i x, nth_error l i = Some x ->
  nth_error (combine (seq a (length l)) l) i = Some ((a + i)%nat, x).
Proof.
  induction l as [|y l IH]; intros a [|i] x; cbn; try easy.
  - intros [= ->]. now rewrite Nat.add_0_r.
  - intros H. rewrite (IH (S a) i x H). f_equal. f_equal. lia.
Qed.

Lemma forces net ag nout d coords mols out z : dZ d = Some z -> dconv d <> 0 -> differentiates ag ->
  calculate_force net ag nout d coords mols = Ok out ->
  length out = length mols /\
  forall m st, nth_error mols m = Some st -> exists st', nth_error out m = Some st' /\ length st' = length st /\
    (forall i, (dnstates d <= i)%nat -> nth_error st' i = nth_error st i) /\
    forall i k l, (i < dnstates d)%nat ->
      derivable_pt_lim (fun h => net (nth m z []) (bump (fun k' => coords m k' / dconv d) k h) i) 0 l ->
      exists F, nth_error st' i = Some F /\
        derivable_pt_lim (fun h => in_bohr (fun r => net (nth m z []) r i) (dconv d) (econv d) (bump (coords m) k h)) 0 (- F k).
Proof.
  intros Hz Hc Hag H. unfold calculate_force, make_predictions in H. rewrite Hz in H. cbn [rbind] in H.
  unfold nuc_grad in H. destruct (_ <=? nout)%nat eqn:En; cbn [rbind] in H; [|easy].
  apply rmapM_nth in H. destruct H as [H1 H2].
  rewrite combine_length, seq_length, Nat.min_id in H1. split; [easy|].
  intros m st Hm. pose proof (nth_combine_seq _ 0%nat _ _ Hm) as Hm'. cbn [Nat.add] in Hm'.
  destruct (H2 _ _ Hm') as (st' & H3 & H4). cbn [fst snd] in H4. exists st'. split; [easy|].
  destruct (Nat.leb_spec (dnstates d) (length st)) as [Hn|Hn].
  2:{ unfold assign_forces in H4. rewrite assign_short in H4; [easy|].
      exists (length st). split; [apply in_seq; lia|apply Nat.le_refl]. }
  match type of H4 with assign_forces _ _ ?f = _ => destruct (assign_ok (dnstates d) st f Hn) as (st2 & H5 & H6 & H7) end.
  pose proof (eq_trans (eq_sym H5) H4) as E5. injection E5 as <-. split; [easy|]. split.
  - intros i Hi. rewrite H7. now rewrite (proj2 (Nat.ltb_ge _ _) Hi).
  - intros i k l Hi HD. rewrite H7, (proj2 (Nat.ltb_lt _ _) Hi). eexists. split; [reflexivity|]. cbv beta.
    assert (G : ag (fun q => rsum (length mols) (fun a => net (nth a z []) (q a) i * econv d)) (get_R d coords) m k
                = l * econv d).
    { apply Hag.
      pose proof (rsum_deriv (fun a g => net (nth a z []) g i * econv d) (get_R d coords) m k (l * econv d)
        (length mols)) as P. cbv beta in P.
      assert (Hlt : (m <? length mols)%nat = true).
      { apply Nat.ltb_lt. apply nth_error_Some. congruence. }
      rewrite Hlt in P. apply P.
      exact (mult_const_deriv (fun h => net (nth m z []) (bump (get_R d coords m) k h) i) (econv d) l HD). }
    match goal with |- derivable_pt_lim _ _ (- (- ?x / _)) => change x with
      (ag (fun q => rsum (length mols) (fun a => net (nth a z []) (q a) i * econv d)) (get_R d coords) m k) end.
    rewrite G. replace (- (- (l * econv d) / dconv d)) with (l * econv d / dconv d) by (field; easy).
    apply in_bohr_deriv; assumption.
Qed.
Lemma force_unset net ag nout d coords mols : dZ d = None ->
  calculate_force net ag nout d coords mols = Err AttributeError.
Proof. intros H. unfold calculate_force, make_predictions. now rewrite H. Qed.

Lemma rmapM_ok {A B} (f : A -> res B) : forall l, (forall x, In x l -> exists y, f x = Ok y) ->
  exists ys, rmapM f l = Ok ys.
Proof.
  induction l as [|a l IH]; intros H; cbn [rmapM]; [now exists []|].
  destruct (H a (or_introl eq_refl)) as [y ->]. cbn [rbind].
  destruct IH as [ys ->]; [intros x Hx; apply H; now right|]. cbn [rbind]. eauto.
Qed.
Lemma force_outputs net ag nout d coords mols z : dZ d = Some z ->
  (forall st, In st mols -> (dnstates d <= length st)%nat) ->
  ((exists out, calculate_force net ag nout d coords mols = Ok out) <-> (dnstates d < nout)%nat) /\
  ((nout <= dnstates d)%nat -> calculate_force net ag nout d coords mols = Err IndexError).
Proof.
  intros Hz Hst. unfold calculate_force, make_predictions. rewrite Hz. cbn [rbind]. unfold nuc_grad.
  destruct (Nat.leb_spec (dnstates d + 1) nout) as [H|H]; cbn [rbind].
  - split; [|lia]. split; [lia|]. intros _. apply rmapM_ok. intros [m st] Hx.
    apply in_combine_r in Hx. cbn [fst snd].
    match goal with |- exists y, assign_forces _ _ ?f = _ => destruct (assign_ok (dnstates d) st f (Hst _ Hx)) as (st2 & H5 & _) end.
    eauto.
  - split; [|easy]. split; [now intros [? ?]|lia].
Qed.

(** dipole gradients *)
Lemma dipole_grad ag nmol (q : geom -> nat -> R) c coords m i k l : c <> 0 -> (m < nmol)%nat -> differentiates ag ->
  derivable_pt_lim (fun h => q (bump (fun k' => coords m k' / c) k h) i) 0 l ->
  derivable_pt_lim (fun h => in_bohr (fun r => q r i) c 1 (bump (coords m) k h)) 0
    (get_dipole_grad ag nmol (fun r a j => q (r a) j) (fun a k' => coords a k' / c) m i k / c).
Proof.
  intros Hc Hm Hag H. unfold get_dipole_grad.
  rewrite (Hag (fun q0 => rsum nmol (fun a => q (q0 a) i)) _ m k l).
  - replace (l / c) with (l * 1 / c) by (field; easy). now apply in_bohr_deriv.
  - pose proof (rsum_deriv (fun a g => q g i) (fun a k' => coords a k' / c) m k l nmol H) as P.
    now rewrite (proj2 (Nat.ltb_lt _ _) Hm) in P.
Qed.

Lemma dipole_refuted ag : differentiates ag -> exists q coords l,
  derivable_pt_lim (fun h => in_bohr (fun r => q r 0%nat) (coords_conversion true) 1 (bump (coords 0%nat) 0 h)) 0 l /\
  get_dipole_grad ag 1 (fun r a j => q (r a) j) (fun a k' => coords a k' / coords_conversion true) 0 0 0 <> l.
Proof.
  intros Hag. set (c := coords_conversion true).
  assert (Hc : c <> 0) by (unfold c, coords_conversion; lra).
  exists (fun r _ => r 0%nat), (fun _ _ => 0), (1 / c).
  assert (D : forall g : geom, derivable_pt_lim (fun h => bump g 0 h 0%nat) 0 1).
  { intros g. unfold bump. cbn. replace 1 with (0 + 1) by ring.
    apply (derivable_pt_lim_plus (fct_cte (g 0%nat)) id); [apply derivable_pt_lim_const|apply derivable_pt_lim_id]. }
  split.
  - replace (1 / c) with (1 * 1 / c) by (field; easy).
    apply (in_bohr_deriv (fun r => r 0%nat)); [easy|]. apply D.
  - unfold get_dipole_grad. rewrite (Hag _ _ _ _ 1).
    + intros E. assert (c = 1) by (apply (f_equal (fun t => t * c)) in E; field_simplify in E; lra).
      unfold c, coords_conversion in H. lra.
    + pose proof (rsum_deriv (fun a (g : geom) => g 0%nat) (fun a k' => 0 / c) 0 0 1 1 (D _)) as P. exact P.
Qed.

(** couplings *)
Open Scope Q_scope.
Lemma pairs_length n : (2 * length (state_pairs n) = n * (n - 1))%nat.
Proof.
  unfold state_pairs.
  assert (G : forall len a, (a + len = n)%nat ->
    (2 * length (flat_map (fun i => map (fun j => (i, j)) (seq (S i) (n - S i))) (seq a len)) = len * (len - 1))%nat).
  { induction len as [|len IH]; intros a Ha; [reflexivity|]. cbn [seq flat_map].
    rewrite app_length, map_length, seq_length.
    rewrite Nat.mul_add_distr_l, IH by lia. replace (n - S a)%nat with len by lia.
    destruct len; cbn; lia. }
  rewrite (G n 0%nat eq_refl). reflexivity.
Qed.
Lemma pairs_in n i j : In (i, j) (state_pairs n) <-> (i < j < n)%nat.
Proof.
  unfold state_pairs. rewrite in_flat_map. split.
  - intros (a & H1 & H2). apply in_seq in H1. apply in_map_iff in H2. destruct H2 as (b & [= <- <-] & H2).
    apply in_seq in H2. lia.
  - intros H. exists i. split; [apply in_seq; lia|]. apply in_map_iff. exists j. split; [easy|]. apply in_seq. lia.
Qed.
Lemma nodup_app {A} : forall l1 l2 : list A, NoDup l1 -> NoDup l2 -> (forall x, In x l1 -> ~ In x l2) -> NoDup (l1 ++ l2).
Proof.
  induction l1 as [|x l1 IH]; intros l2 H1 H2 H3; [easy|]. inversion H1; subst. cbn. constructor.
  - rewrite in_app_iff. intros [H|H]; [easy|]. apply (H3 x); cbn; auto.
  - apply IH; auto. intros y Hy. apply H3. now right.
Qed.
Lemma pairs_nodup n : NoDup (state_pairs n).
Proof.
  unfold state_pairs.
  assert (G : forall l, NoDup l -> NoDup (flat_map (fun i => map (fun j => (i, j)) (seq (S i) (n - S i))) l)).
  { induction l as [|a l IH]; intros Hl; [constructor|]. inversion Hl; subst. cbn [flat_map].
    apply nodup_app; [|now apply IH|].
    - apply FinFun.Injective_map_NoDup; [|apply seq_NoDup]. intros x y. congruence.
    - intros x Hx Hy. apply in_map_iff in Hx. destruct Hx as (j & <- & _).
      apply in_flat_map in Hy. destruct Hy as (b & B1 & B2). apply in_map_iff in B2.
      destruct B2 as (y & [= -> _] & _). easy. }
  apply G, seq_NoDup.
Qed.

Lemma nth_combine {A B} : forall (l1 : list A) (l2 : list B) k x y, nth_error l1 k = Some x -> nth_error l2 k = Some y ->
  nth_error (combine l1 l2) k = Some (x, y).
Proof. induction l1 as [|a l1 IH]; intros [|b l2] [|k] x y; cbn; try easy. - congruence. - apply IH. Qed.

Lemma nacr_entry n e scaled nacr k i j row : (2 <= n)%nat -> get_nacr n e scaled = Ok nacr ->
  nth_error (state_pairs n) k = Some (i, j) -> nth_error scaled k = Some row ->
  ~ e (S i) == e (S j) ->
  exists d, nth_error nacr k = Some d /\ length d = length row /\
    forall c x, nth_error row c = Some x -> exists y, nth_error d c = Some y /\ y * (e (S j) - e (S i)) == x.
Proof.
  intros Hn H Hk Hr He. unfold get_nacr in H.
  destruct (state_pairs n) as [|p0 ps] eqn:E.
  { now destruct k. }
  rewrite <- E in Hk, H. 
  assert (N : nacr = map (fun ps => map (fun x => x / (e (S (snd (fst ps))) - e (S (fst (fst ps))))) (snd ps))
                   (combine (state_pairs n) scaled)) by (rewrite E in *; congruence).
  subst nacr. rewrite (map_nth_error _ _ _ (nth_combine _ _ _ _ _ Hk Hr)). cbn [fst snd].
  eexists. split; [reflexivity|]. split; [apply map_length|].
  intros c x Hc. rewrite (map_nth_error _ _ _ Hc). eexists. split; [reflexivity|].
  field. intros C. apply He. Lqa.lra.
Qed.

Lemma nact_length v nacr : length (get_nact v nacr) = length nacr.
Proof. apply map_length. Qed.
Lemma nact_entry v nacr k d : nth_error nacr k = Some d ->
  nth_error (get_nact v nacr) k = Some (qsum (map (fun p => fst p * snd p) (combine v d))).
Proof. intros H. unfold get_nact. now rewrite (map_nth_error _ _ _ H). Qed.

Lemma read_short n e scaled v h : (2 <= n)%nat -> length scaled = length (state_pairs n) ->
  sh_hamiltonian_read n e scaled v h = Err IndexError.
Proof.
  intros Hn Hs. unfold sh_hamiltonian_read, get_nacr.
  destruct (state_pairs n) as [|p0 ps] eqn:E.
  { pose proof (pairs_length n) as L. rewrite E in L. cbn in L. nia. }
  rewrite <- E. cbn [rbind].
  match goal with |- get_H1 _ _ (get_nact _ ?x) _ = _ => set (nacr := x) end.
  pose proof (pairs_length n) as L.
  apply get_H1_short.
  - rewrite map_length, seq_length. lia.
  - rewrite nact_length. unfold nacr. rewrite map_length, combine_length. rewrite E in *. rewrite Hs, Nat.min_id. nia.
Qed.
Lemma read_few n e scaled v h : (n < 2)%nat -> sh_hamiltonian_read n e scaled v h = Err RuntimeError.
Proof. intros H. destruct n as [|[|n]]; [reflexivity|reflexivity|lia]. Qed.
