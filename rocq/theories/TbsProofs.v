(** Proofs about the bosonic trial. *)
From Coq Require Import Reals List ZArith Lia Lra Psatz.
From Verif Require Base.
From Verif Require Import TbsModel TbsSpec.
Import ListNotations.
Local Open Scope R_scope.

Lemma electrons_spec N s na nb :
  electrons N s = Base.Ok (na, nb) <-> (0 <= na /\ 0 <= nb /\ na + nb = N /\ na - nb = s)%Z.
Proof.
  unfold electrons.
  destruct (Z.leb_spec 0 ((N + s) / 2)); simpl.
  2: { split; [discriminate|]. intros (h1 & h2 & h3 & h4).
       assert ((N + s) / 2 = na)%Z by (symmetry; apply Z.div_unique with (r := 0%Z); lia). lia. }
  destruct (Z.leb_spec 0 ((N + s) / 2 - s)); simpl.
  2: { split; [discriminate|]. intros (h1 & h2 & h3 & h4).
       assert ((N + s) / 2 = na)%Z by (symmetry; apply Z.div_unique with (r := 0%Z); lia). lia. }
  destruct (Z.eqb_spec ((N + s) / 2 + ((N + s) / 2 - s)) N).
  - split.
    + intros e0; injection e0 as <- <-. lia.
    + intros (h1 & h2 & h3 & h4).
      assert ((N + s) / 2 = na)%Z by (symmetry; apply Z.div_unique with (r := 0%Z); lia).
      f_equal; f_equal; lia.
  - split; [discriminate|]. intros (h1 & h2 & h3 & h4).
    assert ((N + s) / 2 = na)%Z by (symmetry; apply Z.div_unique with (r := 0%Z); lia). lia.
Qed.

Lemma abs2 x : Rabs x ^ 2 = x * x.
Proof. rewrite <- Rsqr_pow2, <- Rsqr_abs. reflexivity. Qed.

Lemma norm_length2 l : norm l = sqrt (length2 l).
Proof.
  unfold norm; f_equal. induction l as [|c r IH]; [reflexivity|].
  cbn [fold_right length2]. rewrite IH, abs2. reflexivity.
Qed.

Lemma length2_nonneg l : 0 <= length2 l.
Proof. induction l; simpl; [lra|nra]. Qed.

Lemma length2_app l l' : length2 (l ++ l') = length2 l + length2 l'.
Proof. induction l; simpl; lra. Qed.

Lemma length2_scale a l : length2 (map (fun c => c / a) l) = length2 l / (a * a).
Proof.
  induction l; simpl; [unfold Rdiv; ring|]. rewrite IHl.
  unfold Rdiv. rewrite Rinv_mult. ring.
Qed.

Lemma displacement_scale a l : forall k,
  displacement k (map (fun c => c / a) l) = displacement k l / (a * a).
Proof.
  induction l as [|c r IH]; intros k; [simpl; unfold Rdiv; ring|].
  destruct r as [|c' r']; [simpl; unfold Rdiv; ring|].
  change (map (fun c0 => c0 / a) (c :: c' :: r'))
    with ((c / a) :: map (fun c0 => c0 / a) (c' :: r')).
  simpl map in *. simpl displacement in *. specialize (IH (S k)). simpl in IH. rewrite IH.
  unfold Rdiv. rewrite Rinv_mult. ring.
Qed.

Lemma normalised l : 0 < length2 l -> length2 (normalise l) = 1.
Proof.
  intros h. unfold normalise. rewrite length2_scale, norm_length2, sqrt_sqrt by lra.
  field. lra.
Qed.

Lemma coeff_0 z : 0 < coeff z 0.
Proof.
  unfold coeff. simpl. rewrite sqrt_1. unfold Rdiv. rewrite Rinv_1, !Rmult_1_r. apply exp_pos.
Qed.

Lemma fact_pos n : 0 < INR (fact n).
Proof. apply lt_0_INR, lt_O_fact. Qed.

(** The lowering operator multiplies by the amplitude. *)
Lemma coeff_step z n : sqrt (INR (S n)) * coeff z (S n) = z * coeff z n.
Proof.
  unfold coeff. pose proof (fact_pos n) as hf.
  assert (hs : 0 < INR (S n)) by (apply lt_0_INR; lia).
  replace (fact (S n)) with (S n * fact n)%nat by reflexivity.
  rewrite mult_INR, sqrt_mult by lra.
  pose proof (sqrt_lt_R0 _ hf). pose proof (sqrt_lt_R0 _ hs).
  change (z ^ S n) with (z * z ^ n). field. lra.
Qed.

Lemma raw_cons z zs n ns : raw (z :: zs) (n :: ns) = map (coeff z) (seq 0 n) ++ raw zs ns.
Proof. reflexivity. Qed.

Lemma raw_pos zs : forall ns, length zs = length ns -> Exists (fun n => 0 < n)%nat ns ->
  0 < length2 (raw zs ns).
Proof.
  induction zs as [|z zs IH]; intros [|n ns] hl he; try discriminate.
  - inversion he.
  - rewrite raw_cons, length2_app.
    pose proof (length2_nonneg (raw zs ns)). pose proof (length2_nonneg (map (coeff z) (seq 0 n))).
    inversion he as [? ? hn|? ? hr]; subst.
    + destruct n as [|n]; [lia|]. simpl. simpl in H0. pose proof (coeff_0 z).
      pose proof (length2_nonneg (map (coeff z) (seq 1 n))). nra.
    + enough (0 < length2 (raw zs ns)) by lra. apply IH; [injection hl; auto|assumption].
Qed.

Lemma raw_block zs : forall ns m, length zs = length ns -> (m < length ns)%nat ->
  block ns m (raw zs ns) = map (coeff (nth m zs 0)) (seq 0 (nth m ns 0%nat)).
Proof.
  induction zs as [|z zs IH]; intros [|n ns] m hl hm; try discriminate; simpl in hm; [lia|].
  rewrite raw_cons. destruct m as [|m]; unfold block; simpl.
  - rewrite firstn_app, map_length, seq_length, Nat.sub_diag, firstn_O, app_nil_r.
    apply firstn_all2. rewrite map_length, seq_length. lia.
  - rewrite skipn_app, map_length, seq_length.
    replace (n + _ - n)%nat with (fold_right Nat.add 0%nat (firstn m ns)) by lia.
    rewrite skipn_all2 by (rewrite map_length, seq_length; lia). simpl.
    apply (IH ns m); [injection hl; auto|lia].
Qed.

Lemma block_map (f : R -> R) ns m l : block ns m (map f l) = map f (block ns m l).
Proof. unfold block. rewrite skipn_map, firstn_map. reflexivity. Qed.

Lemma psi_block zs ns m : length zs = length ns -> (m < length ns)%nat ->
  block ns m (boson_psi zs ns)
  = map (fun c => c / norm (raw zs ns)) (map (coeff (nth m zs 0)) (seq 0 (nth m ns 0%nat))).
Proof.
  intros hl hm. unfold boson_psi, normalise. rewrite block_map, raw_block by assumption. reflexivity.
Qed.

Lemma nth_scaled (f : nat -> R) a k n : (k < n)%nat ->
  nth k (map (fun c => c / a) (map f (seq 0 n))) 0 = f k / a.
Proof.
  intros h. rewrite map_map.
  rewrite nth_indep with (d' := f 0%nat / a) by (rewrite map_length, seq_length; lia).
  rewrite (map_nth (fun x => f x / a)). rewrite seq_nth by lia. reflexivity.
Qed.

Lemma psi_ladder zs ns m k : length zs = length ns -> (m < length ns)%nat ->
  (S k < nth m ns 0)%nat ->
  sqrt (INR (S k)) * nth (S k) (block ns m (boson_psi zs ns)) 0
  = nth m zs 0 * nth k (block ns m (boson_psi zs ns)) 0.
Proof.
  intros hl hm hk. rewrite psi_block by assumption. rewrite !nth_scaled by lia.
  unfold Rdiv. rewrite <- !Rmult_assoc, coeff_step. reflexivity.
Qed.

(** Two modes of equal displacement share one unit of norm. *)
Lemma two_modes z n : (0 < n)%nat ->
  displacement 0 (block [n; n] 0 (boson_psi [z; z] [n; n]))
  = displacement 0 (boson_psi [z] [n]) / 2.
Proof.
  intros hn. rewrite psi_block by (simpl; lia). simpl nth.
  unfold boson_psi, normalise. rewrite !displacement_scale, !norm_length2.
  assert (e1 : raw [z] [n] = map (coeff z) (seq 0 n)) by (unfold raw; simpl; apply app_nil_r).
  assert (e2 : length2 (raw [z; z] [n; n]) = length2 (raw [z] [n]) * 2).
  { rewrite raw_cons, length2_app, e1. ring. }
  assert (p : 0 < length2 (raw [z] [n])) by (apply raw_pos; [reflexivity|constructor; assumption]).
  rewrite e2, !sqrt_sqrt, e1 in * by lra. field. lra.
Qed.

Lemma default_pos ns : Exists (fun n => 0 < n)%nat ns ->
  0 < length2 (flat_map (fun n => map (fun k => exp (- INR k)) (seq 0 n)) ns).
Proof.
  induction ns as [|n ns IH]; intros he; [inversion he|]. simpl. rewrite length2_app.
  pose proof (length2_nonneg (flat_map (fun n => map (fun k => exp (- INR k)) (seq 0 n)) ns)).
  pose proof (length2_nonneg (map (fun k => exp (- INR k)) (seq 0 n))).
  inversion he as [? ? hn|? ? hr]; subst; [|specialize (IH hr); lra].
  destruct n as [|n]; [lia|]. simpl. pose proof (exp_pos (- 0)).
  pose proof (length2_nonneg (map (fun k => exp (- INR k)) (seq 1 n))). nra.
Qed.

Lemma rsum_total k f : rsum k f = total k f.
Proof. induction k; simpl; [reflexivity|rewrite IHk; ring]. Qed.

Lemma total_ext k f g : (forall i, f i = g i) -> total k f = total k g.
Proof. intros h. induction k; simpl; [reflexivity|rewrite IHk, h; reflexivity]. Qed.

Lemma total_double k f : total k (fun i => f i + f i) = 2 * total k f.
Proof. induction k; simpl; [ring|rewrite IHk; ring]. Qed.

(** A closed shell has twice the expectation value of one spin. *)
Lemma zalpha_closed d h G : expectation d h G G = 2 * zalpha d h G.
Proof.
  unfold expectation, zalpha. rewrite rsum_total, <- total_double.
  apply total_ext. intros p. rewrite rsum_total.
  replace (total d (fun q => h p q * G p q) + total d (fun q => h p q * G p q))
    with (2 * total d (fun q => h p q * G p q)) by ring.
  rewrite <- total_double. apply total_ext. intros q. ring.
Qed.

Lemma best_mode w g z : 0 < w -> mode_energy w g (- g / w) <= mode_energy w g z.
Proof.
  intros hw. unfold mode_energy.
  assert (0 <= w * ((z + g / w) * (z + g / w))) by (apply Rmult_le_pos; [lra|apply Rle_0_sqr]).
  replace (w * (- g / w * (- g / w)) + g * (2 * (- g / w))) with (- (g * g / w)) by (field; lra).
  replace (w * ((z + g / w) * (z + g / w))) with (w * (z * z) + g * (2 * z) + g * g / w) in H
    by (field; lra). lra.
Qed.

(** Amplitudes for one mode with displacement one and two states. *)
Lemma one_mode : displacement 0 (boson_psi [1] [2%nat]) = 1.
Proof.
  unfold boson_psi, normalise. rewrite displacement_scale, norm_length2.
  assert (p : 0 < length2 (raw [1] [2%nat])) by (apply raw_pos; [reflexivity|repeat constructor]).
  rewrite sqrt_sqrt by lra.
  unfold raw in *. cbn [combine flat_map seq map app fst snd length2 displacement] in *.
  pose proof (coeff_step 1 0) as e. simpl INR in *. rewrite sqrt_1 in *.
  assert (e' : coeff 1 1 = coeff 1 0) by lra. rewrite e' in *. field.
  lra.
Qed.
