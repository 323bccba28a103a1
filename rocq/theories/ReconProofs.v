(** Proofs about reconfiguration, comb, unrestricted branching, the
    inter-node plan and [branching_dp_constant]. *)
From Verif Require Import Base BaseProofs PopModel PopSpec.
From Coq Require Import Lqa Permutation Qround Qabs Sorted.
Open Scope Q_scope.

(** ** The sweep selects, for every position, the first cumulative sum
    strictly above it. *)
Fixpoint first_above (cum : list Q) (x : Q) : nat :=
  match cum with
  | [] => 0%nat
  | c :: r => if qltb x c then 0%nat else S (first_above r x)
  end.

Lemma first_above_spec cum x j :
  (forall j' c, (j' < j)%nat -> nth_error cum j' = Some c -> c <= x) ->
  (exists c, nth_error cum j = Some c /\ x < c) ->
  first_above cum x = j.
Proof.
  revert j; induction cum; intros j H1 [c [H2 H3]].
  - destruct j; discriminate.
  - simpl. destruct j.
    + simpl in H2. inversion H2; subst. rewrite (proj2 (qltb_true _ _) H3). auto.
    + rewrite (proj2 (qltb_false _ _)).
      * f_equal. apply IHcum; [|exists c; auto].
        intros j' c' Hj Hc. apply (H1 (S j')); auto. lia.
      * apply (H1 0%nat); auto. lia.
Qed.

Lemma first_above_inv cum x :
  (exists c, In c cum /\ x < c) ->
  exists c, nth_error cum (first_above cum x) = Some c /\ x < c /\
    forall j' c', (j' < first_above cum x)%nat -> nth_error cum j' = Some c' -> c' <= x.
Proof.
  induction cum; intros [c [H1 H2]]; [contradiction|].
  simpl. destruct (qltb x a) eqn:E.
  - apply qltb_true in E. exists a. repeat split; auto. intros; lia.
  - apply qltb_false in E. destruct H1 as [->|H1]; [lra|].
    destruct IHcum as [c0 [A1 [A2 A3]]]; [exists c; auto|].
    exists c0. repeat split; auto.
    intros j' c' Hj Hc. destruct j'.
    + simpl in Hc. inversion Hc; subst; auto.
    + apply (A3 j'); auto. lia.
Qed.

Lemma position_mono n start i k : (0 < n)%nat -> (i <= k)%nat ->
  position n start i <= position n start k.
Proof.
  intros Hn H. unfold position.
  assert (inject_Z (Z.of_nat i) / inject_Z (Z.of_nat n) <=
          inject_Z (Z.of_nat k) / inject_Z (Z.of_nat n)); [|lra].
  unfold Qdiv. apply Qmult_le_compat_r.
  - rewrite <- Zle_Qle. lia.
  - apply Qinv_le_0_compat. change 0 with (inject_Z 0). rewrite <- Zle_Qle. lia.
Qed.

Lemma sweep_spec n start cum : (0 < n)%nat ->
  (forall i, (i < n)%nat -> exists c, In c cum /\ position n start i < c) ->
  forall fuel i j,
  (n - i + (length cum - j) < fuel)%nat ->
  (forall j' c, (j' < j)%nat -> nth_error cum j' = Some c -> c <= position n start i) ->
  sweep fuel n start cum i j =
    Ok (map (fun k => first_above cum (position n start k)) (seq i (n - i))).
Proof.
  intros Hn Hex. induction fuel; intros i j Hf Hj; [lia|].
  cbn [sweep]. destruct (Nat.ltb_spec i n) as [Hi|Hi].
  2:{ replace (n - i)%nat with 0%nat by lia. reflexivity. }
  destruct (nth_error cum j) as [c|] eqn:Ec.
  - unfold index. rewrite Ec. cbn [rbind].
    destruct (qltb (position n start i) c) eqn:E.
    + apply qltb_true in E. rewrite IHfuel.
      * replace (n - i)%nat with (S (n - S i)) by lia. cbn [rmap seq map].
        rewrite (first_above_spec cum _ j); auto. exists c; auto.
      * lia.
      * intros j' c' H1 H2. apply Qle_trans with (position n start i).
        -- apply (Hj j'); auto.
        -- apply position_mono; auto.
    + apply qltb_false in E. apply IHfuel.
      * assert (j < length cum)%nat by (apply nth_error_Some; congruence). lia.
      * intros j' c' H1 H2. destruct (Nat.eq_dec j' j).
        -- subst. rewrite Ec in H2. inversion H2; subst; auto.
        -- apply (Hj j'); auto. lia.
  - exfalso. apply nth_error_None in Ec.
    destruct (Hex i Hi) as [c [H1 H2]].
    apply In_nth_error in H1. destruct H1 as [p Hp].
    assert (p < length cum)%nat by (apply nth_error_Some; congruence).
    assert (c <= position n start i) by (apply (Hj p); auto; lia). lra.
Qed.

(** ** Cumulative sums *)
Definition psum (l : list Q) (k : nat) : Q := qsum (firstn k l).

Lemma cumsum_from_length acc l : length (cumsum_from acc l) = length l.
Proof. revert acc; induction l; simpl; auto. Qed.

Lemma cumsum_from_nth l : forall acc k, (k < length l)%nat ->
  exists c, nth_error (cumsum_from acc l) k = Some c /\ c == acc + psum l (S k).
Proof.
  induction l; intros acc k H; simpl in H; [lia|].
  destruct k.
  - exists (acc + a). split; [reflexivity|]. unfold psum; simpl. lra.
  - destruct (IHl (acc + a) k) as [c [H1 H2]]; [lia|].
    exists c. split; [exact H1|]. rewrite H2. unfold psum. cbn [firstn qsum].
    simpl. lra.
Qed.

Lemma psum_S l k : (k < length l)%nat -> psum l (S k) == psum l k + nth k l 0.
Proof.
  revert k; induction l; intros k H; simpl in H; [lia|].
  destruct k.
  - unfold psum; simpl. lra.
  - change (a + psum l (S k) == a + psum l k + nth k l 0). rewrite IHl by lia. lra.
Qed.

Lemma psum_all l : psum l (length l) == qsum l.
Proof. unfold psum. rewrite firstn_all. reflexivity. Qed.

Lemma psum_mono l i j : (forall x, In x l -> 0 <= x) -> (i <= j)%nat ->
  psum l i <= psum l j.
Proof.
  intros H Hij. induction Hij; [lra|].
  destruct (Nat.lt_ge_cases m (length l)).
  - rewrite psum_S by auto. assert (0 <= nth m l 0) by (apply H, nth_In; auto). lra.
  - unfold psum in *. rewrite (@firstn_all2 Q (S m) l) by lia.
    rewrite (@firstn_all2 Q m l) in IHHij by lia. auto.
Qed.

Lemma psum_nonneg l k : (forall x, In x l -> 0 <= x) -> 0 <= psum l k.
Proof.
  intros H. assert (psum l 0 <= psum l k) by (apply psum_mono; auto; lia).
  unfold psum at 1 in H0. simpl in H0. auto.
Qed.

Definition normed (ws : list Q) : list Q := map (fun w => w / qsum ws) ws.

Lemma qsum_div ws t : qsum (map (fun w => w / t) ws) == qsum ws / t.
Proof.
  induction ws; simpl.
  - unfold Qdiv. lra.
  - rewrite IHws. unfold Qdiv. lra.
Qed.

Section Recon.
Variable ws : list Q.
Hypothesis ws_nonneg : forall w, In w ws -> 0 <= w.
Hypothesis ws_pos : 0 < qsum ws.

Let n := length ws.
Let N := inject_Z (Z.of_nat n).

Lemma n_pos : (0 < n)%nat.
Proof. unfold n. destruct ws; simpl in *; [lra|lia]. Qed.

Lemma N_pos : 0 < N.
Proof. unfold N. change 0 with (inject_Z 0). rewrite <- Zlt_Qlt. pose proof n_pos. lia. Qed.

Lemma normed_nonneg x : In x (normed ws) -> 0 <= x.
Proof.
  unfold normed. intros H. apply in_map_iff in H. destruct H as [w [<- H]].
  apply Qle_shift_div_l; auto. specialize (ws_nonneg w H). lra.
Qed.

Lemma normed_length : length (normed ws) = n.
Proof. unfold normed. apply map_length. Qed.

Lemma normed_sum : qsum (normed ws) == 1.
Proof. unfold normed. rewrite qsum_div. field. lra. Qed.

Lemma normed_nth j : (j < n)%nat -> nth j (normed ws) 0 == nth j ws 0 / qsum ws.
Proof.
  intros H. unfold normed.
  rewrite (nth_indep _ 0 (0 / qsum ws)) by (rewrite map_length; auto).
  rewrite (map_nth (fun w => w / qsum ws)). reflexivity.
Qed.

Lemma cum_nth j : (j < n)%nat ->
  exists c, nth_error (norm_cumsum ws) j = Some c /\ c == psum (normed ws) (S j).
Proof.
  intros H. destruct (cumsum_from_nth (normed ws) 0 j) as [c [H1 H2]].
  - rewrite normed_length; auto.
  - exists c. split; auto. rewrite H2. lra.
Qed.

Lemma cum_length : length (norm_cumsum ws) = n.
Proof. unfold norm_cumsum. rewrite cumsum_from_length, map_length. reflexivity. Qed.

Lemma cum_has_one : exists c, In c (norm_cumsum ws) /\ c == 1.
Proof.
  destruct (cum_nth (n - 1)) as [c [H1 H2]]; [pose proof n_pos; lia|].
  exists c. split; [eapply nth_error_In; eauto|]. rewrite H2.
  replace (S (n - 1)) with (length (normed ws)) by (rewrite normed_length; pose proof n_pos; lia).
  rewrite psum_all. apply normed_sum.
Qed.

Variable start : Q.
Hypothesis start_nonneg : 0 <= start.
Hypothesis start_lt : start < 1 / N.

Lemma start_N : start * N < 1.
Proof.
  pose proof N_pos. setoid_replace 1 with ((1 / N) * N) by (field; lra).
  apply Qmult_lt_compat_r; auto.
Qed.

Lemma position_N i : position n start i * N == start * N + inject_Z (Z.of_nat i).
Proof. unfold position. fold N. field. pose proof N_pos. lra. Qed.

Lemma position_lt_1 i : (i < n)%nat -> position n start i < 1.
Proof.
  intros H. pose proof N_pos as HN. pose proof start_N.
  apply (Qmult_lt_r _ _ N); auto. rewrite position_N.
  assert (inject_Z (Z.of_nat i) + 1 <= N).
  { unfold N. change 1 with (inject_Z 1). rewrite <- inject_Z_plus, <- Zle_Qle. lia. }
  lra.
Qed.

Lemma position_has i : (i < n)%nat ->
  exists c, In c (norm_cumsum ws) /\ position n start i < c.
Proof.
  intros H. destruct cum_has_one as [c [H1 H2]]. exists c; split; auto.
  rewrite H2. apply position_lt_1; auto.
Qed.

Definition chosen (i : nat) : nat := first_above (norm_cumsum ws) (position n start i).

Lemma chosen_lt i : (i < n)%nat -> (chosen i < n)%nat.
Proof.
  intros H. destruct (first_above_inv _ _ (position_has i H)) as [c [H1 _]].
  fold (chosen i) in H1. rewrite <- cum_length. apply nth_error_Some. congruence.
Qed.

Lemma qsum_nz : Qeq_bool (qsum ws) 0 = false.
Proof.
  destruct (Qeq_bool (qsum ws) 0) eqn:E; auto. apply Qeq_bool_iff in E. lra.
Qed.

Lemma recon_run {A} (phiw : list A) (d : A) : length phiw = n ->
  stochastic_reconfiguration phiw ws start =
  Ok (map (fun i => nth (chosen i) phiw d) (seq 0 n), repeat (qsum ws / N) n).
Proof.
  intros HL. unfold stochastic_reconfiguration. fold n.
  destruct (Nat.eqb_spec n 0); [pose proof n_pos; lia|].
  rewrite qsum_nz.
  rewrite (sweep_spec n start (norm_cumsum ws) n_pos position_has).
  - cbn [rbind]. rewrite Nat.sub_0_r.
    rewrite (rmapM_ok _ (fun j => nth j phiw d)).
    + cbn [rbind]. rewrite map_map. reflexivity.
    + intros j Hj. apply in_map_iff in Hj. destruct Hj as [i [<- Hi]].
      apply in_seq in Hi. apply index_nth. rewrite HL. apply chosen_lt. lia.
  - rewrite cum_length. lia.
  - intros; lia.
Qed.

(** *** Which positions choose walker [j] *)
Lemma chosen_iff i j : (i < n)%nat -> (j < n)%nat ->
  chosen i = j <-> psum (normed ws) j <= position n start i < psum (normed ws) (S j).
Proof.
  intros Hi Hj. split.
  - intros <-. destruct (first_above_inv _ _ (position_has i Hi)) as [c [H1 [H2 H3]]].
    fold (chosen i) in *. destruct (cum_nth (chosen i) Hj) as [c' [H4 H5]].
    rewrite H4 in H1. inversion H1; subst c'. split; [|rewrite <- H5; auto].
    destruct (chosen i) as [|j'] eqn:E.
    + unfold psum; simpl. unfold position. fold N.
      assert (0 <= inject_Z (Z.of_nat i) / N); [|lra].
      apply Qle_shift_div_l; [apply N_pos|].
      rewrite Qmult_0_l. change 0 with (inject_Z 0). rewrite <- Zle_Qle. lia.
    + destruct (cum_nth j') as [c2 [H6 H7]]; [lia|].
      rewrite <- H7. apply (H3 j'); auto.
  - intros [H1 H2]. apply first_above_spec.
    + intros j' c Hj' Hc. destruct (cum_nth j') as [c2 [H6 H7]]; [lia|].
      rewrite H6 in Hc. inversion Hc; subst. rewrite H7.
      apply Qle_trans with (psum (normed ws) j); auto.
      apply psum_mono; [apply normed_nonneg|lia].
    + destruct (cum_nth j Hj) as [c [H6 H7]]. exists c; split; auto. rewrite H7; auto.
Qed.
End Recon.

(** *** Counting integers in a half-open interval *)
Definition count (p : nat -> bool) (n : nat) : nat := length (filter p (seq 0 n)).

Lemma count_interval n (lo hi : Z) (p : nat -> bool) :
  (0 <= lo <= hi)%Z -> (hi <= Z.of_nat n)%Z ->
  (forall i, (i < n)%nat -> p i = true <-> (lo <= Z.of_nat i < hi)%Z) ->
  Z.of_nat (count p n) = (hi - lo)%Z.
Proof.
  intros H1 H2 H3. unfold count.
  assert (G : forall m, (m <= n)%nat ->
     Z.of_nat (length (filter p (seq 0 m))) =
       (Z.min hi (Z.max lo (Z.of_nat m)) - lo)%Z).
  { induction m; intros Hm; [simpl; lia|].
    rewrite seq_S, filter_app, app_length. simpl.
    specialize (IHm ltac:(lia)). specialize (H3 m ltac:(lia)).
    destruct (p m).
    - assert (lo <= Z.of_nat m < hi)%Z by (apply H3; auto). simpl. lia.
    - assert (~ (lo <= Z.of_nat m < hi)%Z) by (rewrite <- H3; discriminate). simpl. lia. }
  rewrite G by lia. lia.
Qed.

Lemma lt_ceil (i : Z) y : inject_Z i < y <-> (i < Qceiling y)%Z.
Proof.
  split; intros H.
  - assert (inject_Z i < inject_Z (Qceiling y)).
    { apply Qlt_le_trans with y; auto. apply Qle_ceiling. }
    rewrite <- Zlt_Qlt in H0. auto.
  - pose proof (Qceiling_lt y).
    apply Qle_lt_trans with (inject_Z (Qceiling y - 1)); auto.
    rewrite <- Zle_Qle. lia.
Qed.

Lemma ge_ceil (i : Z) x : x <= inject_Z i <-> (Qceiling x <= i)%Z.
Proof.
  split; intros H.
  - assert (~ (i < Qceiling x)%Z); [|lia]. rewrite <- lt_ceil. lra.
  - assert (~ inject_Z i < x); [|lra]. rewrite lt_ceil. lia.
Qed.

Section Copies.
Variable ws : list Q.
Hypothesis ws_nonneg : forall w, In w ws -> 0 <= w.
Hypothesis ws_pos : 0 < qsum ws.
Let n := length ws.
Let N := inject_Z (Z.of_nat n).

Definition lower (j : nat) : Q := N * psum (normed ws) j.

Lemma copies_ceil start j : 0 <= start -> start < 1 / N -> (j < n)%nat ->
  Z.of_nat (count (fun i => Nat.eqb (chosen ws start i) j) n)
  = (Qceiling (lower (S j) - start * N) - Qceiling (lower j - start * N))%Z.
Proof.
  intros S0 S1 Hj.
  pose proof (N_pos ws ws_nonneg ws_pos) as HN. fold n N in HN.
  pose proof (start_N ws ws_nonneg ws_pos start S1) as HSN. fold n N in HSN.
  pose proof (normed_nonneg ws ws_nonneg ws_pos) as NN.
  assert (M : psum (normed ws) j <= psum (normed ws) (S j)) by (apply psum_mono; auto).
  assert (L0 : 0 <= psum (normed ws) j) by (apply psum_nonneg; auto).
  assert (L1 : psum (normed ws) (S j) <= 1).
  { rewrite <- (normed_sum ws ws_pos), <- psum_all, normed_length.
    apply psum_mono; auto. }
  assert (SN0 : 0 <= start * N) by (apply Qmult_le_0_compat; lra).
  assert (A0 : 0 <= lower j) by (unfold lower; apply Qmult_le_0_compat; lra).
  assert (A1 : lower (S j) <= N).
  { unfold lower. setoid_replace N with (N * 1) at 2 by ring. apply Qmult_le_l; auto. }
  assert (A2 : lower j <= lower (S j)) by (unfold lower; apply Qmult_le_l; auto).
  apply count_interval.
  - split.
    + assert (-1 < Qceiling (lower j - start * N))%Z; [|lia].
      apply lt_ceil. unfold inject_Z. lra.
    + apply Qceiling_resp_le. lra.
  - apply ge_ceil. fold N. lra.
  - intros i Hi. rewrite Nat.eqb_eq.
    rewrite (chosen_iff ws ws_nonneg ws_pos start S0 S1 i j) by auto. fold n.
    rewrite <- lt_ceil, <- ge_ceil.
    pose proof (position_N ws ws_nonneg ws_pos start i) as PN. fold n N in PN.
    unfold lower. split; intros [H1 H2]; split.
    + apply (Qmult_le_r _ _ N) in H1; auto. lra.
    + apply (Qmult_lt_r _ _ N) in H2; auto. lra.
    + apply (Qmult_le_r _ _ N); auto. lra.
    + apply (Qmult_lt_r _ _ N); auto. lra.
Qed.

Lemma lower_step j : (j < n)%nat -> lower (S j) - lower j == N * nth j ws 0 / qsum ws.
Proof.
  intros H. unfold lower. rewrite psum_S by (rewrite normed_length; auto).
  rewrite normed_nth by auto. field. lra.
Qed.

Lemma copies_floor_ceil start j : 0 <= start -> start < 1 / N -> (j < n)%nat ->
  let e := N * nth j ws 0 / qsum ws in
  let c := Z.of_nat (count (fun i => Nat.eqb (chosen ws start i) j) n) in
  (Qfloor e <= c <= Qceiling e)%Z.
Proof.
  intros S0 S1 Hj e c. unfold c. rewrite copies_ceil by auto.
  pose proof (lower_step j Hj) as LS. fold e in LS.
  set (y := lower (S j) - start * N) in *. set (x := lower j - start * N).
  assert (D : y - x == e) by (unfold x, y; lra).
  pose proof (Qle_ceiling y). pose proof (Qceiling_lt y).
  pose proof (Qle_ceiling x). pose proof (Qceiling_lt x).
  pose proof (Qfloor_le e). pose proof (Qlt_floor e).
  pose proof (Qle_ceiling e).
  split.
  - assert (Qfloor e < Qceiling y - Qceiling x + 1)%Z; [|lia].
    rewrite Zlt_Qlt, inject_Z_plus. unfold Z.sub in *. rewrite inject_Z_plus in *.
    rewrite !inject_Z_opp in *. change (inject_Z (-1)) with (-1#1) in *.
    change (inject_Z 1) with 1 in *. lra.
  - assert (Qceiling y - Qceiling x < Qceiling e + 1)%Z; [|lia].
    rewrite Zlt_Qlt, inject_Z_plus. unfold Z.sub in *. rewrite inject_Z_plus in *.
    rewrite !inject_Z_opp in *. change (inject_Z 1) with 1 in *.
    change (- (1)) with (-1#1) in *. lra.
Qed.
End Copies.

(** *** Copies in the output of the function, walkers labelled 0..n-1 *)
Lemma filter_map_length {A B} (p : B -> bool) (f : A -> B) l :
  length (filter p (map f l)) = length (filter (fun x => p (f x)) l).
Proof. induction l; simpl; auto. destruct (p (f a)); simpl; auto. Qed.

Lemma recon_copies ws start j :
  (forall w, In w ws -> 0 <= w) -> 0 < qsum ws ->
  0 <= start -> start < 1 / inject_Z (Z.of_nat (length ws)) ->
  copies_res j (stochastic_reconfiguration (seq 0 (length ws)) ws start)
  = count (fun i => Nat.eqb (chosen ws start i) j) (length ws).
Proof.
  intros H1 H2 S0 S1.
  rewrite (recon_run ws H1 H2 start S1 _ 0%nat) by apply seq_length.
  cbn [copies_res]. unfold copies, count. rewrite filter_map_length.
  f_equal. apply filter_ext_in. intros i Hi. apply in_seq in Hi.
  rewrite seq_nth; auto. apply chosen_lt; auto; lia.
Qed.

Lemma recon_sorted ws start :
  (forall w, In w ws -> 0 <= w) -> 0 < qsum ws ->
  0 <= start -> start < 1 / inject_Z (Z.of_nat (length ws)) ->
  forall ph w', stochastic_reconfiguration (seq 0 (length ws)) ws start = Ok (ph, w') ->
  forall a b x y, (a < b)%nat -> nth_error ph a = Some x -> nth_error ph b = Some y ->
  (x <= y)%nat.
Proof.
  intros H1 H2 S0 S1 ph w' R a b x y Hab Hx Hy.
  rewrite (recon_run ws H1 H2 start S1 _ 0%nat) in R by apply seq_length.
  inversion R; subst ph w'; clear R.
  assert (G : forall k z, nth_error (map (fun i => nth (chosen ws start i) (seq 0 (length ws)) 0%nat)
      (seq 0 (length ws))) k = Some z -> (k < length ws)%nat /\ z = chosen ws start k).
  { intros k z Hz.
    assert (Hk : (k < length ws)%nat).
    { assert (k < length (map (fun i => nth (chosen ws start i) (seq 0 (length ws)) 0%nat)
                           (seq 0 (length ws))))%nat by (apply nth_error_Some; congruence).
      rewrite map_length, seq_length in H. auto. }
    split; auto.
    rewrite (map_nth_error _ k (seq 0 (length ws)) (d := k)) in Hz.
    - inversion Hz. rewrite seq_nth; auto. apply chosen_lt; auto.
    - rewrite (nth_error_nth' _ 0%nat) by (rewrite seq_length; auto).
      rewrite seq_nth; auto. }
  apply G in Hx. apply G in Hy. destruct Hx as [Ha ->], Hy as [Hb ->].
  destruct (Nat.le_gt_cases (chosen ws start a) (chosen ws start b)) as [|C]; auto.
  exfalso.
  pose proof (chosen_lt ws H1 H2 start S1 a Ha) as Ca.
  pose proof (chosen_lt ws H1 H2 start S1 b Hb) as Cb.
  destruct (proj1 (chosen_iff ws H1 H2 start S0 S1 a _ Ha Ca) eq_refl) as [A1 A2].
  destruct (proj1 (chosen_iff ws H1 H2 start S0 S1 b _ Hb Cb) eq_refl) as [B1 B2].
  pose proof (position_mono (length ws) start a b ltac:(lia) ltac:(lia)).
  assert (psum (normed ws) (S (chosen ws start b)) <= psum (normed ws) (chosen ws start a)).
  { apply psum_mono; [apply normed_nonneg; auto|lia]. }
  lra.
Qed.

(** ** Comb *)
Lemma searchsorted_first_above cum x :
  (forall c, In c cum -> ~ c == x) -> searchsorted_left cum x = first_above cum x.
Proof.
  induction cum; intros H; simpl; auto.
  assert (~ a == x) by (apply H; simpl; auto).
  destruct (qltb a x) eqn:E.
  - apply qltb_true in E. rewrite (proj2 (qltb_false x a)) by lra.
    f_equal. apply IHcum. intros; apply H; simpl; auto.
  - apply qltb_false in E. rewrite (proj2 (qltb_true x a)) by lra. auto.
Qed.

Lemma comb_run {A} ws start (phiw : list A) :
  (forall w, In w ws -> 0 <= w) -> 0 < qsum ws ->
  0 <= start -> start < 1 / inject_Z (Z.of_nat (length ws)) ->
  length phiw = length ws ->
  (forall i c, (i < length ws)%nat -> In c (norm_cumsum ws) ->
     ~ c == position (length ws) start i) ->
  comb_resampling phiw ws start = stochastic_reconfiguration phiw ws start.
Proof.
  intros H1 H2 S0 S1 HL HD.
  assert (n_pos' : (0 < length ws)%nat) by (apply n_pos; auto).
  destruct phiw as [|d phiw']; [simpl in HL; lia|].
  set (phiw := d :: phiw') in *.
  rewrite (recon_run ws H1 H2 start S1 phiw d HL).
  unfold comb_resampling. destruct (Nat.eqb_spec (length ws) 0); [lia|].
  rewrite qsum_nz by auto.
  rewrite (rmapM_ok _ (fun i => nth (chosen ws start i) phiw d)); auto.
  intros i Hi. apply in_seq in Hi. unfold chosen.
  rewrite searchsorted_first_above.
  - apply index_nth. rewrite HL. apply chosen_lt; auto; lia.
  - intros c Hc. apply HD; auto; lia.
Qed.

(** ** Hermite's identity and the average over a grid of offsets *)
Lemma zsum_n_ext f g n : (forall k, (k < n)%nat -> f k = g k) -> zsum_n f n = zsum_n g n.
Proof. induction n; simpl; intros H; auto. rewrite IHn, H; auto. Qed.

Lemma zsum_n_sub f g n : zsum_n (fun k => (f k - g k)%Z) n = (zsum_n f n - zsum_n g n)%Z.
Proof. induction n; simpl; auto. rewrite IHn. lia. Qed.

Lemma hermite_int (M : nat) : (0 < M)%nat -> forall m,
  zsum_n (fun k => (m + Z.of_nat k) / Z.of_nat M)%Z M = m.
Proof.
  intros HM.
  assert (Step : forall m, (zsum_n (fun k => (m + 1 + Z.of_nat k) / Z.of_nat M) M =
                  zsum_n (fun k => (m + Z.of_nat k) / Z.of_nat M) M + 1)%Z).
  { intros m.
    assert (T : forall j, (zsum_n (fun k => (m + 1 + Z.of_nat k) / Z.of_nat M) j =
       zsum_n (fun k => (m + Z.of_nat k) / Z.of_nat M) j
       + (m + Z.of_nat j) / Z.of_nat M - m / Z.of_nat M)%Z).
    { induction j; cbn [zsum_n].
      - rewrite Z.add_0_r. lia.
      - rewrite IHj. replace (m + Z.of_nat (S j))%Z with (m + 1 + Z.of_nat j)%Z by lia. lia. }
    rewrite T. replace (m + Z.of_nat M)%Z with (m + 1 * Z.of_nat M)%Z by lia.
    rewrite Z.div_add by lia. lia. }
  assert (Z0 : zsum_n (fun k => (0 + Z.of_nat k) / Z.of_nat M)%Z M = 0%Z).
  { assert (T : forall j, (j <= M)%nat ->
       zsum_n (fun k => (0 + Z.of_nat k) / Z.of_nat M)%Z j = 0%Z).
    { induction j; intros Hj; cbn [zsum_n]; auto.
      rewrite IHj by lia. rewrite Z.div_small; lia. }
    apply T; auto. }
  apply Z.bi_induction.
  - intros x y E. unfold Z.eq in E. subst y. reflexivity.
  - exact Z0.
  - intros m. pose proof (Step m). rewrite <- Z.add_1_r. split; intros HH; lia.
Qed.

Lemma floor_shift (M : nat) z k : (0 < M)%nat ->
  Qfloor (z + inject_Z (Z.of_nat k) / inject_Z (Z.of_nat M)) =
  ((Qfloor (inject_Z (Z.of_nat M) * z) + Z.of_nat k) / Z.of_nat M)%Z.
Proof.
  intros HM. set (Mq := inject_Z (Z.of_nat M)).
  assert (HMq : 0 < Mq) by (unfold Mq; change 0 with (inject_Z 0); rewrite <- Zlt_Qlt; lia).
  set (m := Qfloor (Mq * z)).
  assert (m1 : inject_Z m <= Mq * z) by apply Qfloor_le.
  assert (m2 : Mq * z < inject_Z (m + 1)) by apply Qlt_floor.
  rewrite inject_Z_plus in m2.
  set (d := ((m + Z.of_nat k) / Z.of_nat M)%Z).
  pose proof (Z.div_mod (m + Z.of_nat k) (Z.of_nat M) ltac:(lia)) as DM.
  pose proof (Z.mod_pos_bound (m + Z.of_nat k) (Z.of_nat M) ltac:(lia)) as MB.
  fold d in DM. set (r := ((m + Z.of_nat k) mod Z.of_nat M)%Z) in *.
  set (v := z + inject_Z (Z.of_nat k) / Mq).
  assert (V : v * Mq == Mq * z + inject_Z (Z.of_nat k)) by (unfold v; field; lra).
  assert (E : inject_Z m + inject_Z (Z.of_nat k) == Mq * inject_Z d + inject_Z r).
  { unfold Mq. rewrite <- inject_Z_mult, <- !inject_Z_plus, DM. reflexivity. }
  assert (r0 : 0 <= inject_Z r) by (change 0 with (inject_Z 0); rewrite <- Zle_Qle; lia).
  assert (r1 : inject_Z r + 1 <= Mq).
  { unfold Mq. change 1 with (inject_Z 1). rewrite <- inject_Z_plus, <- Zle_Qle. lia. }
  assert (lo : inject_Z d <= v).
  { apply (Qmult_le_r _ _ Mq); auto. rewrite V. lra. }
  assert (hi : v < inject_Z (d + 1)).
  { apply (Qmult_lt_r _ _ Mq); auto. rewrite V, inject_Z_plus.
    change (inject_Z 1) with 1 in *. lra. }
  assert (Qfloor v < d + 1)%Z.
  { rewrite Zlt_Qlt. apply Qle_lt_trans with v; auto. apply Qfloor_le. }
  assert (d < Qfloor v + 1)%Z.
  { rewrite Zlt_Qlt. apply Qle_lt_trans with v; auto. apply Qlt_floor. }
  lia.
Qed.

Lemma hermite (M : nat) z : (0 < M)%nat ->
  zsum_n (fun k => Qfloor (z + inject_Z (Z.of_nat k) / inject_Z (Z.of_nat M))) M
  = Qfloor (inject_Z (Z.of_nat M) * z).
Proof.
  intros HM. rewrite (zsum_n_ext _ (fun k =>
     (Qfloor (inject_Z (Z.of_nat M) * z) + Z.of_nat k) / Z.of_nat M)%Z)
    by (intros; apply floor_shift; auto).
  apply hermite_int; auto.
Qed.

Lemma hermite_ceil (M : nat) y : (0 < M)%nat ->
  zsum_n (fun k => Qceiling (y - inject_Z (Z.of_nat k) / inject_Z (Z.of_nat M))) M
  = Qceiling (inject_Z (Z.of_nat M) * y).
Proof.
  intros HM. unfold Qceiling.
  assert (forall f n, zsum_n (fun k => (- f k)%Z) n = (- zsum_n f n)%Z) as ZO.
  { induction n; simpl; auto. rewrite IHn. lia. }
  rewrite (ZO (fun k => Qfloor (- (y - inject_Z (Z.of_nat k) / inject_Z (Z.of_nat M))))).
  f_equal.
  rewrite (zsum_n_ext _ (fun k => Qfloor (- y + inject_Z (Z.of_nat k) / inject_Z (Z.of_nat M)))).
  - rewrite hermite by auto. apply Qfloor_comp. ring.
  - intros k _. apply Qfloor_comp. ring.
Qed.

Lemma grid_offset_range n M k : (0 < n)%nat -> (k < M)%nat ->
  0 <= grid_offset n M k /\ grid_offset n M k < 1 / inject_Z (Z.of_nat n).
Proof.
  intros Hn Hk. unfold grid_offset.
  set (Nq := inject_Z (Z.of_nat n)). set (Mq := inject_Z (Z.of_nat M)).
  assert (HNq : 0 < Nq) by (unfold Nq; change 0 with (inject_Z 0); rewrite <- Zlt_Qlt; lia).
  assert (HMq : 0 < Mq) by (unfold Mq; change 0 with (inject_Z 0); rewrite <- Zlt_Qlt; lia).
  assert (K0 : 0 <= inject_Z (Z.of_nat k)) by (change 0 with (inject_Z 0); rewrite <- Zle_Qle; lia).
  assert (K1 : inject_Z (Z.of_nat k) < Mq) by (unfold Mq; rewrite <- Zlt_Qlt; lia).
  assert (MN : 0 < Mq * Nq) by (apply Qmult_lt_0_compat; auto).
  split.
  - apply Qle_shift_div_l; [auto|lra].
  - apply Qlt_shift_div_r; auto.
    setoid_replace (1 / Nq * (Mq * Nq)) with Mq by (field; lra). auto.
Qed.

Lemma recon_average ws j (M : nat) :
  (forall w, In w ws -> 0 <= w) -> 0 < qsum ws -> (j < length ws)%nat -> (0 < M)%nat ->
  let n := length ws in
  let total := zsum_n (fun k => Z.of_nat (copies_res j
       (stochastic_reconfiguration (seq 0 n) ws (grid_offset n M k)))) M in
  let e := inject_Z (Z.of_nat n) * nth j ws 0 / qsum ws in
  Qabs.Qabs (inject_Z total / inject_Z (Z.of_nat M) - e) < 1 / inject_Z (Z.of_nat M).
Proof.
  intros H1 H2 Hj HM n total e.
  assert (Hn : (0 < n)%nat) by (unfold n; lia).
  set (Mq := inject_Z (Z.of_nat M)).
  assert (HMq : 0 < Mq) by (unfold Mq; change 0 with (inject_Z 0); rewrite <- Zlt_Qlt; lia).
  assert (HN : 0 < inject_Z (Z.of_nat n)) by (apply N_pos; auto).
  assert (T : total = (Qceiling (Mq * lower ws (S j)) - Qceiling (Mq * lower ws j))%Z).
  { unfold total, Mq. rewrite <- !hermite_ceil by auto. rewrite <- zsum_n_sub.
    apply zsum_n_ext. intros k Hk.
    destruct (grid_offset_range n M k Hn Hk) as [G0 G1].
    unfold n. rewrite (recon_copies ws (grid_offset (length ws) M k) j H1 H2 G0 G1). rewrite (copies_ceil ws H1 H2 (grid_offset (length ws) M k) j G0 G1 Hj).
    assert (E : grid_offset n M k * inject_Z (Z.of_nat (length ws)) ==
                inject_Z (Z.of_nat k) / inject_Z (Z.of_nat M)).
    { unfold grid_offset. fold n Mq. field. split; lra. }
    fold n. f_equal; apply Qceiling_comp; unfold n in *; rewrite E; reflexivity. }
  set (y := Mq * lower ws (S j)) in *. set (x := Mq * lower ws j) in *.
  assert (D : y - x == Mq * e).
  { unfold x, y.
    setoid_replace (Mq * lower ws (S j) - Mq * lower ws j)
      with (Mq * (lower ws (S j) - lower ws j)) by ring.
    rewrite lower_step by auto. reflexivity. }
  pose proof (Qle_ceiling y). pose proof (Qceiling_lt y).
  pose proof (Qle_ceiling x). pose proof (Qceiling_lt x).
  unfold Z.sub in T. rewrite T. rewrite inject_Z_plus, inject_Z_opp.
  unfold Z.sub in *. rewrite inject_Z_plus in *. rewrite inject_Z_opp in *.
  change (inject_Z 1) with 1 in *.
  set (cy := inject_Z (Qceiling y)) in *. set (cx := inject_Z (Qceiling x)) in *.
  apply Qabs.Qabs_Qlt_condition.
  split; apply (Qmult_lt_r _ _ Mq); auto.
  - setoid_replace (- (1 / Mq) * Mq) with (-1#1) by (field; lra).
    setoid_replace (((cy + - cx) / Mq - e) * Mq) with (cy - cx - Mq * e) by (field; lra). lra.
  - setoid_replace ((1 / Mq) * Mq) with 1 by (field; lra).
    setoid_replace (((cy + - cx) / Mq - e) * Mq) with (cy - cx - Mq * e) by (field; lra). lra.
Qed.

(** ** Comb, general offset *)
Definition chosen_comb (ws : list Q) (start : Q) (i : nat) : nat :=
  searchsorted_left (norm_cumsum ws) (position (length ws) start i).

Lemma searchsorted_inv cum x :
  (exists c, In c cum /\ x <= c) ->
  exists c, nth_error cum (searchsorted_left cum x) = Some c /\ x <= c /\
    forall j' c', (j' < searchsorted_left cum x)%nat -> nth_error cum j' = Some c' -> c' < x.
Proof.
  induction cum; intros [c [H1 H2]]; [contradiction|].
  simpl. destruct (qltb a x) eqn:E.
  - apply qltb_true in E. destruct H1 as [->|H1]; [lra|].
    destruct IHcum as [c0 [A1 [A2 A3]]]; [exists c; auto|].
    exists c0. repeat split; auto.
    intros j' c' Hj Hc. destruct j'.
    + simpl in Hc. inversion Hc; subst; auto.
    + apply (A3 j'); auto. lia.
  - apply qltb_false in E. exists a. repeat split; auto. intros; lia.
Qed.

Lemma searchsorted_spec cum x j :
  (forall j' c, (j' < j)%nat -> nth_error cum j' = Some c -> c < x) ->
  (exists c, nth_error cum j = Some c /\ x <= c) ->
  searchsorted_left cum x = j.
Proof.
  revert j; induction cum; intros j H1 [c [H2 H3]].
  - destruct j; discriminate.
  - simpl. destruct j.
    + simpl in H2. inversion H2; subst. rewrite (proj2 (qltb_false _ _) H3). auto.
    + rewrite (proj2 (qltb_true _ _)).
      * f_equal. apply IHcum; [|exists c; auto].
        intros j' c' Hj Hc. apply (H1 (S j')); auto. lia.
      * apply (H1 0%nat); auto. lia.
Qed.

Section Comb.
Variable ws : list Q.
Hypothesis ws_nonneg : forall w, In w ws -> 0 <= w.
Hypothesis ws_pos : 0 < qsum ws.
Variable start : Q.
Hypothesis S0 : 0 <= start.
Hypothesis S1 : start < 1 / inject_Z (Z.of_nat (length ws)).
Let n := length ws.
Let N := inject_Z (Z.of_nat n).

Lemma comb_has i : (i < n)%nat ->
  exists c, In c (norm_cumsum ws) /\ position n start i <= c.
Proof.
  intros H. destruct (position_has ws ws_nonneg ws_pos start S1 i H) as [c [H1 H2]].
  exists c. split; auto. apply Qlt_le_weak. auto.
Qed.

Lemma chosen_comb_lt i : (i < n)%nat -> (chosen_comb ws start i < n)%nat.
Proof.
  intros H. destruct (searchsorted_inv _ _ (comb_has i H)) as [c [H1 _]].
  unfold n. rewrite <- (cum_length ws). apply nth_error_Some.
  unfold chosen_comb. unfold n in H1. congruence.
Qed.

Lemma comb_run_gen {A} (phiw : list A) (d : A) : length phiw = n ->
  comb_resampling phiw ws start =
  Ok (map (fun i => nth (chosen_comb ws start i) phiw d) (seq 0 n), repeat (qsum ws / N) n).
Proof.
  intros HL. pose proof (n_pos ws ws_nonneg ws_pos).
  unfold comb_resampling. fold n. destruct (Nat.eqb_spec n 0) as [E|E]; [unfold n in E; lia|].
  rewrite qsum_nz by auto.
  rewrite (rmapM_ok _ (fun i => nth (chosen_comb ws start i) phiw d)); auto.
  intros i Hi. apply in_seq in Hi. apply index_nth. rewrite HL.
  apply chosen_comb_lt. lia.
Qed.

Lemma chosen_comb_iff i j : 0 < start -> (i < n)%nat -> (j < n)%nat ->
  chosen_comb ws start i = j <->
  psum (normed ws) j < position n start i <= psum (normed ws) (S j).
Proof.
  intros SP Hi Hj. split.
  - intros E. destruct (searchsorted_inv _ _ (comb_has i Hi)) as [c [H1 [H2 H3]]].
    unfold chosen_comb in E. fold n in E. rewrite E in *.
    destruct (cum_nth ws j Hj) as [c' [H4 H5]].
    rewrite H4 in H1. inversion H1; subst c'. split; [|rewrite <- H5; auto].
    clear E. destruct j as [|j'].
    + unfold psum; simpl. unfold position.
      assert (0 <= inject_Z (Z.of_nat i) / inject_Z (Z.of_nat n)); [|lra].
      apply Qle_shift_div_l; [apply N_pos; auto|].
      rewrite Qmult_0_l. change 0 with (inject_Z 0). rewrite <- Zle_Qle. lia.
    + destruct (cum_nth ws j') as [c2 [H6 H7]]; [unfold n in *; lia|].
      rewrite <- H7. apply (H3 j'); auto.
  - intros [H1 H2]. apply searchsorted_spec.
    + intros j' c Hj' Hc. destruct (cum_nth ws j') as [c2 [H6 H7]]; [unfold n in *; lia|].
      rewrite H6 in Hc. inversion Hc; subst. rewrite H7.
      apply Qle_lt_trans with (psum (normed ws) j); auto.
      apply psum_mono; [apply normed_nonneg; auto|lia].
    + destruct (cum_nth ws j Hj) as [c [H6 H7]]. exists c; split; auto. rewrite H7; auto.
Qed.

Lemma comb_copies_floor_ceil j : 0 < start -> (j < n)%nat ->
  let e := N * nth j ws 0 / qsum ws in
  let c := Z.of_nat (count (fun i => Nat.eqb (chosen_comb ws start i) j) n) in
  (Qfloor e <= c <= Qceiling e)%Z.
Proof.
  intros SP Hj e c.
  assert (HN : 0 < N) by (apply (N_pos ws ws_nonneg ws_pos)).
  assert (HSN : start * N < 1) by (apply (start_N ws ws_nonneg ws_pos start S1)).
  pose proof (normed_nonneg ws ws_nonneg ws_pos) as NN.
  assert (M : psum (normed ws) j <= psum (normed ws) (S j)) by (apply psum_mono; auto).
  assert (L0 : 0 <= psum (normed ws) j) by (apply psum_nonneg; auto).
  assert (L1 : psum (normed ws) (S j) <= 1).
  { rewrite <- (normed_sum ws ws_pos), <- psum_all, normed_length.
    apply psum_mono; auto. }
  assert (SN0 : 0 < start * N) by (apply Qmult_lt_0_compat; lra).
  assert (A0 : 0 <= lower ws j) by (unfold lower; fold n N; apply Qmult_le_0_compat; lra).
  assert (A1 : lower ws (S j) <= N).
  { unfold lower. fold n N. setoid_replace N with (N * 1) at 2 by ring. apply Qmult_le_l; auto. }
  assert (A2 : lower ws j <= lower ws (S j)) by (unfold lower; fold n N; apply Qmult_le_l; auto).
  set (y := lower ws (S j) - start * N). set (x := lower ws j - start * N).
  assert (C : c = (Qfloor y + 1 - (Qfloor x + 1))%Z).
  { unfold c. apply count_interval.
    - split.
      + assert (-1 <= Qfloor x)%Z; [|lia].
        change (-1)%Z with (Qfloor (-1#1)). apply Qfloor_resp_le. unfold x. lra.
      + assert (Qfloor x <= Qfloor y)%Z; [|lia]. apply Qfloor_resp_le. unfold x, y. lra.
    - assert (Qfloor y < Z.of_nat n)%Z; [|lia]. rewrite Zlt_Qlt. fold N.
      apply Qle_lt_trans with y; [apply Qfloor_le|]. unfold y. lra.
    - intros i Hi. rewrite Nat.eqb_eq. rewrite chosen_comb_iff by auto.
      pose proof (position_N ws ws_nonneg ws_pos start i) as PN. fold n N in PN.
      assert (F1 : x < inject_Z (Z.of_nat i) <-> (Qfloor x + 1 <= Z.of_nat i)%Z).
      { split; intros H.
        - assert (Qfloor x < Z.of_nat i)%Z; [|lia]. rewrite Zlt_Qlt.
          apply Qle_lt_trans with x; auto. apply Qfloor_le.
        - apply Qlt_le_trans with (inject_Z (Qfloor x + 1)); [apply Qlt_floor|].
          rewrite <- Zle_Qle. auto. }
      assert (F2 : inject_Z (Z.of_nat i) <= y <-> (Z.of_nat i < Qfloor y + 1)%Z).
      { split; intros H.
        - rewrite Zlt_Qlt. apply Qle_lt_trans with y; auto. apply Qlt_floor.
        - apply Qle_trans with (inject_Z (Qfloor y)); [|apply Qfloor_le].
          rewrite <- Zle_Qle. lia. }
      rewrite <- F1, <- F2. unfold x, y, lower. fold n N.
      split; intros [H1 H2]; split.
      + apply (Qmult_lt_r _ _ N) in H1; auto. lra.
      + apply (Qmult_le_r _ _ N) in H2; auto. lra.
      + apply (Qmult_lt_r _ _ N); auto. lra.
      + apply (Qmult_le_r _ _ N); auto. lra. }
  assert (LS : y - x == e).
  { unfold x, y. pose proof (lower_step ws ws_pos j Hj) as LS. fold n N in LS.
    unfold e. rewrite <- LS. ring. }
  rewrite C.
  pose proof (Qfloor_le y). pose proof (Qlt_floor y).
  pose proof (Qfloor_le x). pose proof (Qlt_floor x).
  pose proof (Qfloor_le e). pose proof (Qle_ceiling e).
  rewrite inject_Z_plus in *. change (inject_Z 1) with 1 in *.
  split.
  - assert (Qfloor e < Qfloor y - Qfloor x + 1)%Z; [|lia].
    rewrite Zlt_Qlt. unfold Z.sub. rewrite !inject_Z_plus, inject_Z_opp.
    change (inject_Z 1) with 1. lra.
  - assert (Qfloor y - Qfloor x < Qceiling e + 1)%Z; [|lia].
    rewrite Zlt_Qlt. unfold Z.sub. rewrite !inject_Z_plus, inject_Z_opp.
    change (inject_Z 1) with 1. lra.
Qed.
End Comb.

Lemma comb_copies ws start j :
  (forall w, In w ws -> 0 <= w) -> 0 < qsum ws ->
  0 <= start -> start < 1 / inject_Z (Z.of_nat (length ws)) ->
  copies_res j (comb_resampling (seq 0 (length ws)) ws start)
  = count (fun i => Nat.eqb (chosen_comb ws start i) j) (length ws).
Proof.
  intros H1 H2 S0 S1.
  rewrite (comb_run_gen ws H1 H2 start S1 _ 0%nat) by apply seq_length.
  cbn [copies_res]. unfold copies, count. rewrite filter_map_length.
  f_equal. apply filter_ext_in. intros i Hi. apply in_seq in Hi.
  rewrite seq_nth; auto. apply chosen_comb_lt; auto; lia.
Qed.

(** ** Statements used by the property file *)
Lemma recon_conserves {A} (phiw : list A) ws start :
  length phiw = length ws ->
  (forall w, In w ws -> 0 <= w) -> 0 < qsum ws ->
  0 <= start -> start < 1 / inject_Z (Z.of_nat (length ws)) ->
  exists ph w', stochastic_reconfiguration phiw ws start = Ok (ph, w') /\
    length ph = length phiw /\ length w' = length phiw /\
    (forall x, In x ph -> In x phiw) /\
    (forall w, In w w' -> w == qsum ws / inject_Z (Z.of_nat (length phiw))) /\
    qsum w' == qsum ws.
Proof.
  intros HL H1 H2 S0 S1.
  pose proof (n_pos ws H1 H2) as Hn. pose proof (N_pos ws H1 H2) as HN.
  destruct phiw as [|d phiw']; [simpl in HL; lia|]. set (phiw := d :: phiw') in *.
  rewrite (recon_run ws H1 H2 start S1 _ d HL). do 2 eexists. split; [reflexivity|].
  rewrite HL. repeat split.
  - now rewrite map_length, seq_length.
  - apply repeat_length.
  - intros x Hx. apply in_map_iff in Hx. destruct Hx as [i [<- Hi]]. apply in_seq in Hi.
    apply nth_In. rewrite HL. apply chosen_lt; auto; lia.
  - intros w Hw. apply repeat_spec in Hw. subst. reflexivity.
  - rewrite qsum_repeat. field. lra.
Qed.

Lemma comb_conserves {A} (phiw : list A) ws start :
  length phiw = length ws ->
  (forall w, In w ws -> 0 <= w) -> 0 < qsum ws ->
  0 <= start -> start < 1 / inject_Z (Z.of_nat (length ws)) ->
  exists ph w', comb_resampling phiw ws start = Ok (ph, w') /\
    length ph = length phiw /\ length w' = length phiw /\
    (forall x, In x ph -> In x phiw) /\
    (forall w, In w w' -> w == qsum ws / inject_Z (Z.of_nat (length phiw))) /\
    qsum w' == qsum ws.
Proof.
  intros HL H1 H2 S0 S1.
  pose proof (n_pos ws H1 H2) as Hn. pose proof (N_pos ws H1 H2) as HN.
  destruct phiw as [|d phiw']; [simpl in HL; lia|]. set (phiw := d :: phiw') in *.
  rewrite (comb_run_gen ws H1 H2 start S1 _ d HL). do 2 eexists. split; [reflexivity|].
  rewrite HL. repeat split.
  - now rewrite map_length, seq_length.
  - apply repeat_length.
  - intros x Hx. apply in_map_iff in Hx. destruct Hx as [i [<- Hi]]. apply in_seq in Hi.
    apply nth_In. rewrite HL. apply chosen_comb_lt; auto; lia.
  - intros w Hw. apply repeat_spec in Hw. subst. reflexivity.
  - rewrite qsum_repeat. field. lra.
Qed.

Lemma recon_copies_bounds ws start j :
  (forall w, In w ws -> 0 <= w) -> 0 < qsum ws ->
  0 <= start -> start < 1 / inject_Z (Z.of_nat (length ws)) -> (j < length ws)%nat ->
  let e := inject_Z (Z.of_nat (length ws)) * nth j ws 0 / qsum ws in
  let c := Z.of_nat (copies_res j
             (stochastic_reconfiguration (seq 0 (length ws)) ws start)) in
  (Qfloor e <= c <= Qceiling e)%Z.
Proof.
  intros H1 H2 S0 S1 Hj e c. unfold c. rewrite recon_copies by auto.
  apply copies_floor_ceil; auto.
Qed.

Lemma comb_copies_bounds ws start j :
  (forall w, In w ws -> 0 <= w) -> 0 < qsum ws ->
  0 < start -> start < 1 / inject_Z (Z.of_nat (length ws)) -> (j < length ws)%nat ->
  let e := inject_Z (Z.of_nat (length ws)) * nth j ws 0 / qsum ws in
  let c := Z.of_nat (copies_res j (comb_resampling (seq 0 (length ws)) ws start)) in
  (Qfloor e <= c <= Qceiling e)%Z.
Proof.
  intros H1 H2 S0 S1 Hj e c. unfold c. rewrite comb_copies by (auto; lra).
  apply comb_copies_floor_ceil; auto.
Qed.

Lemma zero_weight_dropped ws start j :
  (forall w, In w ws -> 0 <= w) -> 0 < qsum ws ->
  0 < start -> start < 1 / inject_Z (Z.of_nat (length ws)) -> (j < length ws)%nat ->
  nth j ws 0 == 0 ->
  copies_res j (stochastic_reconfiguration (seq 0 (length ws)) ws start) = 0%nat /\
  copies_res j (comb_resampling (seq 0 (length ws)) ws start) = 0%nat.
Proof.
  intros H1 H2 S0 S1 Hj Hz.
  assert (E : inject_Z (Z.of_nat (length ws)) * nth j ws 0 / qsum ws == 0).
  { rewrite Hz. field. lra. }
  pose proof (recon_copies_bounds ws start j H1 H2 ltac:(lra) S1 Hj) as R.
  pose proof (comb_copies_bounds ws start j H1 H2 S0 S1 Hj) as C.
  cbv zeta in R, C. rewrite E in R, C. change (Qceiling 0) with 0%Z in *. lia.
Qed.

Lemma comb_boundary :
  exists ws start ph w',
  (forall w, In w ws -> 0 <= w) /\ 0 < qsum ws /\
  0 <= start /\ start < 1 / inject_Z (Z.of_nat (length ws)) /\
  comb_resampling (seq 0 (length ws)) ws start = Ok (ph, w') /\
  (exists j, In j ph /\ nth j ws 0 == 0) /\
  comb_resampling (seq 0 (length ws)) ws start
    <> stochastic_reconfiguration (seq 0 (length ws)) ws start.
Proof.
  exists [0; 1], 0, [0; 1]%nat, [1#2; 1#2].
  split. { simpl; intuition (subst; discriminate). }
  split; [reflexivity|]. split; [discriminate|]. split; [reflexivity|].
  split; [vm_compute; reflexivity|]. split.
  - exists 0%nat. simpl. split; auto. reflexivity.
  - vm_compute. discriminate.
Qed.

Lemma searchsorted_mono cum : forall m m', m <= m' ->
  (searchsorted_left cum m <= searchsorted_left cum m')%nat.
Proof.
  induction cum as [|c r IH]; intros m m' H; simpl; auto.
  destruct (qltb c m) eqn:E.
  - apply qltb_true in E. assert (E' : qltb c m' = true) by (apply qltb_true; lra).
    rewrite E'. apply le_n_S, IH, H.
  - lia.
Qed.

Lemma rmapM_nth {B C} (f : B -> res C) l : forall out, rmapM f l = Ok out ->
  forall k y, nth_error out k = Some y -> exists x, nth_error l k = Some x /\ f x = Ok y.
Proof.
  induction l as [|x l IH]; intros out R k y Hy; simpl in R.
  - inversion R; subst. destruct k; discriminate.
  - destruct (f x) eqn:E; [|discriminate]. cbn [rbind] in R.
    destruct (rmapM f l) eqn:E2; [|discriminate]. cbn [rbind] in R. inversion R; subst.
    destruct k; simpl in Hy.
    + inversion Hy; subst. exists x; auto.
    + destruct (IH _ eq_refl k y Hy) as [x' [H1 H2]]. exists x'; auto.
Qed.

Lemma comb_sorted ws start ph w' :
  comb_resampling (seq 0 (length ws)) ws start = Ok (ph, w') ->
  forall a b x y, (a < b)%nat -> nth_error ph a = Some x -> nth_error ph b = Some y ->
  (x <= y)%nat.
Proof.
  intros R a b x y Hab Hx Hy. unfold comb_resampling in R.
  destruct (Nat.eqb_spec (length ws) 0); [discriminate|].
  destruct (Qeq_bool (qsum ws) 0); [discriminate|].
  destruct (rmapM _ _) as [ph'|] eqn:E; [|discriminate]. cbn [rbind] in R.
  inversion R; subst ph'; clear R.
  destruct (rmapM_nth _ _ _ E a x Hx) as [i [Hi Ei]].
  destruct (rmapM_nth _ _ _ E b y Hy) as [j [Hj Ej]].
  assert (La : (a < length ws)%nat).
  { rewrite <- (seq_length (length ws) 0). apply nth_error_Some. congruence. }
  assert (Lb : (b < length ws)%nat).
  { rewrite <- (seq_length (length ws) 0). apply nth_error_Some. congruence. }
  assert (i = a).
  { rewrite (nth_error_nth' _ 0%nat) in Hi by (rewrite seq_length; auto).
    rewrite seq_nth in Hi by auto. inversion Hi; auto. }
  assert (j = b).
  { rewrite (nth_error_nth' _ 0%nat) in Hj by (rewrite seq_length; auto).
    rewrite seq_nth in Hj by auto. inversion Hj; auto. }
  subst i j.
  assert (P : forall k z, index (seq 0 (length ws)) k = Ok z -> z = k).
  { intros k z Hz. pose proof (index_ok_lt _ _ _ Hz) as L.
    rewrite (index_nth _ k 0%nat L) in Hz. inversion Hz.
    rewrite seq_length in L. rewrite seq_nth; auto. }
  apply P in Ei. apply P in Ej. subst x y.
  apply searchsorted_mono. apply position_mono; lia.
Qed.
