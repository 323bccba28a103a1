(** Proofs about unrestricted branching, the inter-node send plan and
    [branching_dp_constant]. *)
From Verif Require Import Base BaseProofs PopModel PopSpec PopProofs.
From Coq Require Import Lqa Permutation Qround.
Open Scope Q_scope.

(** ** Unrestricted branching *)
Lemma ub_floor ub w : 0 < ub -> ub < w ->
  (1 <= Z.to_nat (Qfloor (w / ub)))%nat /\
  inject_Z (Z.of_nat (Z.to_nat (Qfloor (w / ub)))) * ub <= w /\
  w < (inject_Z (Z.of_nat (Z.to_nat (Qfloor (w / ub)))) + 1) * ub.
Proof.
  intros H1 H2.
  assert (H3 : 1 <= w / ub) by (apply Qle_shift_div_l; lra).
  assert (H4 : (1 <= Qfloor (w / ub))%Z).
  { change 1%Z with (Qfloor 1). apply Qfloor_resp_le. auto. }
  rewrite Z2Nat.id by lia.
  assert (E : (w / ub) * ub == w) by (field; lra).
  split; [lia|]. split.
  - rewrite <- E at 2. apply Qmult_le_compat_r; [apply Qfloor_le|lra].
  - rewrite <- E at 1. apply Qmult_lt_compat_r; auto.
    change 1 with (inject_Z 1). rewrite <- inject_Z_plus. apply Qlt_floor.
Qed.

Lemma map_snd_repeat {A} (p : A) (w : Q) k : map snd (repeat (p, w) k) = repeat w k.
Proof. induction k; simpl; congruence. Qed.

Lemma branch_walker_range {A} ub lb coin (p : A) w : 0 < lb -> lb <= ub ->
  forall x, In x (branch_walker ub lb coin p w) ->
    fst x = p /\ lb <= snd x < 2 * ub.
Proof.
  intros H1 H2 x. unfold branch_walker.
  destruct (qltb ub w) eqn:E1.
  - apply qltb_true in E1. intros Hx. apply repeat_spec in Hx. subst x. cbn [fst snd].
    destruct (ub_floor ub w ltac:(lra) E1) as [F1 [F2 F3]].
    set (k := inject_Z (Z.of_nat (Z.to_nat (Qfloor (w / ub))))) in *.
    assert (K : 1 <= k) by (unfold k; change 1 with (inject_Z 1); rewrite <- Zle_Qle; lia).
    split; auto. split.
    + apply Qle_trans with ub; auto. apply Qle_shift_div_l; [lra|]. lra.
    + apply Qlt_shift_div_r; [lra|].
      apply Qlt_le_trans with ((k + 1) * ub); auto.
      setoid_replace (2 * ub * k) with ((k + k) * ub) by ring.
      apply Qmult_le_compat_r; lra.
  - apply qltb_false in E1. destruct (qltb w lb) eqn:E2.
    + apply qltb_true in E2. destruct (coin (w / lb)); [|intros []].
      intros [<-|[]]. cbn [fst snd]. split; auto. lra.
    + apply qltb_false in E2. intros [<-|[]]. cbn [fst snd]. split; auto. lra.
Qed.

Lemma bpc_range {A} ub lb coin : 0 < lb -> lb <= ub -> forall (l : list (A * Q)) k x,
  In x (branching_pc_from ub lb coin k l) ->
  In (fst x) (map fst l) /\ lb <= snd x < 2 * ub.
Proof.
  intros H1 H2. induction l as [|[p w] l IH]; intros k x Hx; [contradiction|].
  cbn [branching_pc_from] in Hx. apply in_app_or in Hx. destruct Hx as [Hx|Hx].
  - destruct (branch_walker_range ub lb _ p w H1 H2 x Hx) as [-> ?]. simpl; auto.
  - destruct (IH _ _ Hx). simpl; auto.
Qed.

Lemma branch_walker_total {A} ub lb coin (p : A) w : 0 < lb -> lb <= ub ->
  lb <= w -> qsum (map snd (branch_walker ub lb coin p w)) == w.
Proof.
  intros H1 H2 H3. unfold branch_walker. destruct (qltb ub w) eqn:E1.
  - apply qltb_true in E1. rewrite map_snd_repeat, qsum_repeat.
    destruct (ub_floor ub w ltac:(lra) E1) as [F1 _].
    set (n := Z.to_nat (Qfloor (w / ub))) in *.
    assert (1 <= inject_Z (Z.of_nat n)) by (change 1 with (inject_Z 1); rewrite <- Zle_Qle; lia).
    field. lra.
  - rewrite (proj2 (qltb_false w lb)) by auto. simpl. lra.
Qed.

Lemma bpc_total {A} ub lb coin : 0 < lb -> lb <= ub -> forall (l : list (A * Q)) k,
  (forall x, In x l -> lb <= snd x) ->
  qsum (map snd (branching_pc_from ub lb coin k l)) == qsum (map snd l).
Proof.
  intros H1 H2. induction l as [|[p w] l IH]; intros k H; [reflexivity|].
  cbn [branching_pc_from map snd qsum]. rewrite map_app, qsum_app, IH by (intros; apply H; simpl; auto).
  apply Qplus_comp; [|reflexivity]. apply branch_walker_total; auto. apply (H (p, w)); simpl; auto.
Qed.

Lemma survival_range lb w : 0 < lb -> 0 <= w -> 0 <= survival lb w <= 1.
Proof.
  intros H1 H2. unfold survival. destruct (qltb w lb) eqn:E; [|lra].
  apply qltb_true in E. split.
  - apply Qle_shift_div_l; lra.
  - apply Qle_shift_div_r; lra.
Qed.

Lemma bpc_ext {A} ub lb c1 c2 : forall (l : list (A * Q)) k,
  (forall j q, (k <= j)%nat -> c1 j q = c2 j q) ->
  branching_pc_from ub lb c1 k l = branching_pc_from ub lb c2 k l.
Proof.
  induction l as [|[p w] l IH]; intros k H; simpl; auto.
  rewrite (IH (S k)) by (intros; apply H; lia). f_equal.
  unfold branch_walker. rewrite H by lia. reflexivity.
Qed.

Lemma expect_ext' qs : forall f g, (forall l, f l == g l) -> expect qs f == expect qs g.
Proof. exact (expect_ext qs). Qed.

Lemma expect_add qs : forall c f, expect qs (fun l => c + f l) == c + expect qs f.
Proof.
  induction qs; intros c f; simpl; [reflexivity|].
  rewrite (IHqs c (fun l => f (true :: l))), (IHqs c (fun l => f (false :: l))). ring.
Qed.

Lemma bpc_unbiased {A} ub lb (l : list (A * Q)) : 0 < lb -> lb <= ub -> forall k,
  expect (map (fun p => survival lb (snd p)) l)
    (fun coins => qsum (map snd (branching_pc_from ub lb
                          (fun j _ => nth (j - k) coins false) k l)))
  == qsum (map snd l).
Proof.
  intros H1 H2. induction l as [|[p w] l IH]; intros k; [reflexivity|].
  cbn [map expect snd].
  assert (Step : forall c, expect (map (fun p => survival lb (snd p)) l)
    (fun coins => qsum (map snd (branching_pc_from ub lb
        (fun j _ => nth (j - k) (c :: coins) false) k ((p, w) :: l))))
    == qsum (map snd (branch_walker ub lb (fun _ => c) p w)) + qsum (map snd l)).
  { intros c. rewrite <- (IH (S k)). rewrite <- expect_add.
    apply expect_ext. intros coins. cbn [branching_pc_from].
    rewrite map_app, qsum_app. apply Qplus_comp.
    - rewrite Nat.sub_diag. reflexivity.
    - rewrite (bpc_ext ub lb (fun j _ => nth (j - k) (c :: coins) false)
                  (fun j _ => nth (j - S k) coins false)); [reflexivity|].
      intros j q Hj. replace (j - k)%nat with (S (j - S k)) by lia. reflexivity. }
  rewrite (Step true), (Step false). cbn [qsum].
  unfold survival. destruct (qltb w lb) eqn:E.
  - assert (E' := E). apply qltb_true in E'. unfold branch_walker.
    rewrite (proj2 (qltb_false ub w)) by lra. rewrite E. simpl. field. lra.
  - apply qltb_false in E. rewrite !branch_walker_total by auto. lra.
Qed.

(** ** Inter-node plan *)
Open Scope Z_scope.

Definition amount (r : nat) (l : list (nat * Z)) : Z :=
  zsum (map snd (filter (fun t => Nat.eqb (fst t) r) l)).

Lemma zsum_app l1 l2 : zsum (l1 ++ l2) = zsum l1 + zsum l2.
Proof. induction l1; simpl; auto. rewrite IHl1. lia. Qed.

Lemma sent_app r p1 p2 : sent r (p1 ++ p2) = sent r p1 + sent r p2.
Proof. unfold sent. rewrite filter_app, map_app, zsum_app. auto. Qed.
Lemma received_app r p1 p2 : received r (p1 ++ p2) = received r p1 + received r p2.
Proof. unfold received. rewrite filter_app, map_app, zsum_app. auto. Qed.
Lemma sent_cons r s d c p : sent r ((s, d, c) :: p) = (if Nat.eqb s r then c else 0) + sent r p.
Proof. unfold sent; simpl. destruct (Nat.eqb s r); simpl; lia. Qed.
Lemma received_cons r s d c p : received r ((s, d, c) :: p) = (if Nat.eqb d r then c else 0) + received r p.
Proof. unfold received; simpl. destruct (Nat.eqb d r); simpl; lia. Qed.
Lemma amount_cons r s c l : amount r ((s, c) :: l) = (if Nat.eqb s r then c else 0) + amount r l.
Proof. unfold amount; simpl. destruct (Nat.eqb s r); simpl; lia. Qed.

Lemma serve_spec ri : forall snds need pl rem,
  serve ri need snds = (pl, rem) ->
  (forall x, In x snds -> 0 < snd x) -> 0 <= need <= zsum (map snd snds) ->
  (forall t, In t pl -> 0 < snd t /\ snd (fst t) = ri /\ In (fst (fst t)) (map fst snds)) /\
  received ri pl = need /\
  (forall r, r <> ri -> received r pl = 0) /\
  (forall r, sent r pl + amount r rem = amount r snds) /\
  (forall x, In x rem -> 0 < snd x /\ In (fst x) (map fst snds)) /\
  zsum (map snd rem) = zsum (map snd snds) - need.
Proof.
  induction snds as [|[sr sur] rest IH]; intros need pl rem HS Hpos Hn.
  - simpl in *. inversion HS; subst. simpl. repeat split; intros; try contradiction; try lia.
    unfold received; simpl. lia.
  - simpl in HS. simpl in Hn.
    assert (Psur : 0 < sur) by (apply (Hpos (sr, sur)); simpl; auto).
    destruct (Z.ltb_spec 0 need) as [Hneed|Hneed].
    + destruct (Z.eqb_spec (sur - Z.min need sur) 0) as [Hex|Hex].
      * destruct (serve ri (need - Z.min need sur) rest) as [pl' rem'] eqn:ES.
        inversion HS; subst pl rem; clear HS.
        destruct (IH _ _ _ ES) as [A1 [A2 [A3 [A4 [A5 A6]]]]].
        { intros; apply Hpos; simpl; auto. }
        { lia. }
        split; [|split; [|split; [|split; [|split]]]].
        -- intros t [<-|Ht]; simpl.
           ++ repeat split; auto. lia.
           ++ destruct (A1 t Ht) as [? [? ?]]. auto.
        -- rewrite received_cons, Nat.eqb_refl. lia.
        -- intros r Hr. rewrite received_cons. rewrite A3 by auto.
           destruct (Nat.eqb_spec ri r); [congruence|]. lia.
        -- intros r. rewrite sent_cons, amount_cons. rewrite <- A4.
           destruct (Nat.eqb sr r); lia.
        -- intros x Hx. destruct (A5 x Hx). simpl. auto.
        -- simpl. lia.
      * inversion HS; subst pl rem; clear HS.
        split; [|split; [|split; [|split; [|split]]]].
        -- intros t [<-|[]]; simpl. repeat split; auto. lia.
        -- rewrite received_cons, Nat.eqb_refl. unfold received; simpl. lia.
        -- intros r Hr. rewrite received_cons. destruct (Nat.eqb_spec ri r); [congruence|].
           reflexivity.
        -- intros r. rewrite sent_cons, !amount_cons. unfold sent; simpl.
           destruct (Nat.eqb sr r); lia.
        -- intros x [<-|Hx]; simpl; [split; auto; lia|]. split; [apply Hpos; simpl; auto|].
           right. apply in_map; auto.
        -- simpl. lia.
    + inversion HS; subst pl rem; clear HS.
      assert (need = 0) by lia. subst need.
      split; [|split; [|split; [|split; [|split]]]].
      * contradiction.
      * reflexivity.
      * reflexivity.
      * intros r. unfold sent; simpl. lia.
      * intros x Hx. split; [apply Hpos; auto|]. apply in_map; auto.
      * simpl. lia.
Qed.

Lemma make_plan_spec : forall recs snds,
  (forall x, In x snds -> 0 < snd x) -> (forall x, In x recs -> 0 < snd x) ->
  zsum (map snd recs) <= zsum (map snd snds) ->
  let pl := make_plan recs snds in
  (forall t, In t pl -> 0 < snd t /\ In (snd (fst t)) (map fst recs) /\
                        In (fst (fst t)) (map fst snds)) /\
  (forall r, received r pl = amount r recs) /\
  (forall r, 0 <= sent r pl <= amount r snds).
Proof.
  assert (AP : forall r l, (forall x : nat * Z, In x l -> 0 < snd x) -> 0 <= amount r l).
  { intros r l. unfold amount. induction l as [|[s c] l IH]; simpl; intros H; [lia|].
    assert (0 < c) by (apply (H (s, c)); auto).
    destruct (Nat.eqb s r); simpl; [|apply IH; auto].
    assert (0 <= zsum (map snd (filter (fun t => Nat.eqb (fst t) r) l))) by (apply IH; auto). lia. }
  induction recs as [|[ri need] recs IH]; intros snds Hs Hr Hle.
  - split; [|split].
    + intros t [].
    + reflexivity.
    + intros r. split; [unfold sent; simpl; lia|]. unfold sent; simpl. apply AP; auto.
  - simpl in Hle. cbn zeta. cbn [make_plan].
    destruct (serve ri need snds) as [pl rem] eqn:ES.
    assert (0 < need) by (apply (Hr (ri, need)); simpl; auto).
    assert (0 <= zsum (map snd recs)).
    { clear - Hr. assert (forall x, In x recs -> 0 < snd x) by (intros; apply Hr; simpl; auto).
      clear Hr. induction recs; simpl; [lia|]. assert (0 < snd a) by (apply H; simpl; auto).
      assert (0 <= zsum (map snd recs)) by (apply IHrecs; intros; apply H; simpl; auto). lia. }
    destruct (serve_spec ri snds need pl rem ES Hs) as [A1 [A2 [A3 [A4 [A5 A6]]]]]; [lia|].
    destruct (IH rem) as [B1 [B2 B3]].
    + intros x Hx. apply A5; auto.
    + intros; apply Hr; simpl; auto.
    + lia.
    + split; [|split].
      * intros t Ht. apply in_app_or in Ht. destruct Ht as [Ht|Ht].
        -- destruct (A1 t Ht) as [C1 [C2 C3]]. repeat split; auto. simpl; auto.
        -- destruct (B1 t Ht) as [C1 [C2 C3]]. repeat split; auto; [simpl; auto|].
           apply in_map_iff in C3. destruct C3 as [x [<- Hx]]. apply A5; auto.
      * intros r. rewrite received_app, amount_cons, B2.
        destruct (Nat.eqb_spec ri r).
        -- subst. lia.
        -- rewrite A3 by auto. lia.
      * intros r. rewrite sent_app. specialize (A4 r). specialize (B3 r).
        assert (0 <= sent r pl).
        { clear - A1. unfold sent. induction pl as [|[[s d] c] pl IHp]; simpl; [lia|].
          assert (0 <= zsum (map snd (filter (fun t => Nat.eqb (fst (fst t)) r) pl)))
            by (apply IHp; intros; apply A1; simpl; auto).
          assert (0 < c) by (apply (A1 (s, d, c)); simpl; auto).
          destruct (Nat.eqb s r); simpl; lia. }
        lia.
Qed.

(** Amounts of the sender and receiver lists. *)
Lemma amount_senders ds r : forall k,
  amount r (filter (fun p => Z.ltb 0 (snd p)) (enum_from k ds)) =
  if Nat.ltb r k then 0 else Z.max 0 (nth (r - k) ds 0).
Proof.
  induction ds as [|d ds IH]; intros k; simpl.
  - unfold amount; simpl. destruct (Nat.ltb r k); auto. destruct (r - k)%nat; auto.
  - assert (G : (if Nat.eqb k r then Z.max 0 d else 0) +
       amount r (filter (fun p => Z.ltb 0 (snd p)) (enum_from (S k) ds)) =
       if Nat.ltb r k then 0 else Z.max 0 (match (r - k)%nat with 0%nat => d | S m => nth m ds 0 end)).
    { rewrite IH. destruct (Nat.eqb_spec k r).
      - subst. rewrite Nat.ltb_irrefl, Nat.sub_diag.
        destruct (Nat.ltb_spec r (S r)); lia.
      - destruct (Nat.ltb_spec r k), (Nat.ltb_spec r (S k)); try lia.
        replace (r - k)%nat with (S (r - S k)) by lia. lia. }
    destruct (Z.ltb_spec 0 d).
    + rewrite amount_cons. rewrite <- G. destruct (Nat.eqb k r); lia.
    + rewrite <- G. destruct (Nat.eqb k r); lia.
Qed.

Lemma amount_receivers ds r : forall k,
  amount r (map (fun p => (fst p, - snd p)) (filter (fun p => Z.ltb (snd p) 0) (enum_from k ds))) =
  if Nat.ltb r k then 0 else Z.max 0 (- nth (r - k) ds 0).
Proof.
  induction ds as [|d ds IH]; intros k; simpl.
  - unfold amount; simpl. destruct (Nat.ltb r k); auto. destruct (r - k)%nat; auto.
  - assert (G : (if Nat.eqb k r then Z.max 0 (- d) else 0) +
       amount r (map (fun p => (fst p, - snd p)) (filter (fun p => Z.ltb (snd p) 0) (enum_from (S k) ds))) =
       if Nat.ltb r k then 0 else Z.max 0 (- match (r - k)%nat with 0%nat => d | S m => nth m ds 0 end)).
    { rewrite IH. destruct (Nat.eqb_spec k r).
      - subst. rewrite Nat.ltb_irrefl, Nat.sub_diag.
        destruct (Nat.ltb_spec r (S r)); lia.
      - destruct (Nat.ltb_spec r k), (Nat.ltb_spec r (S k)); try lia.
        replace (r - k)%nat with (S (r - S k)) by lia. lia. }
    destruct (Z.ltb_spec d 0).
    + cbn [map fst snd]. rewrite amount_cons. rewrite <- G. destruct (Nat.eqb k r); lia.
    + rewrite <- G. destruct (Nat.eqb k r); lia.
Qed.

Lemma split_sum ds : forall k,
  zsum (map snd (filter (fun p => Z.ltb 0 (snd p)) (enum_from k ds))) -
  zsum (map snd (map (fun p => (fst p, - snd p))
       (filter (fun p => Z.ltb (snd p) 0) (enum_from k ds)))) = zsum ds.
Proof.
  induction ds as [|d ds IH]; intros k; cbn [enum_from filter map zsum snd]; auto.
  specialize (IH (S k)).
  destruct (Z.ltb_spec 0 d), (Z.ltb_spec d 0); cbn [map zsum snd fst] in *; lia.
Qed.

Lemma zsum_deltas counts c : zsum (map (fun x => x - c) counts) = zsum counts - Z.of_nat (length counts) * c.
Proof. induction counts; cbn [map zsum length]; [lia|]. rewrite IHcounts. lia. Qed.

Lemma received_pos pl : (forall t, In t pl -> 0 < snd t) -> forall s r c,
  In (s, r, c) pl -> 0 < received r pl.
Proof.
  intros Hp s r c. assert (NN : 0 <= received r pl /\ (In (s, r, c) pl -> 0 < received r pl)).
  { induction pl as [|[[s' d'] c'] q IH]; [unfold received; simpl; split; [lia|intros []]|].
    rewrite received_cons. assert (0 < c') by (apply (Hp (s', d', c')); simpl; auto).
    destruct IH as [I1 I2]; [intros; apply Hp; simpl; auto|].
    split; [destruct (Nat.eqb d' r); lia|].
    intros [E|Hin].
    - inversion E; subst. rewrite Nat.eqb_refl. lia.
    - specialize (I2 Hin). destruct (Nat.eqb d' r); lia. }
  tauto.
Qed.

Lemma sent_pos pl : (forall t, In t pl -> 0 < snd t) -> forall s r c,
  In (s, r, c) pl -> 0 < sent s pl.
Proof.
  intros Hp s r c. assert (NN : 0 <= sent s pl /\ (In (s, r, c) pl -> 0 < sent s pl)).
  { induction pl as [|[[s' d'] c'] q IH]; [unfold sent; simpl; split; [lia|intros []]|].
    rewrite sent_cons. assert (0 < c') by (apply (Hp (s', d', c')); simpl; auto).
    destruct IH as [I1 I2]; [intros; apply Hp; simpl; auto|].
    split; [destruct (Nat.eqb s' s); lia|].
    intros [E|Hin].
    - inversion E; subst. rewrite Nat.eqb_refl. lia.
    - specialize (I2 Hin). destruct (Nat.eqb s' s); lia. }
  tauto.
Qed.

Lemma send_plan_spec counts : counts <> [] ->
  let pl := make_plan (receivers (deltas counts)) (senders (deltas counts)) in
  let avg := zsum counts / Z.of_nat (length counts) in
  (forall s r c, In (s, r, c) pl -> 0 < c /\ s <> r) /\
  forall i, (i < length counts)%nat ->
    let before := nth i counts 0 in
    let after := before - sent i pl + received i pl in
    (before < avg -> after = avg /\ sent i pl = 0) /\
    (avg <= before -> avg <= after <= before /\ received i pl = 0).
Proof.
  intros Hne pl avg.
  assert (Hlen : 0 < Z.of_nat (length counts)) by (destruct counts; [congruence|simpl; lia]).
  set (ds := deltas counts).
  assert (Hsum : 0 <= zsum ds).
  { unfold ds, deltas. rewrite zsum_deltas. unfold ideal.
    pose proof (Z.mul_div_le (zsum counts) (Z.of_nat (length counts)) Hlen). lia. }
  pose proof (split_sum ds 0) as SS.
  assert (PS : forall x, In x (senders ds) -> 0 < snd x).
  { unfold senders. intros x Hx. apply filter_In in Hx. destruct Hx as [_ Hx].
    apply Z.ltb_lt in Hx. auto. }
  assert (PR : forall x, In x (receivers ds) -> 0 < snd x).
  { unfold receivers. intros x Hx. apply in_map_iff in Hx. destruct Hx as [y [<- Hy]].
    apply filter_In in Hy. destruct Hy as [_ Hy]. apply Z.ltb_lt in Hy. simpl. lia. }
  destruct (make_plan_spec (receivers ds) (senders ds) PS PR) as [A1 [A2 A3]].
  { unfold senders, receivers. lia. }
  change (make_plan (receivers ds) (senders ds)) with pl in A1, A2, A3.
  assert (AS : forall i, amount i (senders ds) = Z.max 0 (nth i ds 0)).
  { intros i. unfold senders. rewrite amount_senders.
    destruct (Nat.ltb_spec i 0); [lia|]. now rewrite Nat.sub_0_r. }
  assert (AR : forall i, amount i (receivers ds) = Z.max 0 (- nth i ds 0)).
  { intros i. unfold receivers. rewrite amount_receivers.
    destruct (Nat.ltb_spec i 0); [lia|]. now rewrite Nat.sub_0_r. }
  split.
  - intros s r c Ht. destruct (A1 _ Ht) as [C1 [C2 C3]]. cbn [fst snd] in C1, C2, C3. split; auto.
    intros ->.
    assert (PP : forall t, In t pl -> 0 < snd t) by (intros t H; apply A1; auto).
    pose proof (received_pos pl PP _ _ _ Ht). pose proof (sent_pos pl PP _ _ _ Ht).
    specialize (A2 r). specialize (A3 r). rewrite AS in A3. rewrite AR in A2. lia.
  - intros i Hi before after.
    assert (D : nth i ds 0 = before - avg).
    { unfold ds, deltas, before.
      rewrite (nth_indep _ 0 (0 - ideal counts)) by (rewrite map_length; auto).
      rewrite (map_nth (fun c => c - ideal counts)). unfold ideal, avg. lia. }
    specialize (A2 i). specialize (A3 i). rewrite AS, D in A3. rewrite AR, D in A2.
    unfold after. lia.
Qed.

(** ** [branching_dp_constant]: the population size is kept *)
Lemma const_loop_length {A} mn mx draws sidx : forall fuel s e (wk : list A) ws wk' ws',
  const_loop fuel mn mx draws sidx s e wk ws = Ok (wk', ws') ->
  length wk' = length wk /\ length ws' = length ws.
Proof.
  induction fuel; intros s e wk ws wk' ws' H; [discriminate|].
  cbn [const_loop] in H. destruct (Nat.ltb s e); [|inversion H; auto].
  destruct (index sidx s) as [si|]; [|discriminate]. cbn [rbind] in H.
  destruct (index sidx e) as [ei|]; [|discriminate]. cbn [rbind] in H.
  destruct (index ws si) as [wsi|]; [|discriminate]. cbn [rbind] in H.
  destruct (index ws ei) as [wei|]; [|discriminate]. cbn [rbind] in H.
  destruct (orb _ _); [|inversion H; auto].
  destruct (large_wins _ _ _).
  - destruct (index wk si) as [x|]; [|discriminate]. cbn [rbind] in H.
    apply IHfuel in H. rewrite !upd_length in H. auto.
  - destruct (index wk ei) as [x|]; [|discriminate]. cbn [rbind] in H.
    apply IHfuel in H. rewrite !upd_length in H. auto.
Qed.

(** ** Statements used by the property file *)
Lemma const_size : forall (A : Type) (wk : list A) ws mn mx sidx draws wk' ws',
  branching_dp_constant wk ws mn mx sidx draws = Ok (wk', ws') ->
  length wk' = length wk /\ length ws' = length ws.
Proof. intros. eapply const_loop_length; eauto. Qed.

Lemma perm_01 : is_perm_of_indices 2 [0; 1]%nat.
Proof. apply Permutation_refl. Qed.

Lemma const_refuted :
  exists (weights : list Q) (sidx : list nat) (draws : nat -> Q) out ws',
  is_perm_of_indices (length weights) sidx /\ sorted_by_weight weights sidx /\
  branching_dp_constant (seq 0 (length weights)) weights (1#5) (4#1) sidx draws = Ok (out, ws') /\
  ~ qsum (map qabs ws') == qsum (map qabs weights) /\
  (draws 0%nat < qabs (nth 1 weights 0%Q) / (qabs (nth 0 weights 0%Q) + qabs (nth 1 weights 0%Q)))%Q /\
  ~ In 1%nat out.
Proof.
  exists [1#10; 39#10]%Q, [0; 1]%nat, (fun _ => 1#2)%Q, [0; 0]%nat, [1#10; 400#200]%Q.
  split; [apply perm_01|]. split.
  { intros p q i j Hpq Hi Hj.
    destruct p as [|[|p]]; destruct q as [|[|q]]; simpl in Hi, Hj; try lia;
      try (destruct q; discriminate); try (destruct p; discriminate);
      inversion Hi; inversion Hj; subst; vm_compute; discriminate. }
  split; [vm_compute; reflexivity|]. split; [vm_compute; discriminate|].
  split; [vm_compute; reflexivity|]. simpl. intuition discriminate.
Qed.

Lemma bpc_all : forall (A : Type) ub lb, (0 < lb)%Q -> (lb <= ub)%Q ->
  (forall (l : list (A * Q)) draws x, In x (branching_population_control ub lb draws l) ->
     In (fst x) (map fst l) /\ (lb <= snd x < 2 * ub)%Q) /\
  (forall (p : A) w coin, (lb <= w <= ub)%Q -> branch_walker ub lb coin p w = [(p, w)]) /\
  (forall (l : list (A * Q)) draws, (forall x, In x l -> (lb <= snd x)%Q) ->
     qsum (map snd (branching_population_control ub lb draws l)) == qsum (map snd l)) /\
  (forall w, (0 <= w)%Q -> (0 <= survival lb w <= 1)%Q) /\
  (forall l : list (A * Q),
     expect (map (fun p => survival lb (snd p)) l)
       (fun coins => qsum (map snd (branching_pc_from ub lb
                             (fun j _ => nth j coins false) 0 l)))
     == qsum (map snd l)).
Proof.
  intros A ub lb H1 H2. repeat split.
  - eapply bpc_range; eauto.
  - eapply bpc_range; eauto.
  - eapply bpc_range; eauto.
  - intros p w coin [Ha Hb]. unfold branch_walker.
    rewrite (proj2 (qltb_false ub w)), (proj2 (qltb_false w lb)) by auto. reflexivity.
  - intros l draws H. apply bpc_total; auto.
  - apply survival_range; auto.
  - apply survival_range; auto.
  - intros l. rewrite <- (bpc_unbiased ub lb l H1 H2 0). apply expect_ext. intros coins.
    rewrite (bpc_ext ub lb (fun j _ => nth j coins false) (fun j _ => nth (j - 0) coins false));
      [reflexivity|]. intros; now rewrite Nat.sub_0_r.
Qed.

Lemma rebalance_plan : forall counts : list Z, counts <> [] ->
  let pl := send_plan counts in
  let avg := (zsum counts / Z.of_nat (length counts))%Z in
  (forall s r c, In (s, r, c) pl -> (0 < c)%Z /\ s <> r) /\
  (pl = [] \/
   forall i, (i < length counts)%nat ->
    let before := nth i counts 0%Z in
    let after := (before - sent i pl + received i pl)%Z in
    ((before < avg)%Z -> after = avg /\ sent i pl = 0%Z) /\
    ((avg <= before)%Z -> (avg <= after <= before)%Z /\ received i pl = 0%Z)).
Proof.
  intros counts Hne pl avg. destruct (send_plan_spec counts Hne) as [A B].
  unfold pl, send_plan. destruct (Z.ltb _ _).
  - split; [exact A|]. right. exact B.
  - split; [intros s r c []|]. left; reflexivity.
Qed.

Lemma max_abs_ge ds d : In d ds -> Z.abs d <= max_abs ds.
Proof.
  unfold max_abs. induction ds; [intros []|]. cbn [fold_right]. intros [->|H]; [lia|].
  specialize (IHds H). lia.
Qed.

Lemma plan_empty : forall counts : list Z, counts <> [] -> (forall c, In c counts -> (0 <= c)%Z) ->
  send_plan counts = [] ->
  forall c, In c counts ->
  let avg := (zsum counts / Z.of_nat (length counts))%Z in
  (20 * (avg - c) <= avg)%Z.
Proof.
  intros counts Hne Hnn HP c Hc avg.
  assert (Havg : 0 <= avg).
  { unfold avg. apply Z.div_pos; [|destruct counts; [congruence|simpl; lia]].
    clear - Hnn. induction counts; simpl; [lia|].
    assert (0 <= a) by (apply Hnn; simpl; auto).
    assert (0 <= zsum counts) by (apply IHcounts; intros; apply Hnn; simpl; auto). lia. }
  destruct (Z.le_gt_cases avg c); [lia|].
  unfold send_plan in HP. destruct (Z.ltb_spec (ideal counts) (20 * max_abs (deltas counts))).
  - exfalso. destruct (send_plan_spec counts Hne) as [A B].
    rewrite HP in B. apply In_nth with (d := 0) in Hc. destruct Hc as [i [Hi Hci]].
    destruct (B i Hi) as [B1 _]. rewrite Hci in B1. unfold sent, received in B1. simpl in B1.
    fold avg in B1. lia.
  - assert (Z.abs (c - ideal counts) <= max_abs (deltas counts)).
    { apply max_abs_ge. unfold deltas. apply (in_map (fun c => c - ideal counts)). auto. }
    unfold ideal in H0, H1. fold avg in H0, H1. lia.
Qed.
