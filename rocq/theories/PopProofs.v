(** Proofs about pair branching and the other population controls. *)
From Verif Require Import Base BaseProofs PopModel PopSpec.
From Coq Require Import Lqa Permutation Qround.
Open Scope Q_scope.

(** ** The sorted info array *)
Definition sorted_info (ws : list Q) (sidx : list nat) : list info :=
  map (fun i => mkinfo (qabs (nth i ws 0)) 1 i) sidx.

Lemma init_info_from_nth ws : forall k i, (i < length ws)%nat ->
  nth_error (init_info_from k ws) i = Some (mkinfo (qabs (nth i ws 0)) 1 (k + i)).
Proof.
  induction ws; intros k i H; simpl in H; [lia|].
  destruct i; simpl.
  - now rewrite Nat.add_0_r.
  - rewrite IHws by lia. do 2 f_equal. lia.
Qed.

Lemma gather_init ws sidx :
  (forall i, In i sidx -> (i < length ws)%nat) ->
  gather (init_info ws) sidx = Ok (sorted_info ws sidx).
Proof.
  intros H. unfold gather, sorted_info. apply rmapM_ok.
  intros i Hi. unfold index, init_info.
  rewrite init_info_from_nth by auto. reflexivity.
Qed.

Lemma perm_lt n s i : is_perm_of_indices n s -> In i s -> (i < n)%nat.
Proof. intros P H. apply (Permutation_in _ P) in H. apply in_seq in H. lia. Qed.
Lemma perm_len n s : is_perm_of_indices n s -> length s = n.
Proof. intros P. rewrite (Permutation_length P). apply seq_length. Qed.

(** ** Invariant of the pair loop *)
Definition untouched (s e : nat) (arr : list info) : Prop :=
  forall p x, (s <= p <= e)%nat -> nth_error arr p = Some x -> ist x = 1%nat.

(** Contribution of a row to the population, restricted by any predicate on
    the original index. *)
Definition contrib (sel : nat -> Q) (x : info) : Q :=
  sel (iorg x) * (inject_Z (Z.of_nat (ist x)) * iw x).

Definition all_nonneg (arr : list info) := forall x, In x arr -> 0 <= iw x.

Lemma branch_pair_spec c a b :
  (ist (fst (branch_pair c a b)) + ist (snd (branch_pair c a b)) = 2)%nat /\
  iorg (fst (branch_pair c a b)) = iorg a /\ iorg (snd (branch_pair c a b)) = iorg b.
Proof. destruct c; simpl; auto. Qed.

Lemma upd_upd_untouched arr s e a' b' :
  (s < e)%nat -> untouched s e arr ->
  untouched (S s) (e - 1) (upd (upd arr e b') s a').
Proof.
  intros H U p x Hp Hx.
  rewrite nth_error_upd_neq in Hx by lia.
  rewrite nth_error_upd_neq in Hx by lia.
  apply (U p); auto; lia.
Qed.

Lemma index_nth_error {A} (l : list A) i x : index l i = Ok x <-> nth_error l i = Some x.
Proof.
  unfold index. destruct (nth_error l i); split; intros H; inversion H; auto.
Qed.

(** The count and weight bookkeeping, for an arbitrary coin. *)
Lemma pair_loop_inv mn mx coin : forall fuel s e arr,
  (e - s < fuel)%nat -> (e < length arr)%nat \/ (e <= s)%nat ->
  untouched s e arr -> all_nonneg arr ->
  exists arr', pair_loop fuel mn mx coin s e arr = Ok arr' /\
    length arr' = length arr /\
    map iorg arr' = map iorg arr /\
    fold_right (fun x n => ist x + n)%nat 0%nat arr'
      = fold_right (fun x n => ist x + n)%nat 0%nat arr /\
    qsum (map (contrib (fun _ => 1)) arr') == qsum (map (contrib (fun _ => 1)) arr) /\
    all_nonneg arr'.
Proof.
  induction fuel as [|f IH]; intros s e arr Hf Hl U NN; [lia|].
  cbn [pair_loop]. destruct (Nat.ltb_spec s e) as [Hse|Hse].
  2:{ exists arr; repeat split; auto; reflexivity. }
  assert (He : (e < length arr)%nat) by (destruct Hl; [auto|lia]).
  assert (Hs : (s < length arr)%nat) by lia.
  destruct (nth_error arr s) as [a|] eqn:Ea.
  2:{ apply nth_error_None in Ea; lia. }
  destruct (nth_error arr e) as [b|] eqn:Eb.
  2:{ apply nth_error_None in Eb; lia. }
  rewrite (proj2 (index_nth_error _ _ _) Ea), (proj2 (index_nth_error _ _ _) Eb).
  cbn [rbind].
  destruct (needs_branch mn mx (iw a) (iw b)).
  2:{ exists arr; repeat split; auto; reflexivity. }
  destruct (branch_pair (coin s a b) a b) as [a' b'] eqn:Ebp.
  pose proof (branch_pair_spec (coin s a b) a b) as [Hst [Hoa Hob]].
  rewrite Ebp in Hst, Hoa, Hob. cbn [fst snd] in *.
  assert (Sa : ist a = 1%nat) by (apply (U s); auto; lia).
  assert (Sb : ist b = 1%nat) by (apply (U e); auto; lia).
  assert (NNa : 0 <= iw a) by (apply NN; eapply nth_error_In; eauto).
  assert (NNb : 0 <= iw b) by (apply NN; eapply nth_error_In; eauto).
  assert (NNa' : 0 <= iw a' /\ 0 <= iw b').
  { unfold branch_pair in Ebp. destruct (coin s a b); inversion Ebp; subst; simpl; lra. }
  assert (Es' : nth_error (upd arr e b') s = Some a).
  { rewrite nth_error_upd_neq by lia. auto. }
  destruct (IH (S s) (e - 1)%nat (upd (upd arr e b') s a')) as [arr' [R [L [O [C [W N]]]]]].
  - lia.
  - rewrite !upd_length. lia.
  - apply upd_upd_untouched; auto.
  - intros x Hx. apply In_nth_error in Hx. destruct Hx as [p Hp].
    destruct (Nat.eq_dec s p).
    + subst p. rewrite nth_error_upd_eq in Hp by (rewrite upd_length; auto).
      inversion Hp; subst; tauto.
    + rewrite nth_error_upd_neq in Hp by auto.
      destruct (Nat.eq_dec e p).
      * subst p. rewrite nth_error_upd_eq in Hp by auto. inversion Hp; subst; tauto.
      * rewrite nth_error_upd_neq in Hp by auto. apply NN. eapply nth_error_In; eauto.
  - exists arr'. split; [exact R|].
    rewrite !upd_length in L. split; [exact L|]. repeat split; auto.
    + rewrite O.
      assert (forall (l : list info) i x y, nth_error l i = Some y -> iorg x = iorg y ->
              map iorg (upd l i x) = map iorg l) as MU.
      { induction l; intros i x y Hn Ho; destruct i; simpl in *; try discriminate; auto.
        - inversion Hn; subst; now rewrite Ho.
        - erewrite IHl; eauto. }
      rewrite (MU _ _ _ _ Es' Hoa). apply (MU _ _ _ _ Eb Hob).
    + rewrite C.
      assert (forall (l : list info) i x y, nth_error l i = Some y ->
              (fold_right (fun x n => ist x + n) 0 (upd l i x) + ist y =
               fold_right (fun x n => ist x + n) 0 l + ist x))%nat as FU.
      { induction l; intros i x y Hn; destruct i; simpl in *; try discriminate.
        - inversion Hn; subst. lia.
        - specialize (IHl _ x _ Hn). lia. }
      pose proof (FU _ _ a' _ Es'). pose proof (FU _ _ b' _ Eb). lia.
    + rewrite W. rewrite (qsum_upd _ _ _ _ _ Es'), (qsum_upd _ _ _ _ _ Eb).
      unfold contrib. rewrite Sa, Sb.
      unfold branch_pair in Ebp. destruct (coin s a b); inversion Ebp; subst; simpl;
      unfold inject_Z; simpl Z.of_nat; lra.
Qed.

(** ** Emission *)
Lemma emit_ok {A} (walkers : list A) arr :
  (forall x, In x arr -> (iorg x < length walkers)%nat) ->
  exists out, emit walkers arr = Ok out /\
    length out = fold_right (fun x n => ist x + n)%nat 0%nat arr /\
    qsum (map snd out) == qsum (map (contrib (fun _ => 1)) arr) /\
    (forall p, In p out -> In (fst p) walkers /\ exists x, In x arr /\ snd p = iw x).
Proof.
  unfold emit. induction arr as [|x arr IH]; intros H.
  - exists []; simpl. repeat split; auto; try reflexivity; contradiction.
  - destruct IH as [out [E [L [W I]]]]; [intros; apply H; simpl; auto|].
    assert (Hx : (iorg x < length walkers)%nat) by (apply H; simpl; auto).
    destruct (nth_error walkers (iorg x)) as [w|] eqn:Ew.
    2:{ apply nth_error_None in Ew; lia. }
    cbn [rmapM]. unfold emit_one at 1.
    rewrite (proj2 (index_nth_error _ _ _) Ew). cbn [rmap rbind].
    destruct (rmapM (emit_one walkers) arr) as [outs|] eqn:EE; [|discriminate].
    cbn [rbind rmap] in *. inversion E; subst out; clear E.
    exists (repeat (w, iw x) (ist x) ++ concat outs). split; [reflexivity|].
    split; [|split].
    + rewrite app_length, repeat_length, L. reflexivity.
    + rewrite map_app, qsum_app, W. simpl. unfold contrib at 2.
      assert (Hr : map snd (repeat (w, iw x) (ist x)) = repeat (iw x) (ist x)).
      { induction (ist x); simpl; congruence. }
      rewrite Hr, qsum_repeat. lra.
    + intros p Hp. apply in_app_or in Hp. destruct Hp as [Hp|Hp].
      * apply repeat_spec in Hp. subst p; simpl. split.
        -- eapply nth_error_In; eauto.
        -- exists x; auto.
      * destruct (I p Hp) as [I1 [y [I2 I3]]]. split; auto. exists y; simpl; auto.
Qed.

(** ** Branching conserves the population and the total |weight| *)
Lemma sorted_info_untouched ws sidx s e : untouched s e (sorted_info ws sidx).
Proof.
  intros p x _ Hx. apply nth_error_In in Hx. unfold sorted_info in Hx.
  apply in_map_iff in Hx. destruct Hx as [i [<- _]]. reflexivity.
Qed.

Lemma sorted_info_nonneg ws sidx : all_nonneg (sorted_info ws sidx).
Proof.
  intros x Hx. unfold sorted_info in Hx. apply in_map_iff in Hx.
  destruct Hx as [i [<- _]]. apply qabs_nonneg.
Qed.

Lemma map_nth_seq {A} (l : list A) d : map (fun i => nth i l d) (seq 0 (length l)) = l.
Proof.
  apply nth_ext with (d := d) (d' := d).
  - now rewrite map_length, seq_length.
  - intros n Hn. rewrite map_length, seq_length in Hn.
    rewrite (nth_indep _ d (nth 0 l d)) by (rewrite map_length, seq_length; auto).
    change (nth 0 l d) with ((fun i => nth i l d) 0%nat).
    rewrite map_nth, seq_nth by auto. reflexivity.
Qed.

Lemma branching_conserves {A} (walkers : list A) weights mn mx sidx coin :
  length walkers = length weights ->
  is_perm_of_indices (length weights) sidx ->
  exists out, branching_coin walkers weights mn mx sidx coin = Ok out /\
    length out = length walkers /\
    qsum (map snd out) == qsum (map qabs weights) /\
    (forall p, In p out -> In (fst p) walkers /\ 0 <= snd p).
Proof.
  intros Hlen P. unfold branching_coin.
  rewrite Hlen, Nat.eqb_refl. cbn [negb].
  rewrite gather_init by (intros; eapply perm_lt; eauto). cbn [rbind].
  set (arr := sorted_info weights sidx).
  assert (La : length arr = length weights).
  { unfold arr, sorted_info. rewrite map_length. eapply perm_len; eauto. }
  destruct (pair_loop_inv mn mx coin (S (length arr)) 0 (length arr - 1) arr)
    as [arr' [R [L [O [C [W N]]]]]].
  - lia.
  - destruct (length arr); [right|left]; lia.
  - apply sorted_info_untouched.
  - apply sorted_info_nonneg.
  - rewrite R. cbn [rbind].
    assert (Hor : forall x, In x arr' -> (iorg x < length walkers)%nat).
    { intros x Hx. rewrite Hlen. apply perm_lt with (s := sidx); auto.
      apply (in_map iorg) in Hx. rewrite O in Hx. unfold arr, sorted_info in Hx.
      rewrite map_map in Hx. simpl in Hx. rewrite map_id in Hx. auto. }
    destruct (emit_ok walkers arr' Hor) as [out [E [EL [EW EI]]]].
    exists out. repeat split.
    + exact E.
    + rewrite EL, C. unfold arr, sorted_info.
      rewrite ?Hlen, <- (perm_len _ _ P). clear. induction sidx; simpl; auto.
    + rewrite EW, W. unfold arr, sorted_info. rewrite map_map.
      rewrite (qsum_map_ext _ (fun i => qabs (nth i weights 0)))
        by (intros; unfold contrib; simpl; unfold inject_Z; lra).
      rewrite (qsum_perm _ (map (fun i => qabs (nth i weights 0)) (seq 0 (length weights)))).
      2:{ apply Permutation_map. exact P. }
      rewrite <- (map_map (fun i => nth i weights 0) qabs).
      rewrite map_nth_seq. reflexivity.
    + apply EI; auto.
    + destruct (EI p H) as [_ [x [Hx ->]]]. apply N; auto.
Qed.

(** ** Unbiasedness *)
Lemma expect_ext qs : forall f g, (forall l, f l == g l) -> expect qs f == expect qs g.
Proof.
  induction qs; intros f g H; simpl; [apply H|].
  rewrite (IHqs (fun l => f (true :: l)) (fun l => g (true :: l))) by auto.
  rewrite (IHqs (fun l => f (false :: l)) (fun l => g (false :: l))) by auto.
  reflexivity.
Qed.

Lemma expect_const qs c : expect qs (fun _ => c) == c.
Proof. induction qs; simpl; [reflexivity|]. rewrite IHqs. lra. Qed.

Definition sel_of (i : nat) (k : nat) : Q := if Nat.eqb k i then 1 else 0.

(** Expected contribution of walker [i] at a pair. *)
Lemma pair_expect i a b :
  ist a = 1%nat -> ist b = 1%nat -> 0 <= iw a -> 0 <= iw b ->
  let q := share (iw a) (iw b) in
  q * (contrib (sel_of i) (fst (branch_pair true a b)) +
       contrib (sel_of i) (snd (branch_pair true a b))) +
  (1 - q) * (contrib (sel_of i) (fst (branch_pair false a b)) +
             contrib (sel_of i) (snd (branch_pair false a b)))
  == contrib (sel_of i) a + contrib (sel_of i) b.
Proof.
  intros Sa Sb Na Nb q. unfold contrib, branch_pair; simpl. rewrite Sa, Sb.
  set (sa := sel_of i (iorg a)). set (sb := sel_of i (iorg b)).
  unfold inject_Z; simpl Z.of_nat. unfold q, share.
  destruct (Qeq_bool (iw a + iw b) 0) eqn:E.
  - apply Qeq_bool_iff in E.
    assert (iw a == 0) by lra. assert (iw b == 0) by lra.
    rewrite H, H0. lra.
  - assert (~ iw a + iw b == 0).
    { intros C. apply Qeq_bool_iff in C. congruence. }
    field. auto.
Qed.

Definition arr_sum (i : nat) (r : res (list info)) : Q :=
  match r with Ok arr => qsum (map (contrib (sel_of i)) arr) | Err _ => 0 end.

Definition list_coin (s0 : nat) (l : list bool) : nat -> info -> info -> bool :=
  fun k _ _ => nth (k - s0) l false.

Lemma pair_loop_coin_ext mn mx c1 c2 : forall fuel s e arr,
  (forall k a b, (s <= k)%nat -> c1 k a b = c2 k a b) ->
  pair_loop fuel mn mx c1 s e arr = pair_loop fuel mn mx c2 s e arr.
Proof.
  induction fuel; intros s e arr H; cbn [pair_loop]; auto.
  destruct (Nat.ltb s e); auto.
  destruct (index arr s); auto. cbn [rbind].
  destruct (index arr e); auto. cbn [rbind].
  destruct (needs_branch _ _ _ _); auto.
  rewrite H by lia. destruct (branch_pair _ _ _). apply IHfuel. intros; apply H; lia.
Qed.

Definition shares_from (arr : list info) (s : nat) : list Q :=
  map (fun k => share (nth k (map iw arr) 0) (nth (length arr - 1 - k) (map iw arr) 0))
      (seq s (length arr / 2 - s)).

Lemma pair_loop_expect mn mx i : forall fuel s e arr,
  (e - s < fuel)%nat -> (s + e + 1 = length arr)%nat ->
  untouched s e arr -> all_nonneg arr ->
  expect (shares_from arr s)
    (fun l => arr_sum i (pair_loop fuel mn mx (list_coin s l) s e arr))
  == qsum (map (contrib (sel_of i)) arr).
Proof.
  induction fuel as [|f IH]; intros s e arr Hf Hl U NN; [lia|].
  cbn [pair_loop]. destruct (Nat.ltb_spec s e) as [Hse|Hse].
  2:{ apply expect_const. }
  assert (He : (e < length arr)%nat) by lia.
  assert (Hs : (s < length arr)%nat) by lia.
  destruct (nth_error arr s) as [a|] eqn:Ea.
  2:{ apply nth_error_None in Ea; lia. }
  destruct (nth_error arr e) as [b|] eqn:Eb.
  2:{ apply nth_error_None in Eb; lia. }
  rewrite (proj2 (index_nth_error _ _ _) Ea), (proj2 (index_nth_error _ _ _) Eb).
  cbn [rbind].
  destruct (needs_branch mn mx (iw a) (iw b)).
  2:{ apply expect_const. }
  assert (Sa : ist a = 1%nat) by (apply (U s); auto; lia).
  assert (Sb : ist b = 1%nat) by (apply (U e); auto; lia).
  assert (NNa : 0 <= iw a) by (apply NN; eapply nth_error_In; eauto).
  assert (NNb : 0 <= iw b) by (apply NN; eapply nth_error_In; eauto).
  assert (Hsh : shares_from arr s = share (iw a) (iw b) ::
     map (fun k => share (nth k (map iw arr) 0) (nth (length arr - 1 - k) (map iw arr) 0))
      (seq (S s) (length arr / 2 - S s))).
  { unfold shares_from.
    assert (Hd : (length arr / 2 - s = S (length arr / 2 - S s))%nat).
    { assert (s < length arr / 2)%nat by (apply Nat.div_le_lower_bound; lia). lia. }
    rewrite Hd. cbn [seq map]. f_equal. f_equal.
    - rewrite (nth_error_nth (map iw arr) s 0 (x := iw a)); auto.
      apply map_nth_error; auto.
    - replace (length arr - 1 - s)%nat with e by lia.
      rewrite (nth_error_nth (map iw arr) e 0 (x := iw b)); auto.
      apply map_nth_error; auto. }
  rewrite Hsh. cbn [expect].
  set (rest := map _ (seq (S s) _)).
  assert (Hrest : forall c, let (a', b') := branch_pair c a b in
     rest = shares_from (upd (upd arr e b') s a') (S s)).
  { intros c. destruct (branch_pair c a b) as [a' b'].
    unfold rest, shares_from. rewrite !upd_length.
    assert (Hd : (length arr / 2 <= e)%nat).
    { assert (length arr / 2 < S e)%nat; [apply Nat.div_lt_upper_bound; lia|lia]. }
    apply map_ext_in. intros k Hk. apply in_seq in Hk.
    assert (M : forall p, (p <> s)%nat -> (p <> e)%nat -> nth p (map iw arr) 0 =
       nth p (map iw (upd (upd arr e b') s a')) 0).
    { intros p P1 P2.
      destruct (nth_error arr p) as [z|] eqn:Ez.
      - rewrite (nth_error_nth (map iw arr) p 0 (x := iw z)) by (apply map_nth_error; auto).
        rewrite (nth_error_nth (map iw _) p 0 (x := iw z)); auto.
        apply map_nth_error. rewrite !nth_error_upd_neq by auto. auto.
      - apply nth_error_None in Ez.
        rewrite !nth_overflow; auto; rewrite map_length, ?upd_length; auto. }
    assert (2 * (length arr / 2) <= length arr)%nat by (apply Nat.mul_div_le; lia).
    f_equal; apply M; lia. }
  assert (Step : forall c, expect rest (fun l =>
      arr_sum i (let (a', b') := branch_pair (list_coin s (c :: l) s a b) a b in
        pair_loop f mn mx (list_coin s (c :: l)) (S s) (e - 1) (upd (upd arr e b') s a')))
     == qsum (map (contrib (sel_of i)) arr) - contrib (sel_of i) a - contrib (sel_of i) b
        + contrib (sel_of i) (fst (branch_pair c a b))
        + contrib (sel_of i) (snd (branch_pair c a b))).
  { intros c. unfold list_coin at 1. rewrite Nat.sub_diag. cbn [nth].
    specialize (Hrest c). destruct (branch_pair c a b) as [a' b'] eqn:Ebp.
    cbn [fst snd]. rewrite Hrest.
    assert (Es' : nth_error (upd arr e b') s = Some a).
    { rewrite nth_error_upd_neq by lia. auto. }
    transitivity (qsum (map (contrib (sel_of i)) (upd (upd arr e b') s a'))).
    - rewrite <- (IH (S s) (e - 1)%nat (upd (upd arr e b') s a')).
      + apply expect_ext. intros l. erewrite pair_loop_coin_ext; [reflexivity|].
        intros k x y Hk. unfold list_coin. replace (k - s)%nat with (S (k - S s)) by lia.
        reflexivity.
      + lia.
      + rewrite !upd_length. lia.
      + apply upd_upd_untouched; auto.
      + assert (NNa' : 0 <= iw a' /\ 0 <= iw b').
        { unfold branch_pair in Ebp. destruct c; inversion Ebp; subst; simpl; lra. }
        intros x Hx. apply In_nth_error in Hx. destruct Hx as [p Hp].
        destruct (Nat.eq_dec s p).
        * subst p. rewrite nth_error_upd_eq in Hp by (rewrite upd_length; auto).
          inversion Hp; subst; tauto.
        * rewrite nth_error_upd_neq in Hp by auto.
          destruct (Nat.eq_dec e p).
          -- subst p. rewrite nth_error_upd_eq in Hp by auto. inversion Hp; subst; tauto.
          -- rewrite nth_error_upd_neq in Hp by auto. apply NN. eapply nth_error_In; eauto.
    - rewrite (qsum_upd _ _ _ _ _ Es'), (qsum_upd _ _ _ _ _ Eb). lra. }
  rewrite (Step true), (Step false).
  pose proof (pair_expect i a b Sa Sb NNa NNb) as PE. cbv zeta in PE.
  set (q := share (iw a) (iw b)) in *.
  set (T := contrib (sel_of i) (fst (branch_pair true a b))) in *.
  set (T2 := contrib (sel_of i) (snd (branch_pair true a b))) in *.
  set (F := contrib (sel_of i) (fst (branch_pair false a b))) in *.
  set (F2 := contrib (sel_of i) (snd (branch_pair false a b))) in *.
  set (X := qsum (map (contrib (sel_of i)) arr)) in *.
  set (ca := contrib (sel_of i) a) in *. set (cb := contrib (sel_of i) b) in *.
  transitivity (X - ca - cb + (q * (T + T2) + (1 - q) * (F + F2))); [ring|].
  rewrite PE. ring.
Qed.

(** Weight of walker [i] in the emitted population of labelled walkers. *)
Lemma emit_weight_of n arr i :
  (forall x, In x arr -> (iorg x < n)%nat) ->
  weight_of_res i (emit (seq 0 n) arr) == qsum (map (contrib (sel_of i)) arr).
Proof.
  intros H. unfold emit.
  rewrite (rmapM_ok _ (fun x => repeat (iorg x, iw x) (ist x))).
  2:{ intros x Hx. unfold emit_one. rewrite (index_nth _ _ 0%nat) by (rewrite seq_length; auto).
      rewrite seq_nth by auto. reflexivity. }
  cbn [rmap weight_of_res]. clear H. induction arr as [|x arr IH]; [reflexivity|].
  cbn [map concat]. unfold weight_of in *. rewrite filter_app, map_app, qsum_app, IH.
  cbn [qsum]. apply Qplus_comp; [|reflexivity].
  unfold contrib, sel_of.
  destruct (Nat.eqb (iorg x) i) eqn:E.
  - assert (Hr : map snd (filter (fun p => Nat.eqb (fst p) i) (repeat (iorg x, iw x) (ist x)))
                 = repeat (iw x) (ist x)).
    { induction (ist x); simpl; auto. rewrite E. simpl. congruence. }
    rewrite Hr, qsum_repeat. lra.
  - assert (Hr : map snd (filter (fun p => Nat.eqb (fst p) i) (repeat (iorg x, iw x) (ist x)))
                 = []).
    { induction (ist x); simpl; auto. rewrite E. auto. }
    rewrite Hr. simpl. lra.
Qed.

Lemma sel_sum n i (g : nat -> Q) : (i < n)%nat ->
  qsum (map (fun k => sel_of i k * g k) (seq 0 n)) == g i.
Proof.
  assert (Z : forall len st, (i < st \/ st + len <= i)%nat ->
    qsum (map (fun k => sel_of i k * g k) (seq st len)) == 0).
  { induction len; intros st H; simpl; [reflexivity|].
    rewrite IHlen by lia. unfold sel_of. destruct (Nat.eqb_spec st i); [lia|]. lra. }
  intros H. replace n with (i + S (n - S i))%nat by lia.
  rewrite seq_app, map_app, qsum_app. rewrite Z by lia. simpl. rewrite Z by lia.
  unfold sel_of. rewrite Nat.eqb_refl. lra.
Qed.

Lemma branching_unbiased weights mn mx sidx i :
  is_perm_of_indices (length weights) sidx -> (i < length weights)%nat ->
  expect (pair_shares (map (fun k => qabs (nth k weights 0)) sidx))
    (fun coins => weight_of_res i
       (branching_coin (seq 0 (length weights)) weights mn mx sidx
          (fun k _ _ => nth k coins false)))
  == qabs (nth i weights 0).
Proof.
  intros P Hi.
  set (arr := sorted_info weights sidx).
  assert (La : length arr = length weights).
  { unfold arr, sorted_info. rewrite map_length. eapply perm_len; eauto. }
  assert (Hps : pair_shares (map (fun k => qabs (nth k weights 0)) sidx) = shares_from arr 0).
  { unfold pair_shares, shares_from. rewrite !map_length.
    assert (map iw arr = map (fun k => qabs (nth k weights 0)) sidx) as ->.
    { unfold arr, sorted_info. rewrite map_map. reflexivity. }
    rewrite <- (map_length (fun i => mkinfo (qabs (nth i weights 0)) 1 i) sidx).
    fold (sorted_info weights sidx). fold arr. rewrite Nat.sub_0_r. reflexivity. }
  rewrite Hps.
  transitivity (qsum (map (contrib (sel_of i)) arr)).
  2:{ unfold arr, sorted_info. rewrite map_map.
      rewrite (qsum_map_ext _ (fun k => sel_of i k * qabs (nth k weights 0)))
        by (intros; unfold contrib; simpl; unfold inject_Z; lra).
      rewrite (qsum_perm _ (map (fun k => sel_of i k * qabs (nth k weights 0)) (seq 0 (length weights)))).
      - apply (sel_sum (length weights) i (fun k => qabs (nth k weights 0))); auto.
      - apply Permutation_map; exact P. }
  rewrite <- (pair_loop_expect mn mx i (S (length arr)) 0 (length arr - 1) arr).
  - apply expect_ext. intros l. unfold branching_coin.
    rewrite seq_length, Nat.eqb_refl. cbn [negb].
    rewrite gather_init by (intros; eapply perm_lt; eauto). cbn [rbind]. fold arr.
    rewrite (pair_loop_coin_ext mn mx (fun k _ _ => nth k l false) (list_coin 0 l))
      by (intros; unfold list_coin; now rewrite Nat.sub_0_r).
    destruct (pair_loop_inv mn mx (list_coin 0 l) (S (length arr)) 0 (length arr - 1) arr)
      as [arr' [R [_ [O _]]]].
    + lia.
    + left. lia.
    + apply sorted_info_untouched.
    + apply sorted_info_nonneg.
    + rewrite R. cbn [rbind arr_sum]. apply emit_weight_of.
      intros x Hx. apply perm_lt with (s := sidx); auto.
      apply (in_map iorg) in Hx. rewrite O in Hx. unfold arr, sorted_info in Hx.
      rewrite map_map in Hx. simpl in Hx. rewrite map_id in Hx. auto.
  - lia.
  - lia.
  - apply sorted_info_untouched.
  - apply sorted_info_nonneg.
Qed.

(** The function of the code tosses exactly those coins: the coin of pair [k]
    is [draws k < pair share k]. *)
Lemma pair_loop_draws mn mx draws arr0 : forall fuel s e arr,
  (forall k, 0 <= draws k) ->
  (s + e + 1 = length arr)%nat -> length arr = length arr0 ->
  (forall p, (s <= p <= e)%nat -> nth_error arr p = nth_error arr0 p) ->
  pair_loop fuel mn mx (draw_coin draws) s e arr =
  pair_loop fuel mn mx (fun k _ _ => qltb (draws k) (nth k (shares_from arr0 0) 0)) s e arr.
Proof.
  induction fuel; intros s e arr Hd Hl Hl0 Hp; cbn [pair_loop]; auto.
  destruct (Nat.ltb_spec s e) as [Hse|]; auto.
  destruct (nth_error arr s) as [a|] eqn:Ea.
  2:{ apply nth_error_None in Ea; lia. }
  destruct (nth_error arr e) as [b|] eqn:Eb.
  2:{ apply nth_error_None in Eb; lia. }
  rewrite (proj2 (index_nth_error _ _ _) Ea), (proj2 (index_nth_error _ _ _) Eb).
  cbn [rbind]. destruct (needs_branch _ _ _ _); auto.
  assert (Hc : draw_coin draws s a b = qltb (draws s) (nth s (shares_from arr0 0) 0)).
  { unfold draw_coin, large_wins, shares_from.
    assert (Hlt : (s < length arr0 / 2)%nat) by (apply Nat.div_le_lower_bound; lia).
    rewrite (nth_indep _ 0 (share (nth 0 (map iw arr0) 0)
          (nth (length arr0 - 1 - 0) (map iw arr0) 0)))
      by (rewrite map_length, seq_length; lia).
    rewrite (map_nth (fun k => share (nth k (map iw arr0) 0)
          (nth (length arr0 - 1 - k) (map iw arr0) 0))).
    rewrite seq_nth by lia. cbn [plus].
    replace (length arr0 - 1 - s)%nat with e by lia.
    rewrite (nth_error_nth (map iw arr0) s 0 (x := iw a))
      by (apply map_nth_error; rewrite <- Hp by lia; auto).
    rewrite (nth_error_nth (map iw arr0) e 0 (x := iw b))
      by (apply map_nth_error; rewrite <- Hp by lia; auto).
    unfold share. destruct (Qeq_bool _ _); auto.
    symmetry. apply qltb_false. apply Hd. }
  rewrite Hc. destruct (branch_pair _ a b) as [a' b'].
  apply IHfuel; auto.
  - rewrite !upd_length. lia.
  - rewrite !upd_length. lia.
  - intros p Hpp. rewrite !nth_error_upd_neq by lia. apply Hp; lia.
Qed.

Lemma branching_dp0_coins {A} (walkers : list A) weights mn mx sidx draws :
  is_perm_of_indices (length weights) sidx ->
  (forall k, 0 <= draws k) ->
  branching_dp0 walkers weights mn mx sidx draws =
  branching_coin walkers weights mn mx sidx
    (fun k _ _ => qltb (draws k)
        (nth k (pair_shares (map (fun j => qabs (nth j weights 0)) sidx)) 0)).
Proof.
  intros P Hd. unfold branching_dp0, branching_coin.
  destruct (negb _); auto.
  rewrite gather_init by (intros; eapply perm_lt; eauto). cbn [rbind].
  set (arr := sorted_info weights sidx).
  assert (Hps : pair_shares (map (fun k => qabs (nth k weights 0)) sidx) = shares_from arr 0).
  { unfold pair_shares, shares_from. rewrite !map_length.
    assert (map iw arr = map (fun k => qabs (nth k weights 0)) sidx) as ->.
    { unfold arr, sorted_info. rewrite map_map. reflexivity. }
    rewrite <- (map_length (fun i => mkinfo (qabs (nth i weights 0)) 1 i) sidx).
    fold (sorted_info weights sidx). fold arr. rewrite Nat.sub_0_r. reflexivity. }
  rewrite Hps. f_equal.
  destruct (Nat.eq_dec (length arr) 0) as [E|E].
  - rewrite E. reflexivity.
  - apply pair_loop_draws; auto. lia.
Qed.

Lemma share_range ws we : 0 <= ws -> 0 <= we -> 0 <= share ws we <= 1.
Proof.
  intros H1 H2. unfold share. destruct (Qeq_bool (ws + we) 0) eqn:E; [lra|].
  assert (~ ws + we == 0) by (intros C; apply Qeq_bool_iff in C; congruence).
  assert (0 < ws + we) by lra.
  split.
  - apply Qle_shift_div_l; lra.
  - apply Qle_shift_div_r; lra.
Qed.

Lemma branching_dp0_conserves {A} (walkers : list A) weights mn mx sidx draws :
  length walkers = length weights ->
  is_perm_of_indices (length weights) sidx ->
  exists out, branching_dp0 walkers weights mn mx sidx draws = Ok out /\
    length out = length walkers /\
    qsum (map snd out) == qsum (map qabs weights) /\
    (forall p, In p out -> In (fst p) walkers /\ 0 <= snd p).
Proof. intros. apply branching_conserves; auto. Qed.

Lemma pair_shares_range sw q : (forall w, In w sw -> 0 <= w) ->
  In q (pair_shares sw) -> 0 <= q <= 1.
Proof.
  intros H Hq. unfold pair_shares in Hq. apply in_map_iff in Hq.
  destruct Hq as [k [<- _]].
  assert (forall j, 0 <= nth j sw 0).
  { intros j. destruct (Nat.lt_ge_cases j (length sw)).
    - apply H, nth_In; auto.
    - rewrite nth_overflow by auto. lra. }
  apply share_range; auto.
Qed.

Lemma branching_dp0_unbiased weights mn mx sidx i :
  is_perm_of_indices (length weights) sidx -> (i < length weights)%nat ->
  let qs := pair_shares (map (fun k => qabs (nth k weights 0)) sidx) in
  let run coins := branching_coin (seq 0 (length weights)) weights mn mx sidx
                     (fun k _ _ => nth k coins false) in
  (forall q, In q qs -> 0 <= q <= 1) /\
  (forall draws, (forall k, 0 <= draws k) ->
     branching_dp0 (seq 0 (length weights)) weights mn mx sidx draws =
     run (map (fun k => qltb (draws k) (nth k qs 0)) (seq 0 (length qs)))) /\
  expect qs (fun coins => weight_of_res i (run coins)) == qabs (nth i weights 0).
Proof.
  intros P Hi qs run. split; [|split].
  - intros q. apply pair_shares_range. intros w Hw. apply in_map_iff in Hw.
    destruct Hw as [k [<- _]]. apply qabs_nonneg.
  - intros draws Hd. rewrite branching_dp0_coins by auto. unfold run, branching_coin.
    destruct (negb _); auto.
    rewrite gather_init by (intros; eapply perm_lt; eauto). cbn [rbind]. f_equal.
    apply pair_loop_coin_ext. intros k _ _ _. fold qs.
    destruct (Nat.lt_ge_cases k (length qs)) as [H|H].
    + symmetry. apply nth_error_nth. apply (map_nth_error (fun k => qltb (draws k) (nth k qs 0))).
      rewrite (nth_error_nth' _ 0%nat) by (rewrite seq_length; auto).
      rewrite seq_nth; auto.
    + rewrite (nth_overflow (map _ _)) by (rewrite map_length, seq_length; auto).
      rewrite nth_overflow by auto. apply qltb_false. apply Hd.
  - apply branching_unbiased; auto.
Qed.

(** With the weights really sorted, what the loop leaves untouched is within
    the thresholds. *)
Lemma pair_loop_stop mn mx coin : forall fuel s e arr arr',
  (s + e + 1 = length arr)%nat ->
  (forall p q x y, (s <= p <= q)%nat -> (q <= e)%nat -> nth_error arr p = Some x ->
     nth_error arr q = Some y -> iw x <= iw y) ->
  untouched s e arr ->
  pair_loop fuel mn mx coin s e arr = Ok arr' ->
  forall p x, (s <= p <= e)%nat -> nth_error arr' p = Some x -> ist x = 1%nat ->
     (2 * p + 1 = length arr)%nat \/ mn <= iw x <= mx.
Proof.
  induction fuel as [|f IH]; intros s e arr arr' HL HS HU H p x Hp Hx Hst; [discriminate|].
  cbn [pair_loop] in H. destruct (Nat.ltb_spec s e) as [Hse|Hse].
  2:{ left. lia. }
  destruct (nth_error arr s) as [a|] eqn:Ea.
  2:{ apply nth_error_None in Ea; lia. }
  destruct (nth_error arr e) as [b|] eqn:Eb.
  2:{ apply nth_error_None in Eb; lia. }
  rewrite (proj2 (index_nth_error _ _ _) Ea), (proj2 (index_nth_error _ _ _) Eb) in H.
  cbn [rbind] in H.
  destruct (needs_branch mn mx (iw a) (iw b)) eqn:NB.
  - destruct (branch_pair (coin s a b) a b) as [a' b'] eqn:Ebp.
    assert (Hfix : forall fuel0 s0 e0 arr0 arr1 k, (k < s0 \/ e0 < k)%nat ->
       pair_loop fuel0 mn mx coin s0 e0 arr0 = Ok arr1 -> nth_error arr1 k = nth_error arr0 k).
    { clear. induction fuel0; intros s0 e0 arr0 arr1 k Hk H0; [discriminate|].
      cbn [pair_loop] in H0. destruct (Nat.ltb_spec s0 e0); [|inversion H0; auto].
      destruct (index arr0 s0); [|discriminate]. cbn [rbind] in H0.
      destruct (index arr0 e0); [|discriminate]. cbn [rbind] in H0.
      destruct (needs_branch _ _ _ _); [|inversion H0; auto].
      destruct (branch_pair _ _ _). apply (IHfuel0 _ _ _ _ k) in H0; [|lia].
      rewrite H0, !nth_error_upd_neq by lia. auto. }
    assert (Hnb : forall y, ist y = 1%nat -> y <> a' /\ y <> b').
    { intros y Hy. unfold branch_pair in Ebp.
      destruct (coin s a b); inversion Ebp; subst; split; intros ->; discriminate. }
    destruct (Nat.eq_dec p s) as [->|Nps].
    { rewrite (Hfix f (S s) (e - 1)%nat _ _ s ltac:(lia) H) in Hx.
      rewrite nth_error_upd_eq in Hx by (rewrite upd_length; lia). inversion Hx; subst.
      exfalso. apply (proj1 (Hnb x Hst)); auto. }
    destruct (Nat.eq_dec p e) as [->|Npe].
    { rewrite (Hfix f (S s) (e - 1)%nat _ _ e ltac:(lia) H) in Hx.
      rewrite nth_error_upd_neq in Hx by lia.
      rewrite nth_error_upd_eq in Hx by lia. inversion Hx; subst.
      exfalso. apply (proj2 (Hnb x Hst)); auto. }
    rewrite <- (upd_length arr e b'), <- (upd_length (upd arr e b') s a').
    apply (IH (S s) (e - 1)%nat (upd (upd arr e b') s a') arr'); auto.
    + rewrite !upd_length; lia.
    + intros p0 q0 x0 y0 Hp0 Hq0 Hx0 Hy0.
      rewrite !nth_error_upd_neq in Hx0 by lia.
      rewrite !nth_error_upd_neq in Hy0 by lia.
      apply (HS p0 q0); auto; lia.
    + apply upd_upd_untouched; auto.
    + lia.
  - inversion H; subst arr'. right. unfold needs_branch in NB.
    apply Bool.orb_false_iff in NB. destruct NB as [N1 N2].
    apply qltb_false in N1. apply qltb_false in N2. split.
    + apply Qle_trans with (iw a); auto. apply (HS s p); auto; lia.
    + apply Qle_trans with (iw b); auto. apply (HS p e); auto; lia.
Qed.

Lemma filter_emit_label n arr i :
  NoDup (map iorg arr) -> (forall x, In x arr -> (iorg x < n)%nat) ->
  forall out, emit (seq 0 n) arr = Ok out ->
  forall x, In x arr -> iorg x = i ->
  filter (fun p => Nat.eqb (fst p) i) out = repeat (i, iw x) (ist x).
Proof.
  intros ND Hlt out. unfold emit.
  rewrite (rmapM_ok _ (fun x => repeat (iorg x, iw x) (ist x))).
  2:{ intros x Hx. unfold emit_one. rewrite (index_nth _ _ 0%nat) by (rewrite seq_length; auto).
      rewrite seq_nth by auto. reflexivity. }
  cbn [rmap]. intros H; inversion H; subst out; clear H Hlt.
  assert (Same : forall x k, iorg x = i ->
    filter (fun p : nat * Q => Nat.eqb (fst p) i) (repeat (iorg x, iw x) k) = repeat (i, iw x) k).
  { intros x k ->. induction k; cbn [repeat filter fst]; auto. rewrite Nat.eqb_refl. congruence. }
  assert (Diff : forall x k, iorg x <> i ->
    filter (fun p : nat * Q => Nat.eqb (fst p) i) (repeat (iorg x, iw x) k) = []).
  { intros x k Hx. induction k; cbn [repeat filter fst]; auto.
    destruct (Nat.eqb_spec (iorg x) i); [congruence|]. auto. }
  assert (None : forall l, ~ In i (map iorg l) ->
    filter (fun p : nat * Q => Nat.eqb (fst p) i)
      (concat (map (fun x => repeat (iorg x, iw x) (ist x)) l)) = []).
  { induction l; intros Hn; auto. cbn [map concat]. rewrite filter_app, IHl.
    - rewrite Diff; auto. intros E. apply Hn. simpl; auto.
    - intros Hi. apply Hn. simpl; auto. }
  induction arr as [|y arr IH]; intros x Hx Hi; [contradiction|].
  cbn [map concat]. rewrite filter_app. inversion ND; subst.
  destruct Hx as [->|Hx].
  - rewrite None by auto. rewrite Same, app_nil_r by auto. reflexivity.
  - assert (iorg y <> iorg x).
    { intros E. apply H1. rewrite E. apply in_map; auto. }
    rewrite Diff by auto. cbn [app]. apply IH; auto.
Qed.

Lemma branching_thresholds weights mn mx sidx draws out i w :
  is_perm_of_indices (length weights) sidx ->
  sorted_by_weight weights sidx ->
  branching_dp0 (seq 0 (length weights)) weights mn mx sidx draws = Ok out ->
  filter (fun p => Nat.eqb (fst p) i) out = [(i, w)] ->
  mn <= w <= mx \/
  exists k, length weights = (2 * k + 1)%nat /\ nth_error sidx k = Some i.
Proof.
  intros P HS R HF. unfold branching_dp0, branching_coin in R.
  rewrite seq_length, Nat.eqb_refl in R. cbn [negb] in R.
  rewrite gather_init in R by (intros; eapply perm_lt; eauto). cbn [rbind] in R.
  set (arr := sorted_info weights sidx) in *.
  assert (La : length arr = length weights).
  { unfold arr, sorted_info. rewrite map_length. eapply perm_len; eauto. }
  destruct (pair_loop_inv mn mx (draw_coin draws) (S (length arr)) 0 (length arr - 1) arr)
    as [arr' [RL [L [O _]]]].
  { lia. }
  { destruct (length arr); [right|left]; lia. }
  { apply sorted_info_untouched. }
  { apply sorted_info_nonneg. }
  rewrite RL in R. cbn [rbind] in R.
  assert (Or : map iorg arr' = sidx).
  { rewrite O. unfold arr, sorted_info. rewrite map_map. simpl. apply map_id. }
  assert (Hlt : forall x, In x arr' -> (iorg x < length weights)%nat).
  { intros x Hx. apply perm_lt with (s := sidx); auto. rewrite <- Or. apply in_map; auto. }
  assert (ND : NoDup (map iorg arr')).
  { rewrite Or. eapply Permutation_NoDup; [apply Permutation_sym, P|apply seq_NoDup]. }
  assert (Hi : In i sidx).
  { assert (In (i, w) out).
    { assert (In (i, w) (filter (fun p => Nat.eqb (fst p) i) out)) by (rewrite HF; simpl; auto).
      apply filter_In in H. tauto. }
    destruct (emit_ok (seq 0 (length weights)) arr') as [out' [E [_ [_ EI]]]].
    { rewrite seq_length; auto. }
    rewrite E in R. inversion R; subst out'. destruct (EI _ H) as [H1 _]. simpl in H1.
    eapply Permutation_in; [apply Permutation_sym, P|auto]. }
  rewrite <- Or in Hi. apply in_map_iff in Hi. destruct Hi as [x [Hxi Hx]].
  pose proof (filter_emit_label _ _ i ND Hlt out R x Hx Hxi) as FE.
  rewrite HF in FE.
  assert (Hst : ist x = 1%nat /\ iw x = w).
  { destruct (ist x) as [|[|k]]; simpl in FE; inversion FE; auto. }
  destruct Hst as [Hst Hw].
  apply In_nth_error in Hx. destruct Hx as [p Hp].
  assert (Hpl : (p < length arr')%nat) by (apply nth_error_Some; congruence).
  assert (Hn : (0 < length weights)%nat) by lia.
  destruct (pair_loop_stop mn mx (draw_coin draws) (S (length arr)) 0 (length arr - 1) arr arr'
              ltac:(lia)) with (p := p) (x := x) as [HM|HB]; auto.
  - intros p0 q0 x0 y0 Hp0 Hq0 Hx0 Hy0. unfold arr, sorted_info in Hx0, Hy0.
    rewrite nth_error_map in Hx0, Hy0.
    destruct (nth_error sidx p0) as [ii|] eqn:Ei; [|discriminate].
    destruct (nth_error sidx q0) as [jj|] eqn:Ej; [|discriminate].
    simpl in Hx0, Hy0. inversion Hx0; inversion Hy0; subst; simpl.
    apply (HS p0 q0); auto. lia.
  - apply sorted_info_untouched.
  - lia.
  - right. exists p. split; [lia|]. rewrite <- Or. rewrite <- Hxi. apply map_nth_error; auto.
  - left. rewrite <- Hw. exact HB.
Qed.

Lemma branching_dp0_total_nonneg {A} (walkers : list A) weights mn mx sidx draws :
  length walkers = length weights ->
  is_perm_of_indices (length weights) sidx ->
  (forall w, In w weights -> 0 <= w) ->
  exists out, branching_dp0 walkers weights mn mx sidx draws = Ok out /\
    qsum (map snd out) == qsum weights.
Proof.
  intros H1 H2 H3.
  destruct (branching_dp0_conserves walkers weights mn mx sidx draws H1 H2) as [out [R [_ [S _]]]].
  exists out. split; auto. rewrite S. rewrite <- (map_id weights) at 2.
  apply qsum_map_ext. intros x Hx. rewrite qabs_pos by auto. reflexivity.
Qed.
