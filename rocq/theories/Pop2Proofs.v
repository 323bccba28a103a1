(** Proofs about the less used population controls. *)
From Verif Require Import Base BaseProofs PopModel PopSpec PopProofs Pop2Model Pop2Spec.
From Coq Require Import Lqa Permutation Qround.
Open Scope Q_scope.

(** ** [branching_dp_constant]: what it returns *)
Section Const.
Context {A : Type}.
Variables (mn mx : Q) (draws : nat -> Q) (sidx : list nat) (wk0 : list A) (ws0 : list Q).
Hypothesis P : is_perm_of_indices (length wk0) sidx.
Hypothesis L : length ws0 = length wk0.
Notation n := (length wk0).
Let Ls : length sidx = n := perm_len n sidx P.
Lemma light_lt k : (k < n)%nat -> (nth k sidx 0 < n)%nat.
Proof. intros H. apply (perm_lt n sidx); [exact P|]. apply nth_In. lia. Qed.
Lemma sidx_inj i j : (i < n)%nat -> (j < n)%nat -> nth i sidx 0%nat = nth j sidx 0%nat -> i = j.
Proof.
  intros I J. assert (N : NoDup sidx) by (eapply Permutation_NoDup; [symmetry; exact P|apply seq_NoDup]).
  rewrite (NoDup_nth sidx 0%nat) in N. apply N; lia.
Qed.
Definition wins (k : nat) : bool :=
  large_wins (draws k) (qabs (nth (light sidx k) ws0 0)) (qabs (nth (heavy sidx k) ws0 0)).
Definition pair_done (wk : list A) (ws : list Q) (k : nat) : Prop :=
  if wins k then paired wk0 ws0 wk ws (light sidx k) (heavy sidx k)
  else paired wk0 ws0 wk ws (heavy sidx k) (light sidx k).
Definition cinv (s : nat) (wk : list A) (ws : list Q) : Prop :=
  length wk = n /\ length ws = n /\
  (forall k, (k < s)%nat -> pair_done wk ws k /\ out_of_range ws0 mn mx sidx k) /\
  (forall k, (s <= k < n - s)%nat -> same_at wk0 ws0 wk ws (nth k sidx 0%nat)).
Lemma nth_upd_eq (ws : list Q) i x : (i < length ws)%nat -> nth i (upd ws i x) 0 = x.
Proof. intros H. apply nth_error_nth. apply nth_error_upd_eq. exact H. Qed.
Lemma nth_upd_neq (ws : list Q) i j x : i <> j -> nth j (upd ws i x) 0 = nth j ws 0.
Proof.
  intros H. destruct (nth_error ws j) eqn:E.
  - rewrite (nth_error_nth _ _ _ E). apply nth_error_nth. rewrite nth_error_upd_neq; auto.
  - apply nth_error_None in E. rewrite !nth_overflow; [reflexivity|exact E|rewrite upd_length; exact E].
Qed.
(** one step of the loop keeps the invariant: [keep] and [change] are the two
    positions of pair [s] *)
Lemma cinv_step s wk ws keep change x v : cinv s wk ws -> (s < n - 1 - s)%nat ->
  out_of_range ws0 mn mx sidx s ->
  (if wins s then keep = light sidx s /\ change = heavy sidx s else keep = heavy sidx s /\ change = light sidx s) ->
  nth_error wk keep = Some x ->
  v == (qabs (nth keep ws0 0) + qabs (nth change ws0 0)) / 2 ->
  cinv (S s) (upd wk change x) (upd ws change v).
Proof.
  intros (L1 & L2 & D & U) H O W X V.
  assert (KC : exists a b, (a < n)%nat /\ (b < n)%nat /\ a <> b /\ keep = nth a sidx 0%nat /\ change = nth b sidx 0%nat
     /\ ((a = s /\ b = n - 1 - s) \/ (a = n - 1 - s /\ b = s))%nat).
  { unfold light, heavy in W. rewrite Ls in W. destruct (wins s); destruct W as [-> ->].
    - exists s, (n - 1 - s)%nat. repeat split; try lia.
    - exists (n - 1 - s)%nat, s. repeat split; try lia. }
  destruct KC as (a & b & Ha & Hb & Nab & Ek & Ec & AB).
  assert (Kn : (keep < n)%nat) by (subst keep; apply light_lt; exact Ha).
  assert (Cn : (change < n)%nat) by (subst change; apply light_lt; exact Hb).
  assert (NE : keep <> change) by (subst; intros E; apply Nab; apply sidx_inj; auto).
  assert (Uk : same_at wk0 ws0 wk ws keep) by (rewrite Ek; apply U; lia).
  assert (other : forall k, (k < n)%nat -> k <> b -> forall i, i = nth k sidx 0%nat ->
     nth_error (upd wk change x) i = nth_error wk i /\ nth i (upd ws change v) 0 = nth i ws 0).
  { intros k Hk Nk i ->. assert (change <> nth k sidx 0%nat).
    { rewrite Ec. intros E. apply Nk. symmetry. apply sidx_inj; auto. }
    split; [rewrite nth_error_upd_neq; auto|apply nth_upd_neq; auto]. }
  split; [rewrite upd_length; exact L1|]. split; [rewrite upd_length; exact L2|]. split.
  - intros k Hk. destruct (Nat.eq_dec k s) as [->|Nks].
    + split; [|exact O]. destruct Uk as [U1 U2].
      assert (PP : paired wk0 ws0 (upd wk change x) (upd ws change v) keep change).
      { split; [rewrite nth_error_upd_neq by auto; exact U1|].
        split; [rewrite nth_upd_neq by auto; exact U2|].
        split; [rewrite nth_error_upd_eq by lia; rewrite <- U1; symmetry; exact X|].
        rewrite nth_upd_eq by lia. exact V. }
      unfold pair_done. destruct (wins s); destruct W as [<- <-]; exact PP.
    + destruct (D k ltac:(lia)) as [Dk Ok]. split; [|exact Ok].
      assert (Lk := other k ltac:(lia) ltac:(lia) _ eq_refl).
      assert (Hvk := other (n - 1 - k)%nat ltac:(lia) ltac:(lia) _ eq_refl).
      unfold pair_done, paired, light, heavy in *. rewrite Ls in *.
      destruct Lk as [L3 L4], Hvk as [L5 L6].
      destruct (wins k); rewrite L3, L4, L5, L6; exact Dk.
  - intros k Hk. destruct (other k ltac:(lia) ltac:(lia) _ eq_refl) as [O1 O2].
    destruct (U k ltac:(lia)) as [U1 U2]. split; congruence.
Qed.
Lemma const_loop_spec fuel : forall s wk ws, cinv s wk ws -> (2 * s <= n)%nat -> (n < fuel + s)%nat ->
  exists m wk' ws', const_loop fuel mn mx draws sidx s (n - 1 - s) wk ws = Ok (wk', ws') /\ cinv m wk' ws' /\ (2 * m <= n)%nat /\
    ((n <= 2 * m + 1)%nat \/ ~ out_of_range ws0 mn mx sidx m).
Proof.
  induction fuel as [|f IH]; intros s wk ws C Hs Hf; [lia|].
  cbn [const_loop]. destruct (Nat.ltb_spec s (n - 1 - s)) as [H|H]; [|exists s, wk, ws; split; [reflexivity|split; [exact C|split; [exact Hs|left; lia]]]].
  pose proof C as (L1 & L2 & D & U).
  rewrite (index_nth sidx s 0%nat), (index_nth sidx (n - 1 - s) 0%nat) by lia. cbn [rbind].
  rewrite (index_nth ws (nth s sidx 0%nat) 0), (index_nth ws (nth (n - 1 - s) sidx 0%nat) 0)
    by (rewrite L2; apply light_lt; lia). cbn [rbind].
  destruct (U s ltac:(lia)) as [U1 U2]. destruct (U (n - 1 - s)%nat ltac:(lia)) as [U3 U4].
  rewrite U2, U4.
  assert (EL : light sidx s = nth s sidx 0%nat) by reflexivity.
  assert (EH : heavy sidx s = nth (n - 1 - s) sidx 0%nat) by (unfold heavy; rewrite Ls; reflexivity).
  rewrite <- EL, <- EH in *.
  destruct (orb _ _) eqn:B.
  - assert (O : out_of_range ws0 mn mx sidx s).
    { apply orb_prop in B. destruct B as [B|B]; apply qltb_true in B; [left|right]; exact B. }
    assert (HS : (n - 1 - s - 1 = n - 1 - S s)%nat) by lia. rewrite HS.
    fold (wins s). destruct (wins s) eqn:W.
    + assert (Lt : (light sidx s < length wk)%nat) by (rewrite L1; apply light_lt; lia).
      unfold index. destruct (nth_error wk (light sidx s)) as [x|] eqn:X; [|apply nth_error_None in X; lia]. cbn [rbind].
      apply IH; [|lia|lia]. apply (cinv_step s wk ws (light sidx s)); auto; try (rewrite W; auto); field.
    + assert (Lt : (heavy sidx s < length wk)%nat) by (rewrite L1, EH; apply light_lt; lia).
      unfold index. destruct (nth_error wk (heavy sidx s)) as [x|] eqn:X; [|apply nth_error_None in X; lia]. cbn [rbind].
      apply IH; [|lia|lia]. apply (cinv_step s wk ws (heavy sidx s)); auto; try (rewrite W; auto); field.
  - exists s, wk, ws. split; [reflexivity|]. split; [exact C|]. split; [exact Hs|]. right. intros [O|O];
      apply Bool.orb_false_elim in B; destruct B as [B1 B2]; apply qltb_false in B1, B2; lra.
Qed.
Lemma const_spec : exists m wk' ws', branching_dp_constant wk0 ws0 mn mx sidx draws = Ok (wk', ws') /\
  length wk' = n /\ length ws' = n /\
  (2 * m <= n)%nat /\ ((n <= 2 * m + 1)%nat \/ ~ out_of_range ws0 mn mx sidx m) /\
  (forall k, (k < m)%nat -> out_of_range ws0 mn mx sidx k /\
     if large_wins (draws k) (qabs (nth (light sidx k) ws0 0)) (qabs (nth (heavy sidx k) ws0 0))
     then paired wk0 ws0 wk' ws' (light sidx k) (heavy sidx k)
     else paired wk0 ws0 wk' ws' (heavy sidx k) (light sidx k)) /\
  (forall k, (m <= k < n - m)%nat -> same_at wk0 ws0 wk' ws' (nth k sidx 0%nat)).
Proof.
  assert (C0 : cinv 0 wk0 ws0).
  { split; [reflexivity|]. split; [exact L|]. split; [intros; lia|]. intros k _. split; reflexivity. }
  destruct (const_loop_spec (S n) 0 wk0 ws0 C0 ltac:(lia) ltac:(lia)) as (m & wk' & ws' & E & (C1 & C2 & C3 & C4) & M & S).
  exists m, wk', ws'. unfold branching_dp_constant. rewrite Nat.sub_0_r in E. split; [exact E|].
  split; [exact C1|]. split; [exact C2|]. split; [exact M|]. split; [exact S|]. split; [|exact C4].
  intros k H. destruct (C3 k H) as [D O]. split; [exact O|]. exact D.
Qed.
End Const.

(** ** [branching_control] *)
Section Control.
Context {A : Type}.
Lemma add_copies_ok nw target (phiw : list A) ws up : length ws = length phiw ->
  (forall i, In i up -> (i < length phiw)%nat /\ 0 <= nth i ws 0 / target) ->
  forall count acc, (Z.of_nat (length acc) = count)%Z ->
  (forall p w, In (p, w) acc -> In p phiw /\ w = target) ->
  exists acc' count', add_copies nw target phiw ws up count acc = Ok (acc', count') /\
    (Z.of_nat (length acc') = count')%Z /\ (forall p w, In (p, w) acc' -> In p phiw /\ w = target).
Proof.
  intros L. induction up as [|i r IH]; intros U count acc C W; cbn [add_copies].
  - exists acc, count. auto.
  - destruct (U i (or_introl eq_refl)) as [I N].
    rewrite (index_nth ws i 0) by lia. cbn [rbind].
    unfold index. destruct (nth_error phiw i) as [p|] eqn:E; [|apply nth_error_None in E; lia]. cbn [rbind].
    assert (F : Z.le 0 (Qfloor (nth i ws 0 / target))) by (change 0%Z with (Qfloor 0); apply Qfloor_resp_le; exact N).
    set (c := Qfloor (nth i ws 0 / target)) in *.
    assert (C' : (Z.of_nat (length (acc ++ repeat (p, target) (Z.to_nat c))) = count + c)%Z).
    { rewrite app_length, repeat_length, Nat2Z.inj_add, Z2Nat.id by exact F. lia. }
    assert (W' : forall q w, In (q, w) (acc ++ repeat (p, target) (Z.to_nat c)) -> In q phiw /\ w = target).
    { intros q w H. apply in_app_or in H. destruct H as [H|H]; [apply W; exact H|].
      apply repeat_spec in H. inversion H; subst. split; [eapply nth_error_In; exact E|reflexivity]. }
    destruct (nw <? count + c)%Z.
    + do 2 eexists. split; [reflexivity|]. auto.
    + apply IH; auto. intros j J. apply U. right. exact J.
Qed.
Lemma In_firstn {B} (x : B) k l : In x (firstn k l) -> In x l.
Proof. revert l. induction k; intros [|y l]; cbn; [tauto|tauto|tauto|]. intros [->|H]; auto. Qed.
Lemma control_bound arr (phiw : list A) ws target bound choice : length ws = length phiw ->
  0 < target -> 0 <= bound ->
  (forall n, length (choice n) = n /\ forall i, In i (choice n) -> (i < length phiw)%nat) ->
  exists out, branching_control (Some arr) phiw ws target bound choice = Ok out /\
    length out = length phiw /\ (forall p w, In (p, w) out -> In p phiw /\ w = target).
Proof.
  intros L T B CH. unfold branching_control.
  destruct (add_copies_ok (Z.of_nat (length phiw)) target phiw ws (where_above bound ws) L) with (count := 0%Z) (acc := @nil (A * Q))
    as (acc & cnt & E & C & W).
  - intros i I. unfold where_above in I. apply filter_In in I. destruct I as [I Q]. apply in_seq in I.
    apply qltb_true in Q. split; [lia|]. apply Qle_shift_div_l; [exact T|]. lra.
  - reflexivity.
  - intros p w [].
  - rewrite E. cbn [rbind fst snd]. destruct (Z.ltb_spec 0 (Z.of_nat (length phiw) - cnt)).
    + destruct (CH (Z.to_nat (Z.of_nat (length phiw) - cnt))) as [C1 C2].
      set (ix := choice _) in *.
      assert (M : exists l, rmapM (index phiw) ix = Ok l /\ length l = length ix /\ forall p, In p l -> In p phiw).
      { clear -C2. induction ix as [|i r IH]; cbn [rmapM].
        - exists []. split; [reflexivity|]. split; [reflexivity|]. intros p [].
        - assert (I := C2 i (or_introl eq_refl)).
          unfold index at 1. destruct (nth_error phiw i) as [p|] eqn:E; [|apply nth_error_None in E; lia]. cbn [rbind].
          destruct IH as (l & E1 & E2 & E3); [intros; apply C2; right; assumption|]. rewrite E1. cbn [rbind].
          exists (p :: l). split; [reflexivity|]. split; [cbn; congruence|].
          intros q [<-|H]; [eapply nth_error_In; exact E|auto]. }
      destruct M as (l & E1 & E2 & E3). rewrite E1. cbn [rmap]. eexists. split; [reflexivity|]. split.
      * rewrite app_length, map_length, E2, C1. lia.
      * intros p w H0. apply in_app_or in H0. destruct H0 as [H0|H0]; [auto|].
        apply in_map_iff in H0. destruct H0 as (q & E4 & H0). inversion E4; subst. auto.
    + destruct (Z.ltb_spec (Z.of_nat (length phiw) - cnt) 0).
      * eexists. split; [reflexivity|]. split; [rewrite firstn_length; lia|]. intros p w I. apply W. eapply In_firstn; exact I.
      * eexists. split; [reflexivity|]. split; [lia|exact W].
Qed.

(** ** [branching_dp_dynamics] *)
Lemma dyn_loop_ok mn mx draws (wk : list A) sidx fuel : is_perm_of_indices (length wk) sidx ->
  forall s e1 ws acc, (e1 <= length wk)%nat -> (e1 < fuel)%nat -> length ws = length wk ->
  (length acc <= length wk)%nat -> (forall p w, In (p, w) acc -> In p wk) ->
  exists acc' ws', dyn_loop fuel mn mx draws wk sidx s e1 ws acc = Ok (acc', ws') /\
    length ws' = length wk /\ (length acc' <= length wk)%nat /\ (forall p w, In (p, w) acc' -> In p wk).
Proof.
  intros P. induction fuel as [|f IH]; intros s e1 ws acc He Hf Lw La W; [lia|]. cbn [dyn_loop].
  destruct (Nat.ltb_spec s e1); [|exists acc, ws; auto].
  destruct (Nat.ltb_spec (length acc) (length wk)); [|exists acc, ws; auto]. cbn [andb].
  pose proof (perm_len _ _ P) as Ls.
  assert (R : forall k, (k < length wk)%nat -> (nth k sidx 0 < length wk)%nat).
  { intros k Hk. apply (perm_lt _ sidx); [exact P|]. apply nth_In. lia. }
  rewrite (index_nth sidx s 0%nat), (index_nth sidx (e1 - 1) 0%nat) by lia. cbn [rbind].
  pose proof (R s ltac:(lia)). pose proof (R (e1 - 1)%nat ltac:(lia)).
  set (si := nth s sidx 0%nat) in *. set (ei := nth (e1 - 1) sidx 0%nat) in *.
  rewrite (index_nth ws si 0), (index_nth ws ei 0) by lia. cbn [rbind].
  assert (X : forall i, (i < length wk)%nat -> exists x, index wk i = Ok x /\ In x wk).
  { intros i Hi. unfold index. destruct (nth_error wk i) as [x|] eqn:E; [|apply nth_error_None in E; lia].
    exists x. split; [reflexivity|]. eapply nth_error_In; exact E. }
  destruct (X si ltac:(lia)) as (xs & Es & Is). destruct (X ei ltac:(lia)) as (xe & Ee & Ie).
  assert (W1 : forall x v, In x wk -> forall p w, In (p, w) (acc ++ [(x, v)]) -> In p wk).
  { intros x v I p w H'. apply in_app_or in H'. destruct H' as [H'|[H'|[]]]; [eapply W; exact H'|]. inversion H'; subst; exact I. }
  rewrite Es, Ee. cbn [rbind].
  destruct (orb _ _); [destruct (large_wins _ _ _)|]; apply IH; rewrite ?upd_length, ?app_length; cbn [length]; try lia;
    apply W1; assumption.
Qed.
Lemma dyn_pad_ok pick (wk : list A) ws k : length ws = length wk ->
  (forall i, (0 < length wk)%nat -> (pick i < length wk)%nat) -> (k <= length wk)%nat ->
  forall acc, (forall p w, In (p, w) acc -> In p wk) ->
  exists out, dyn_pad k pick wk ws acc = Ok out /\ length out = (k + length acc)%nat /\ (forall p w, In (p, w) out -> In p wk).
Proof.
  intros L PK. induction k as [|k IH]; intros Hk acc W; cbn [dyn_pad]; [exists acc; auto|].
  assert (I : (pick k < length wk)%nat) by (apply PK; lia).
  unfold index. destruct (nth_error wk (pick k)) as [x|] eqn:E; [|apply nth_error_None in E; lia]. cbn [rbind].
  destruct (nth_error ws (pick k)) as [w|] eqn:E2; [|apply nth_error_None in E2; lia]. cbn [rbind].
  destruct (IH ltac:(lia) (acc ++ [(x, w)])) as (out & E1 & E3 & E4).
  - intros p v H. apply in_app_or in H. destruct H as [H|[H|[]]]; [eapply W; exact H|]. inversion H; subst. eapply nth_error_In; exact E.
  - exists out. split; [exact E1|]. split; [|exact E4]. rewrite E3, app_length. cbn. lia.
Qed.
Lemma dynamics_ok (wk : list A) ws mn mx sidx draws pick : is_perm_of_indices (length wk) sidx -> length ws = length wk ->
  (forall i, (0 < length wk)%nat -> (pick i < length wk)%nat) ->
  exists out, branching_dp_dynamics wk ws mn mx sidx draws pick = Ok out /\
    length out = length wk /\ (forall p w, In (p, w) out -> In p wk).
Proof.
  intros P L PK. unfold branching_dp_dynamics.
  destruct (dyn_loop_ok mn mx draws wk sidx (S (length wk)) P 0 (length wk) ws []) as (acc & ws' & E & L1 & L2 & W); cbn [length]; try lia.
  - intros p w [].
  - rewrite E. cbn [rbind fst snd].
    destruct (dyn_pad_ok pick wk ws' (length wk - length acc) L1 PK ltac:(lia) acc W) as (out & E1 & E2 & E3).
    exists out. split; [exact E1|]. split; [lia|exact E3].
Qed.
End Control.
Lemma perm_swap01 : is_perm_of_indices 2 [0; 1]%nat.
Proof. apply Permutation_refl. Qed.
Lemma dynamics_bad : exists (ws : list Q) sidx draws pick out,
  is_perm_of_indices (length ws) sidx /\ sorted_by_weight ws sidx /\ (forall i, (pick i < length ws)%nat) /\
  branching_dp_dynamics (seq 0 (length ws)) ws (1#5) 2 sidx draws pick = Ok out /\
  ~ qsum (map (fun p => qabs (snd p)) out) == qsum (map qabs ws).
Proof.
  exists [1#10; 39#10], [0; 1]%nat, (fun _ => 1#2), (fun _ => 0%nat).
  eexists. split; [exact perm_swap01|]. split.
  - intros p q i j Hpq Hi Hj. destruct p as [|[|p]], q as [|[|q]]; cbn in Hi, Hj; try lia; try discriminate;
      try (destruct p; discriminate); try (destruct q; discriminate); inversion Hi; inversion Hj; subst; vm_compute; discriminate.
  - split; [cbn; intros; lia|]. split; [vm_compute; reflexivity|]. vm_compute. discriminate.
Qed.

(** ** Energy offset *)
From Coq Require Import Reals Lra.
Open Scope R_scope.
Lemma rsum_scale c l : rsum (map (fun w => w * c) l) = rsum l * c.
Proof. induction l; cbn; [lra|]. rewrite IHl. lra. Qed.
Lemma adjusted_zero ws dt target :
  adjusted_weights ws (repeat 0 (length ws)) dt target = map (fun w => w * exp (dt * energy_offset ws target)) ws.
Proof.
  unfold adjusted_weights. generalize (energy_offset ws target). intros o.
  induction ws as [|w r IH]; cbn; [reflexivity|]. rewrite IH. f_equal. f_equal. f_equal. lra.
Qed.
Lemma offset_drives ws dt target : ws <> [] -> 0 < dt -> 0 < target -> 0 < mean ws ->
  mean (adjusted_weights ws (repeat 0 (length ws)) dt target) = mean ws * exp (dt * ln (mean ws / target)).
Proof.
  intros N _ _ _. rewrite adjusted_zero. unfold mean. rewrite rsum_scale, map_length.
  change (ln (rsum ws / INR (length ws) / target)) with (energy_offset ws target). unfold Rdiv. lra.
Qed.
Lemma offset_away ws dt target : 0 < dt -> 0 < target -> target < mean ws ->
  mean ws < mean (adjusted_weights ws (repeat 0 (length ws)) dt target).
Proof.
  intros D T H.
  destruct ws as [|w r]; [unfold mean in H; cbn in H; unfold Rdiv in H; rewrite Rinv_0 in H; lra|].
  rewrite offset_drives; [|discriminate|lra|lra|lra].
  assert (1 < exp (dt * ln (mean (w :: r) / target))).
  { rewrite <- exp_0. apply exp_increasing. apply Rmult_lt_0_compat; [exact D|].
    rewrite <- ln_1. apply ln_increasing; [lra|]. apply Rmult_lt_reg_r with target; [exact T|].
    unfold Rdiv. rewrite Rmult_assoc, Rinv_l by lra. lra. }
  assert (0 < mean (w :: r)) by lra. nra.
Qed.
Lemma offset_away_ex : exists ws dt target, 0 < dt /\ 0 < target /\ target < mean ws /\
  mean ws < mean (adjusted_weights ws (repeat 0 (length ws)) dt target).
Proof.
  exists [2], 1, 1. assert (1 < mean [2]) by (unfold mean; cbn; lra).
  split; [lra|]. split; [lra|]. split; [assumption|]. apply offset_away; lra.
Qed.
Lemma control_unbound : exists (phiw : list nat) ws target bound choice,
  (0 < length phiw)%nat /\ length ws = length phiw /\ (0 < target)%Q /\ (0 <= bound)%Q /\
  (forall n, length (choice n) = n /\ forall i, In i (choice n) -> (i < length phiw)%nat) /\
  branching_control None phiw ws target bound choice = Err NameError.
Proof.
  exists [0%nat], [1%Q], 1%Q, 1%Q, (fun n => repeat 0%nat n). cbn [length].
  split; [lia|]. split; [reflexivity|]. split; [reflexivity|]. split; [discriminate|]. split; [|reflexivity].
  intros n. split; [apply repeat_length|]. intros i H. apply repeat_spec in H. lia.
Qed.
