(** Proofs about walker bookkeeping. *)
From Coq Require Import String.
From Verif Require Import Base BaseProofs PopModel PopSpec PopProofs ReconProofs WalkModel WalkSpec.
From Coq Require Import Lqa Permutation.
Open Scope Q_scope.

(** ** Rank partition *)
Lemma nsum_app a b : nsum (a ++ b) = (nsum a + nsum b)%nat.
Proof. unfold nsum. induction a; simpl; auto. rewrite IHa. lia. Qed.

Lemma counter_prefix q r size : forall i, (i <= size)%nat ->
  nsum (map (fun k => (q + (if Nat.ltb k r then 1 else 0))%nat) (seq 0 i)) = (q * i + Nat.min i r)%nat.
Proof.
  induction i; intros H; [simpl; lia|].
  rewrite seq_S, map_app, nsum_app, IHi by lia. unfold nsum. cbn [map fold_right plus].
  destruct (Nat.ltb_spec i r); rewrite Nat.mul_succ_r; lia.
Qed.

Lemma counter_length n size : List.length (walker_counter n size) = size.
Proof. unfold walker_counter. now rewrite map_length, seq_length. Qed.

Lemma counter_nth n size i : (i < size)%nat ->
  nth i (walker_counter n size) 0%nat =
  (n / size + (if Nat.ltb i (n mod size) then 1 else 0))%nat.
Proof.
  intros H. unfold walker_counter.
  apply nth_error_nth.
  rewrite (map_nth_error (fun i => (n / size + (if Nat.ltb i (n mod size) then 1 else 0))%nat) i
            (seq 0 size) (d := i)); auto.
  rewrite (nth_error_nth' _ 0%nat) by (rewrite seq_length; auto). now rewrite seq_nth.
Qed.

Lemma counter_sum n size : (0 < size)%nat -> nsum (walker_counter n size) = n.
Proof.
  intros H. unfold walker_counter. rewrite (counter_prefix (n / size) (n mod size) size) by lia.
  pose proof (Nat.div_mod n size ltac:(lia)). pose proof (Nat.mod_upper_bound n size ltac:(lia)). lia.
Qed.

Lemma displs_nth n size i : (i < size)%nat ->
  nth i (displs n size) 0%nat = nsum (firstn i (walker_counter n size)).
Proof.
  intros H. unfold displs. apply nth_error_nth.
  rewrite (map_nth_error (fun i => nsum (firstn i (walker_counter n size))) i
            (seq 0 size) (d := i)); auto.
  rewrite (nth_error_nth' _ 0%nat) by (rewrite seq_length; auto). now rewrite seq_nth.
Qed.

Lemma firstn_S_nth (l : list nat) i : (i < List.length l)%nat ->
  firstn (S i) l = firstn i l ++ [nth i l 0%nat].
Proof.
  revert i; induction l; intros i H; simpl in H; [lia|].
  destruct i; [reflexivity|]. change (a :: firstn (S i) l = a :: firstn i l ++ [nth i l 0%nat]).
  rewrite IHl by lia. reflexivity.
Qed.

Lemma partition_spec n size : (0 < size)%nat ->
  let c := walker_counter n size in
  let d := displs n size in
  List.length c = size /\ List.length d = size /\ nsum c = n /\
  (forall i j, (i <= j < size)%nat ->
      (nth j c 0 <= nth i c 0 /\ nth i c 0 <= nth j c 0 + 1)%nat) /\
  nth 0 d 0%nat = 0%nat /\
  (forall i, (S i < size)%nat -> nth (S i) d 0%nat = (nth i d 0 + nth i c 0)%nat) /\
  (nth (size - 1) d 0 + nth (size - 1) c 0 = n)%nat.
Proof.
  intros H c d. split; [apply counter_length|].
  split; [unfold d, displs; now rewrite map_length, seq_length|].
  split; [apply counter_sum; auto|].
  split; [|split; [|split]].
  - intros i j Hij. unfold c. rewrite !counter_nth by lia.
    destruct (Nat.ltb_spec i (n mod size)), (Nat.ltb_spec j (n mod size)); lia.
  - unfold d. rewrite displs_nth by lia. reflexivity.
  - intros i Hi. unfold d, c. rewrite !displs_nth by lia.
    rewrite firstn_S_nth by (rewrite counter_length; lia).
    rewrite nsum_app. unfold nsum at 2. cbn [fold_right]. lia.
  - unfold d, c. rewrite displs_nth by lia.
    assert (E : nsum (firstn (S (size - 1)) (walker_counter n size)) = n).
    { rewrite firstn_all2 by (rewrite counter_length; lia). apply counter_sum; auto. }
    rewrite firstn_S_nth in E by (rewrite counter_length; lia).
    rewrite nsum_app in E. unfold nsum at 2 in E. cbn [fold_right] in E. lia.
Qed.

(** ** Clipping *)
Lemma clip_range b w : 0 <= b -> - b <= clip b w <= b.
Proof.
  intros H. unfold clip. destruct (Qlt_le_dec w (- b)).
  - destruct (Qlt_le_dec b (- b)); lra.
  - destruct (Qlt_le_dec b w); lra.
Qed.
Lemma clip_id b w : - b <= w <= b -> clip b w = w.
Proof.
  intros H. unfold clip. destruct (Qlt_le_dec w (- b)); [lra|].
  destruct (Qlt_le_dec b w); auto. lra.
Qed.
Lemma clip_sign b w : 0 <= b -> (0 <= w -> 0 <= clip b w) /\ (w <= 0 -> clip b w <= 0).
Proof.
  intros H. unfold clip. destruct (Qlt_le_dec w (- b)).
  - destruct (Qlt_le_dec b (- b)); lra.
  - destruct (Qlt_le_dec b w); lra.
Qed.
Lemma clip_abs b w : 0 <= b -> qabs (clip b w) <= b.
Proof.
  intros H. pose proof (clip_range b w H). unfold qabs. destruct (Qlt_le_dec _ _); lra.
Qed.

Lemma qabs_div w r : 0 < r -> qabs (w / r) == qabs w / r.
Proof.
  intros H. unfold qabs. destruct (Qlt_le_dec w 0), (Qlt_le_dec (w / r) 0).
  - unfold Qdiv. lra.
  - exfalso. assert (w / r * r == w) by (field; lra).
    assert (0 <= w / r * r) by (apply Qmult_le_0_compat; lra). lra.
  - exfalso. assert (w / r * r == w) by (field; lra).
    assert (0 < (- (w / r)) * r) by (apply Qmult_lt_0_compat; lra). lra.
  - reflexivity.
Qed.

Lemma sum_abs_div l r : 0 < r ->
  qsum (map qabs (map (fun w => w / r) l)) == qsum (map qabs l) / r.
Proof.
  intros H. rewrite map_map.
  rewrite (qsum_map_ext _ (fun w => qabs w / r)) by (intros; apply qabs_div; auto).
  rewrite <- (map_map qabs (fun w => w / r)). apply qsum_div.
Qed.

(** ** Weight control at a control step *)
Lemma wc_clip_t0 step s : total_weight0 (wc_clip step s) = total_weight0 s.
Proof. unfold wc_clip. destruct (Nat.ltb 0 step); reflexivity. Qed.

Lemma weight_control_normalises step freq ranks N0 :
  (0 < freq)%nat -> Nat.modulo (S step) freq = 0%nat ->
  (forall s, In s ranks -> total_weight0 s = N0) -> 0 < N0 ->
  0 < global_total (map (wc_clip step) ranks) ->
  exists c ranks', weight_control step freq ranks = Ok ranks' /\ 0 < c /\
    map weights ranks' = map (fun s => map (fun w => w / c) (weights (wc_clip step s))) ranks /\
    global_total ranks' == N0 /\
    (forall s, In s ranks' ->
        total_weight s = global_total (map (wc_clip step) ranks) /\ total_weight0 s = N0).
Proof.
  intros Hf Hm HN HN0 HT. set (T := global_total (map (wc_clip step) ranks)) in *.
  exists (T / N0), (map (wc_rescale T) (map (wc_clip step) ranks)).
  assert (HP : 0 < T / N0) by (apply Qlt_shift_div_l; lra).
  split; [|split; [auto|split; [|split]]].
  - unfold weight_control. destruct freq; [lia|]. rewrite Hm. reflexivity.
  - rewrite !map_map. apply map_ext_in. intros s Hs. unfold wc_rescale. cbn [weights].
    rewrite wc_clip_t0, (HN s Hs). reflexivity.
  - transitivity (T / (T / N0)); [|field; lra].
    unfold global_total. rewrite map_map.
    transitivity (qsum (map (fun s => local_total s / (T / N0)) (map (wc_clip step) ranks))).
    + apply qsum_map_ext. intros s Hs. apply in_map_iff in Hs. destruct Hs as [s0 [<- Hs0]].
      unfold local_total at 1, wc_rescale. cbn [weights].
      rewrite wc_clip_t0, (HN s0 Hs0). rewrite sum_abs_div by auto. reflexivity.
    + rewrite <- (map_map local_total (fun w => w / (T / N0))). rewrite qsum_div. reflexivity.
  - intros s Hs. apply in_map_iff in Hs. destruct Hs as [s0 [<- Hs0]].
    apply in_map_iff in Hs0. destruct Hs0 as [s1 [<- Hs1]].
    unfold wc_rescale. cbn [total_weight total_weight0]. rewrite wc_clip_t0. auto.
Qed.

Lemma weight_control_between step freq ranks :
  (0 < freq)%nat -> Nat.modulo (S step) freq <> 0%nat ->
  weight_control step freq ranks = Ok (map (wc_clip step) ranks).
Proof.
  intros Hf Hm. unfold weight_control. destruct freq; [lia|].
  destruct (Nat.eqb_spec (Nat.modulo (S step) (S freq)) 0); [congruence|]. reflexivity.
Qed.

(** ** History: the recorded total is never negative, and the clipping bound
    is respected at every later step *)
Lemma local_total_nonneg s : 0 <= local_total s.
Proof.
  unfold local_total. apply qsum_nonneg. intros x Hx. apply in_map_iff in Hx.
  destruct Hx as [w [<- _]]. apply qabs_nonneg.
Qed.

Lemma wc_clip_total step s : total_weight (wc_clip step s) = total_weight s.
Proof. unfold wc_clip. destruct (Nat.ltb 0 step); reflexivity. Qed.

Lemma weight_control_totals step freq ranks ranks' :
  totals_ok ranks -> weight_control step freq ranks = Ok ranks' -> totals_ok ranks'.
Proof.
  intros H R. unfold weight_control in R. destruct freq; [discriminate|].
  destruct (Nat.eqb _ _); inversion R; subst; intros s Hs.
  - apply in_map_iff in Hs. destruct Hs as [s0 [<- Hs0]]. cbn [wc_rescale total_weight].
    apply qsum_nonneg. intros x Hx. apply in_map_iff in Hx. destruct Hx as [y [<- _]].
    apply local_total_nonneg.
  - apply in_map_iff in Hs. destruct Hs as [s0 [<- Hs0]]. rewrite wc_clip_total. auto.
Qed.

Lemma set_all_totals wss : forall ranks, totals_ok ranks -> totals_ok (set_all wss ranks).
Proof.
  induction wss; intros ranks H; destruct ranks; simpl; auto.
  intros x [<-|Hx].
  - cbn [set_weights total_weight]. apply H; simpl; auto.
  - apply IHwss with (ranks := ranks); auto. intros y Hy. apply H; simpl; auto.
Qed.

Lemma wc_run_totals freq : forall hist step ranks ranks',
  totals_ok ranks -> wc_run freq step hist ranks = Ok ranks' -> totals_ok ranks'.
Proof.
  induction hist; intros step ranks ranks' H R; simpl in R.
  - inversion R; subst; auto.
  - destruct (weight_control step freq (set_all a ranks)) eqn:E; [|discriminate].
    cbn [rbind] in R. apply (IHhist (S step) a0 ranks'); [|exact R].
    apply (weight_control_totals step freq (set_all a ranks) a0); [|exact E].
    apply set_all_totals; auto.
Qed.

(** The bound on the (not yet renormalised) weights after a later step. *)
Lemma weight_control_bound step freq ranks ranks' :
  (0 < step)%nat -> totals_ok ranks ->
  weight_control step freq ranks = Ok ranks' ->
  forall k s s', nth_error ranks k = Some s -> nth_error ranks' k = Some s' ->
  let unnormalised := if Nat.eqb (Nat.modulo (S step) freq) 0 then weights_org s' else weights s' in
  (forall w, In w unnormalised -> qabs w <= (1#10) * total_weight s) /\
  Forall2 (fun w w' => (qabs w <= (1#10) * total_weight s -> w' = w) /\
                       (0 <= w -> 0 <= w') /\ (w <= 0 -> w' <= 0))
          (weights s) unnormalised.
Proof.
  intros Hs HT R k s s' Hk Hk' u.
  assert (Hin : In s ranks) by (eapply nth_error_In; eauto).
  assert (HB : 0 <= (1#10) * total_weight s) by (specialize (HT s Hin); lra).
  assert (U : u = map (clip ((1#10) * total_weight s)) (weights s)).
  { unfold u. unfold weight_control in R. destruct freq as [|f]; [discriminate|].
    destruct (Nat.eqb (Nat.modulo (S step) (S f)) 0); inversion R; subst ranks'.
    - rewrite nth_error_map, nth_error_map, Hk in Hk'. simpl in Hk'. inversion Hk'; subst.
      unfold wc_clip. destruct (Nat.ltb_spec 0 step); [reflexivity|lia].
    - rewrite nth_error_map, Hk in Hk'. simpl in Hk'. inversion Hk'; subst.
      unfold wc_clip. destruct (Nat.ltb_spec 0 step); [reflexivity|lia]. }
  rewrite U. split.
  - intros w Hw. apply in_map_iff in Hw. destruct Hw as [w0 [<- _]]. apply clip_abs; auto.
  - clear U. induction (weights s) as [|w l IH]; simpl; constructor; auto.
    split; [|apply clip_sign; auto].
    intros H. apply clip_id. unfold qabs in H. destruct (Qlt_le_dec w 0); lra.
Qed.

(** ** Packing *)
Section PackProofs.
Context {P : Type}.
Implicit Type s : @walkers P.

Lemma rmapM_seq_nth {B} (l : list B) n (d : B) js :
  List.length l = n -> (forall j, In j js -> (j < n)%nat) ->
  rmapM (fun j => index l j) js = Ok (map (fun j => nth j l d) js).
Proof.
  intros HL H. apply rmapM_ok. intros j Hj. apply index_nth. rewrite HL. auto.
Qed.

Lemma map_nth_seq' {B} (l : list B) d n : List.length l = n ->
  map (fun i => nth i l d) (seq 0 n) = l.
Proof. intros <-. apply map_nth_seq. Qed.

(** Blocks of walker [i], as a function. *)
Definition blocks (d : P) s (i : nat) : list P :=
  match boson s with
  | Some b => if Nat.ltb 1 (ncomponents s)
              then [nth i (phiwa s) d; nth i (phiwb s) d; nth i b d]
              else [nth i (phiwa s) d; nth i b d]
  | None => if Nat.ltb 1 (ncomponents s)
            then [nth i (phiwa s) d; nth i (phiwb s) d]
            else [nth i (phiwa s) d]
  end.

Lemma pack_spec (d : P) s : consistent s -> pack s = Ok (map (blocks d s) (seq 0 (nwalkers s))).
Proof.
  intros [Ha [Hb [Hc H1]]]. unfold pack. apply rmapM_ok. intros i Hi. apply in_seq in Hi.
  unfold pack_one, blocks. destruct (boson s) as [b|] eqn:Eb.
  - specialize (Hc b eq_refl). destruct (Nat.ltb_spec 1 (ncomponents s)) as [Hn|Hn].
    + rewrite (index_nth (phiwa s) i d), (index_nth (phiwb s) i d), (index_nth b i d)
        by (rewrite ?Hb, ?Ha, ?Hc; lia). reflexivity.
    + destruct (Nat.eqb_spec (ncomponents s) 1); [|lia].
      rewrite (index_nth (phiwa s) i d), (index_nth b i d) by lia. reflexivity.
  - destruct (Nat.ltb_spec 1 (ncomponents s)) as [Hn|Hn].
    + rewrite (index_nth (phiwa s) i d), (index_nth (phiwb s) i d)
        by (rewrite ?Hb, ?Ha; lia). reflexivity.
    + rewrite (index_nth (phiwa s) i d) by lia. reflexivity.
Qed.

Lemma column_spec (d : P) (f : nat -> list P) js n k :
  List.length js = n -> (forall i, (k < List.length (f i))%nat) ->
  column (map f js) n k = Ok (map (fun j => nth k (f j) d) js).
Proof.
  intros HL HK. unfold column.
  rewrite (rmapM_ok _ (fun i => nth k (f (nth i js 0%nat)) d)).
  - f_equal. transitivity (map (fun j => nth k (f j) d) (map (fun i => nth i js 0%nat) (seq 0 n))).
    + now rewrite map_map.
    + now rewrite map_nth_seq'.
  - intros i Hi. apply in_seq in Hi.
    rewrite (index_nth (map f js) i (f 0%nat)) by (rewrite map_length; lia).
    cbn [rbind]. rewrite map_nth. apply index_nth. apply HK.
Qed.

Definition gather_blocks (d : P) s (js : list nat) : walkers :=
  set_blocks s (map (fun j => nth j (phiwa s) d) js)
    (if Nat.ltb 1 (ncomponents s) then map (fun j => nth j (phiwb s) d) js else phiwb s)
    (match boson s with Some b => Some (map (fun j => nth j b d) js) | None => None end).

Lemma unpack_spec (d : P) s js : consistent s -> List.length js = nwalkers s ->
  unpack s (map (blocks d s) js) = Ok (gather_blocks d s js).
Proof.
  intros [Ha [Hb [Hc H1]]] HL. unfold unpack, gather_blocks.
  assert (LB : forall k i, (k < match boson s with
       | Some _ => if Nat.ltb 1 (ncomponents s) then 3 else 2
       | None => if Nat.ltb 1 (ncomponents s) then 2 else 1 end)%nat ->
       (k < List.length (blocks d s i))%nat).
  { intros k i. unfold blocks. destruct (boson s), (Nat.ltb 1 (ncomponents s)); simpl; auto. }
  destruct (boson s) as [b|] eqn:Eb; destruct (Nat.ltb_spec 1 (ncomponents s)) as [Hn|Hn].
  - rewrite !(column_spec d) by (auto; intros; apply LB; lia). cbn [rbind].
    unfold blocks. rewrite Eb. destruct (Nat.ltb_spec 1 (ncomponents s)); [|lia]. reflexivity.
  - destruct (Nat.eqb_spec (ncomponents s) 1); [|lia].
    rewrite !(column_spec d) by (auto; intros; apply LB; lia). cbn [rbind].
    unfold blocks. rewrite Eb. destruct (Nat.ltb_spec 1 (ncomponents s)); [lia|]. reflexivity.
  - rewrite !(column_spec d) by (auto; intros; apply LB; lia). cbn [rbind].
    unfold blocks. rewrite Eb. destruct (Nat.ltb_spec 1 (ncomponents s)); [|lia]. reflexivity.
  - rewrite !(column_spec d) by (auto; intros; apply LB; lia). cbn [rbind].
    unfold blocks. rewrite Eb. destruct (Nat.ltb_spec 1 (ncomponents s)); [lia|]. reflexivity.
Qed.

Lemma walkers_eta s : set_blocks s (phiwa s) (phiwb s) (boson s) = s.
Proof. destruct s; reflexivity. Qed.

Lemma pack_roundtrip s : consistent s -> (0 < nwalkers s)%nat ->
  exists pk, pack s = Ok pk /\ List.length pk = nwalkers s /\ unpack s pk = Ok s.
Proof.
  intros C Hn. assert (C' := C). destruct C' as [Ha [Hb [Hc H1]]].
  destruct (phiwa s) as [|d l] eqn:E; [simpl in Ha; lia|]. rewrite <- E in *.
  exists (map (blocks d s) (seq 0 (nwalkers s))).
  split; [apply pack_spec; auto|]. split; [now rewrite map_length, seq_length|].
  rewrite unpack_spec by (auto; apply seq_length). f_equal. unfold gather_blocks.
  rewrite map_nth_seq' by auto.
  assert (Eb : (if Nat.ltb 1 (ncomponents s) then
            map (fun j => nth j (phiwb s) d) (seq 0 (nwalkers s)) else phiwb s) = phiwb s).
  { destruct (Nat.ltb_spec 1 (ncomponents s)); auto. apply map_nth_seq'; auto. }
  rewrite Eb.
  assert (Ec : match boson s with
     | Some b => Some (map (fun j => nth j b d) (seq 0 (nwalkers s)))
     | None => None end = boson s).
  { destruct (boson s) eqn:EB; auto. f_equal. apply map_nth_seq'; auto. }
  rewrite Ec. apply walkers_eta.
Qed.

(** Resampling a package moves the blocks of a walker together. *)
Lemma pack_resample (d : P) s js : consistent s -> List.length js = nwalkers s ->
  (forall j, In j js -> (j < nwalkers s)%nat) ->
  exists pk, pack s = Ok pk /\
   exists s', unpack s (map (fun j => nth j pk []) js) = Ok s' /\
     phiwa s' = map (fun j => nth j (phiwa s) d) js /\
     ((1 < ncomponents s)%nat -> phiwb s' = map (fun j => nth j (phiwb s) d) js) /\
     (forall b, boson s = Some b -> boson s' = Some (map (fun j => nth j b d) js)).
Proof.
  intros C HL HJ. exists (map (blocks d s) (seq 0 (nwalkers s))).
  split; [apply pack_spec; auto|]. exists (gather_blocks d s js).
  split.
  - rewrite <- (unpack_spec d s js C HL). f_equal. apply map_ext_in. intros j Hj.
    specialize (HJ j Hj).
    rewrite (nth_indep _ [] (blocks d s 0)) by (rewrite map_length, seq_length; auto).
    rewrite map_nth, seq_nth by auto. reflexivity.
  - unfold gather_blocks, set_blocks. cbn [phiwa phiwb boson]. split; [auto|]. split.
    + intros H. destruct (Nat.ltb_spec 1 (ncomponents s)); [auto|lia].
    + intros b ->. reflexivity.
Qed.

(** *** Any population control keeps a consistent population consistent *)
Lemma blocks_in_map_inv (d : P) s n (ph : list (list P)) :
  (forall x, In x ph -> In x (map (blocks d s) (seq 0 n))) ->
  exists js, ph = map (blocks d s) js /\ (forall j, In j js -> (j < n)%nat).
Proof.
  induction ph as [|x ph IH]; intros H.
  - exists []; split; auto. intros j [].
  - destruct IH as [js [E HJ]]; [intros; apply H; simpl; auto|].
    assert (Hx := H x (or_introl eq_refl)). apply in_map_iff in Hx.
    destruct Hx as [j [<- Hj]]. apply in_seq in Hj.
    exists (j :: js). split; [simpl; congruence|]. intros k [<-|Hk]; auto; lia.
Qed.

Lemma control_result (pk : list (list P)) ws c :
  List.length pk = List.length ws -> control_ok c ws ->
  exists ph w', run_control c pk ws = Ok (ph, w') /\
    List.length ph = List.length pk /\ List.length w' = List.length pk /\
    (forall x, In x ph -> In x pk) /\
    qsum w' == qsum (map qabs ws).
Proof.
  intros HL HC.
  assert (NN : (forall w, In w ws -> 0 <= w) -> qsum (map qabs ws) == qsum ws).
  { intros H. rewrite <- (map_id ws) at 2. apply qsum_map_ext.
    intros x Hx. rewrite qabs_pos by auto. reflexivity. }
  destruct c; cbn [control_ok] in HC.
  - destruct (branching_dp0_conserves pk ws (1#10) 2 sidx draws HL HC) as [out [R [L [S I]]]].
    cbn [run_control]. rewrite R. cbn [rmap].
    exists (map fst out), (map snd out). repeat split; auto; try (now rewrite map_length).
    intros x Hx. apply in_map_iff in Hx. destruct Hx as [p [<- Hp]]. apply I; auto.
  - destruct HC as [H1 [H2 [H3 H4]]].
    destruct (recon_conserves pk ws start HL H1 H2 H3 H4) as [ph [w' [R [L1 [L2 [I [_ S]]]]]]].
    exists ph, w'. cbn [run_control]. repeat split; auto. rewrite S, NN by auto. reflexivity.
  - destruct HC as [H1 [H2 [H3 H4]]].
    destruct (comb_conserves pk ws offset HL H1 H2 H3 H4) as [ph [w' [R [L1 [L2 [I [_ S]]]]]]].
    exists ph, w'. cbn [run_control]. repeat split; auto. rewrite S, NN by auto. reflexivity.
Qed.

Lemma population_control_ok (d : P) s c :
  consistent s -> List.length (wts s) = nwalkers s -> control_ok c (wts s) ->
  exists s' js, population_control (Some c) s = Ok s' /\
    consistent s' /\ nwalkers s' = nwalkers s /\ List.length (wts s') = nwalkers s /\
    qsum (wts s') == qsum (map qabs (wts s)) /\
    List.length js = nwalkers s /\ (forall j, In j js -> (j < nwalkers s)%nat) /\
    phiwa s' = map (fun j => nth j (phiwa s) d) js /\
    ((1 < ncomponents s)%nat -> phiwb s' = map (fun j => nth j (phiwb s) d) js) /\
    (forall b, boson s = Some b -> boson s' = Some (map (fun j => nth j b d) js)).
Proof.
  intros C HW HC. cbn [population_control]. rewrite (pack_spec d s C). cbn [rbind].
  set (pk := map (blocks d s) (seq 0 (nwalkers s))).
  assert (Lpk : List.length pk = nwalkers s) by (unfold pk; now rewrite map_length, seq_length).
  destruct (control_result pk (wts s) c) as [ph [w' [R [L1 [L2 [I S]]]]]]; [congruence|auto|].
  rewrite R. cbn [rbind fst snd].
  destruct (blocks_in_map_inv d s (nwalkers s) ph) as [js [E HJ]]; [exact I|].
  assert (LJ : List.length js = nwalkers s).
  { rewrite <- Lpk, <- L1, E, map_length. reflexivity. }
  rewrite E, (unpack_spec d s js C LJ). cbn [rmap].
  exists (set_wts (gather_blocks d s js) w'), js.
  split; [reflexivity|]. destruct C as [Ha [Hb [Hc H1]]].
  split.
  { unfold consistent, gather_blocks, set_wts, set_blocks. cbn [phiwa phiwb boson nwalkers ncomponents].
    rewrite map_length. repeat split; auto.
    - intros Hn. destruct (Nat.ltb_spec 1 (ncomponents s)); [now rewrite map_length|lia].
    - intros b Hbo. destruct (boson s) as [b0|]; inversion Hbo. now rewrite map_length. }
  cbn [nwalkers wts set_wts gather_blocks set_blocks]. split; [reflexivity|].
  split; [congruence|]. split; [exact S|]. split; [auto|]. split; [auto|].
  cbn [phiwa phiwb boson set_wts gather_blocks set_blocks]. split; [reflexivity|]. split.
  - intros H. destruct (Nat.ltb_spec 1 (ncomponents s)); [auto|lia].
  - intros b Hb'. rewrite Hb'. reflexivity.
Qed.
End PackProofs.

(** ** Options *)
Lemma dget_dset_eq k v d : dget k (dset k v d) = Some v.
Proof.
  induction d as [|[k' v'] d IH]; simpl; [now rewrite String.eqb_refl|].
  destruct (String.eqb k k') eqn:E; simpl.
  - now rewrite String.eqb_refl.
  - rewrite E. auto.
Qed.

Lemma process_app l a : process (l ++ [a]) = construct (process l) a.
Proof. unfold process. now rewrite fold_left_app. Qed.

Lemma options_nwalkers_last hist a n :
  arg_num_walkers a = Some n -> forall k o,
  options_of (hist ++ [a]) k = Some o -> dget "nwalkers" o = Some n.
Proof.
  intros Ha k o Ho. unfold options_of in Ho.
  destruct (Nat.ltb k _); inversion Ho; subst. rewrite process_app. unfold construct.
  rewrite Ha. apply dget_dset_eq.
Qed.

Lemma ws_init_totals counts total : totals_ok (map (fun n => ws_init n total) counts).
Proof.
  intros s Hs. apply in_map_iff in Hs. destruct Hs as [n [<- _]].
  cbn [ws_init total_weight]. unfold Qle. simpl. lia.
Qed.

Lemma history_bound : forall freq hist counts total ranks ws ranks' step,
  step = List.length hist -> (0 < step)%nat ->
  wc_run freq 0 hist (map (fun n => ws_init n total) counts) = Ok ranks ->
  weight_control step freq (set_all ws ranks) = Ok ranks' ->
  forall k s s', nth_error (set_all ws ranks) k = Some s -> nth_error ranks' k = Some s' ->
  let unnormalised := if Nat.eqb (Nat.modulo (S step) freq) 0 then weights_org s' else weights s' in
  (forall w, In w unnormalised -> qabs w <= (1#10) * total_weight s) /\
  Forall2 (fun w w' => (qabs w <= (1#10) * total_weight s -> w' = w) /\
                       (0 <= w -> 0 <= w') /\ (w <= 0 -> w' <= 0))
          (weights s) unnormalised.
Proof.
  intros freq hist counts total ranks ws ranks' step E Hs R W k s s' Hk Hk'.
  apply (weight_control_bound step freq (set_all ws ranks) ranks' Hs) with (k := k); auto.
  apply set_all_totals. apply (wc_run_totals freq hist 0 _ ranks (ws_init_totals counts total) R).
Qed.

Lemma recorded_total step freq ranks ranks' : weight_control step freq ranks = Ok ranks' ->
  forall k s s', nth_error ranks k = Some s -> nth_error ranks' k = Some s' ->
  total_weight s' = (if Nat.eqb (Nat.modulo (S step) freq) 0
                     then global_total (map (wc_clip step) ranks) else total_weight s).
Proof.
  intros R k s s' Hk Hk'. unfold weight_control in R. destruct freq as [|f]; [discriminate|].
  destruct (Nat.eqb (Nat.modulo (S step) (S f)) 0); inversion R; subst ranks'.
  - rewrite nth_error_map, nth_error_map, Hk in Hk'. simpl in Hk'. inversion Hk'; subst. reflexivity.
  - rewrite nth_error_map, Hk in Hk'. simpl in Hk'. inversion Hk'; subst. apply wc_clip_total.
Qed.

Lemma small_population_clipped n : (0 < n < 10)%nat ->
  exists ranks, wc_run 100 0 [] [ws_init n n] = Ok [ws_init n n] /\
    weight_control 1 100 [ws_init n n] = Ok ranks /\
    Forall (fun s => Forall (fun w => w < 1) (weights s)) ranks /\
    ranks <> [] /\ Forall (fun s => weights s <> []) ranks.
Proof.
  intros H. eexists. split; [reflexivity|]. split; [reflexivity|].
  assert (B : (1#10) * inject_Z (Z.of_nat n) < 1).
  { assert (inject_Z (Z.of_nat n) <= 9).
    { unfold Qle. simpl. lia. } lra. }
  split; [|split].
  - constructor; [|constructor]. apply Forall_forall. intros w Hw.
    cbn [wc_clip Nat.ltb Nat.leb weights map ws_init total_weight] in Hw.
    apply in_map_iff in Hw. destruct Hw as [x [<- Hx]].
    assert (NN : 0 <= (1#10) * inject_Z (Z.of_nat n)).
    { assert (0 <= inject_Z (Z.of_nat n)) by (unfold Qle; simpl; lia). lra. }
    pose proof (clip_range _ x NN). lra.
  - discriminate.
  - constructor; [|constructor].
    cbn [wc_clip Nat.ltb Nat.leb weights map ws_init total_weight].
    destruct n; [lia|discriminate].
Qed.

Lemma large_population_kept step freq n total w s : (10 <= n)%nat ->
  total_weight s = total -> 0 <= w -> inject_Z (Z.of_nat n) * w <= total ->
  weights s = repeat w (List.length (weights s)) ->
  (0 < freq)%nat -> Nat.modulo (S step) freq <> 0%nat ->
  weight_control step freq [s] = Ok [s].
Proof.
  intros Hn HT Hw Hs HR Hf Hm. rewrite weight_control_between by auto. cbn [map]. do 2 f_equal.
  unfold wc_clip. destruct (Nat.ltb 0 step); auto.
  replace (map (clip ((1 # 10) * total_weight s)) (weights s)) with (weights s);
    [destruct s; reflexivity|].
  symmetry. rewrite <- (map_id (weights s)) at 2. apply map_ext_in. intros x Hx.
  rewrite HR in Hx. apply repeat_spec in Hx. subst x. apply clip_id. rewrite HT.
  assert (10 * w <= inject_Z (Z.of_nat n) * w).
  { apply Qmult_le_compat_r; auto. unfold Qle; simpl; lia. }
  lra.
Qed.

Lemma partition_unique n size g : (0 < size)%nat -> (g < n)%nat ->
  exists! r, (r < size)%nat /\
    (nth r (displs n size) 0 <= g < nth r (displs n size) 0 + nth r (walker_counter n size) 0)%nat.
Proof.
  intros Hs Hg.
  destruct (partition_spec n size Hs) as [Lc [Ld [Sc [_ [D0 [DS DN]]]]]].
  set (c := walker_counter n size) in *. set (d := displs n size) in *.
  assert (EX : forall k, (k < size)%nat -> (g < nth k d 0 + nth k c 0)%nat ->
     exists r, (r <= k)%nat /\ (nth r d 0 <= g < nth r d 0 + nth r c 0)%nat).
  { induction k; intros Hk Hgk.
    - exists 0%nat. lia.
    - destruct (Nat.le_gt_cases (nth (S k) d 0%nat) g).
      + exists (S k). lia.
      + rewrite DS in H by auto. destruct IHk as [r [Hr1 Hr2]]; [lia|lia|]. exists r. lia. }
  assert (MONO : forall i j, (i < j < size)%nat -> (nth i d 0 + nth i c 0 <= nth j d 0)%nat).
  { intros i j. induction j; intros H; [lia|].
    rewrite DS by lia. destruct (Nat.eq_dec i j); [subst j; lia|].
    assert (i < j < size)%nat by lia. specialize (IHj H0). lia. }
  destruct (EX (size - 1)%nat) as [r [Hr1 Hr2]]; [lia|lia|].
  exists r. split; [split; [lia|auto]|].
  intros r' [Hr' Hg']. destruct (Nat.lt_trichotomy r r') as [H|[H|H]]; auto.
  - pose proof (MONO r r' ltac:(lia)). lia.
  - pose proof (MONO r' r ltac:(lia)). lia.
Qed.

Lemma side_data_detached :
  exists (s s' : @walkers Z) u, consistent s /\
    population_control (Some (Reconfiguration u)) s = Ok s' /\
    control_ok (Reconfiguration u) (wts s) /\
    exists i, (i < nwalkers s)%nat /\
      forall j, (j < nwalkers s)%nat -> whole_walker s' i <> whole_walker s j.
Proof.
  exists (mkw 1 2 [1; 2]%Z [] None [0; 2] [5; 6] [0; 0] [0; 0]).
  eexists. exists (1#4). split; [|split; [vm_compute; reflexivity|split]].
  - unfold consistent; simpl. repeat split; auto; try lia. discriminate.
  - cbn. split; [|split; [|split]].
    + intros w [<-|[<-|[]]]; discriminate.
    + reflexivity.
    + discriminate.
    + reflexivity.
  - exists 0%nat. cbn [nwalkers]. split; [lia|]. intros j Hj.
    destruct j as [|[|j]]; [| |lia]; vm_compute; congruence.
Qed.

Lemma options_shared :
  exists a b o o', options_of [a] 0 = Some o /\ options_of [a; b] 0 = Some o' /\
    dget "weight_max" o <> dget "weight_max" o' /\
    (exists o2 fresh, options_of [b; a] 1 = Some o2 /\ options_of [a] 0 = Some fresh /\
       dget "weight_max" o2 <> dget "weight_max" fresh).
Proof.
  exists (default_args None), (default_args (Some [("weight_max"%string, 3)])).
  do 2 eexists. split; [reflexivity|]. split; [reflexivity|]. split; [vm_compute; discriminate|].
  do 2 eexists. split; [reflexivity|]. split; [reflexivity|]. vm_compute; discriminate.
Qed.

Lemma options_all_equal l j k o o' :
  options_of l j = Some o -> options_of l k = Some o' -> o = o'.
Proof.
  unfold options_of. destruct (Nat.ltb j _), (Nat.ltb k _); congruence.
Qed.

Lemma options_of_last hist a : options_of (hist ++ [a]) (List.length hist)
  = Some (construct (process hist) a).
Proof.
  unfold options_of. rewrite app_length. simpl.
  destruct (Nat.ltb_spec (List.length hist) (List.length hist + 1)); [|lia].
  now rewrite process_app.
Qed.

Lemma requested_ignored n hist : ~ n == 100 ->
  exists o v, options_of (hist ++ [default_args (Some [("nwalkers"%string, n)])])
                (List.length hist) = Some o /\
    dget "nwalkers" o = Some v /\ ~ v == n.
Proof.
  intros H. rewrite options_of_last. eexists. exists 100. split; [reflexivity|].
  unfold construct. cbn [default_args arg_num_walkers arg_options]. split.
  - apply dget_dset_eq.
  - intros E. apply H. now symmetry.
Qed.

Lemma requested_with_none n hist :
  exists o, options_of (hist ++ [mkargs (Some [("nwalkers"%string, n)]) None])
                (List.length hist) = Some o /\ dget "nwalkers" o = Some n.
Proof.
  rewrite options_of_last. eexists. split; [reflexivity|].
  unfold construct. cbn [arg_num_walkers arg_options dupdate fold_left fst snd].
  apply dget_dset_eq.
Qed.

Lemma boson_renorm_sign :
  exists phi norm, norm * norm == qsum (map (fun x => x * x) phi) /\ 0 < norm /\
    forall c, ~ scaled c phi (boson_renorm norm phi).
Proof.
  exists [3; -(4)], 5. split; [vm_compute; reflexivity|]. split; [reflexivity|].
  intros c H. inversion H as [|x y l l' H1 H2]; subst. inversion H2 as [|x' y' l2 l2' H3 H4]; subst.
  assert (E1 : qabs (3 / 5) == 3 # 5) by reflexivity.
  assert (E2 : qabs (- (4) / 5) == 4 # 5) by reflexivity.
  rewrite E1 in H1. rewrite E2 in H3. lra.
Qed.

Lemma boson_renorm_nonneg phi norm : 0 < norm -> (forall x, In x phi -> 0 <= x) ->
  scaled (1 / norm) phi (boson_renorm norm phi) /\
  (norm * norm == qsum (map (fun x => x * x) phi) ->
   qsum (map (fun x => x * x) (boson_renorm norm phi)) == 1).
Proof.
  intros Hn H.
  assert (E : forall x, In x phi -> qabs (x / norm) == x / norm).
  { intros x Hx. rewrite qabs_div by auto. rewrite qabs_pos by auto. reflexivity. }
  split.
  - unfold scaled, boson_renorm. induction phi as [|x l IH]; simpl; constructor.
    + rewrite E by (simpl; auto). field. lra.
    + apply IH; intros; [apply H|apply E]; simpl; auto.
  - intros HN. unfold boson_renorm. rewrite map_map.
    rewrite (qsum_map_ext _ (fun x => x * x / (norm * norm))).
    + rewrite <- (map_map (fun x => x * x) (fun y => y / (norm * norm))), qsum_div.
      rewrite <- HN. field. lra.
    + intros x Hx. rewrite (E x Hx). field. lra.
Qed.
