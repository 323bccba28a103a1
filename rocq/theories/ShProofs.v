(** Proofs for the surface-hopping properties. *)
From Coq Require Import Permutation Sorted Lqa Qfield.
From Verif Require Import Base HopModel HopSpec ShModel ShSpec.
Open Scope Q_scope.

Lemma index_ok {A} (l : list A) i : (i < length l)%nat -> exists x, index l i = Ok x /\ nth_error l i = Some x.
Proof.
  intros H. unfold index. destruct (nth_error l i) eqn:E; [eauto|].
  apply nth_error_None in E. lia.
Qed.
Lemma index_some {A} (l : list A) i x : nth_error l i = Some x -> index l i = Ok x.
Proof. unfold index. now intros ->. Qed.
Lemma index_inv {A} (l : list A) i x : index l i = Ok x -> nth_error l i = Some x.
Proof. unfold index. destruct (nth_error l i); congruence. Qed.

Lemma hopping_probability_err nmol states : (0 < nmol)%nat -> states <> [] ->
  hopping_probability nmol states = Err TypeError.
Proof.
  intros H1 H2. destruct nmol; [lia|]. destruct states; [easy|]. reflexivity.
Qed.

Lemma nth_row n edt rho ham cur j : (j < n)%nat ->
  nth j (hop_row_read n edt rho ham cur) 0 = hop_entry edt rho ham cur j.
Proof.
  intros H. unfold hop_row_read.
  rewrite nth_indep with (d' := hop_entry edt rho ham cur 0) by (now rewrite map_length, seq_length).
  rewrite map_nth, seq_nth by lia. reflexivity.
Qed.

Lemma dens_spec c j k :
  fst (densities c j k) == fst (cmul (cconj (c j)) (c k)) /\
  snd (densities c j k) == snd (cmul (cconj (c j)) (c k)).
Proof. unfold densities, cmul, cconj; cbn [fst snd]. split; ring. Qed.
Lemma dens_diag c k : fst (densities c k k) = population c k.
Proof. reflexivity. Qed.

Lemma read_tully n edt c ham cur j : (j < n)%nat -> j <> cur ->
  ~ population c cur == 0 -> ~ population c j == 0 ->
  nth j (hop_row_read n edt (densities c) ham cur) 0 * population c j
  == tully edt c ham cur j * population c cur.
Proof.
  intros H1 H2 H3 H4. rewrite nth_row by easy. unfold hop_entry.
  destruct (Nat.eqb_spec j cur); [easy|].
  rewrite dens_diag. unfold tully. fold (population c cur).
  unfold densities; cbn [fst snd]. field. now split.
Qed.
Lemma read_tully_equal n edt c ham cur j : (j < n)%nat -> j <> cur ->
  ~ population c cur == 0 -> population c j == population c cur ->
  nth j (hop_row_read n edt (densities c) ham cur) 0 == tully edt c ham cur j.
Proof.
  intros H1 H2 H3 H4.
  assert (H5 : ~ population c j == 0) by (now rewrite H4).
  pose proof (read_tully n edt c ham cur j H1 H2 H3 H5) as H.
  rewrite H4 in H. apply Qmult_inj_r in H; easy.
Qed.

Definition c2 (a b : Q) (k : nat) : cplx := match k with O => (a, 0) | S O => (b, 0) | _ => (0, 0) end.
Definition h2 (x : Q) (j k : nat) : Q := match j, k with O, S O => x | S O, O => - x | _, _ => 0 end.
Lemma h2_antisym x : antisym 2 (h2 x).
Proof.
  intros j k H1 H2 H3. destruct j as [|[|]], k as [|[|]]; try lia; unfold h2; ring.
Qed.

Lemma target_refuted : exists edt c ham, 0 < edt /\ antisym 2 ham /\
  population c 0 + population c 1 == 1 /\ 0 < population c 0 /\ 0 < population c 1 /\
  0 < tully edt c ham 0 1 < 1 # 10 /\
  1 < nth 1 (hop_row_read 2 edt (densities c) ham 0) 0.
Proof.
  exists (1 # 10), (c2 (99 # 101) (20 # 101)), (h2 (- (22 # 10))).
  split; [reflexivity|]. split; [apply h2_antisym|]. vm_compute. repeat split; congruence.
Qed.

Lemma qsum_lin {A} (f g : A -> Q) a l : (forall x, f x == a * g x) ->
  qsum (map f l) == a * qsum (map g l).
Proof. intros H. induction l; cbn; [ring|]. rewrite IHl, H. ring. Qed.
Lemma qsum_comb {A} (f g k : A -> Q) a b l : (forall x, a * f x + b * g x == k x) ->
  a * qsum (map f l) + b * qsum (map g l) == qsum (map k l).
Proof. intros H. induction l; cbn; [ring|]. rewrite <- IHl, <- H. ring. Qed.

Lemma flux n h c k :
  population_rate c (coef_dot n h c) k == - qsum (map (outflow h c k) (seq 0 n)).
Proof.
  unfold population_rate, coef_dot; cbn [fst snd].
  set (S1 := qsum (map (fun k0 => h k k0 * snd (c k0)) (seq 0 n))).
  set (S2 := qsum (map (fun k0 => h k k0 * fst (c k0)) (seq 0 n))).
  setoid_replace (2 * (fst (c k) * S1 + snd (c k) * - S2))
    with (- ((- (2 * fst (c k))) * S1 + (2 * snd (c k)) * S2)) by ring.
  unfold S1, S2. apply Qopp_comp. apply qsum_comb.
  intros x. unfold outflow. ring.
Qed.
Lemma flux_refuted : exists edt c ham, 0 < edt /\ antisym 2 ham /\
  population c 0 + population c 1 == 1 /\
  (forall j, (j < 2)%nat -> outflow ham c 0 j == 0) /\
  0 < nth 1 (hop_row_read 2 edt (densities c) ham 0) 0.
Proof.
  exists (1 # 10), (c2 (3 # 5) (4 # 5)), (h2 (- 1)).
  split; [reflexivity|]. split; [apply h2_antisym|].
  split; [reflexivity|]. split; [|reflexivity].
  intros j Hj. destruct j as [|[|]]; [reflexivity|reflexivity|lia].
Qed.

(** ** velocity_rescaling *)
Lemma kicked_nth dt de : forall v d k x y, nth_error v k = Some x -> nth_error d k = Some y ->
  nth_error (kicked dt de v d) k = Some (x - de * y * dt).
Proof.
  induction v as [|a v IH]; intros [|b d] [|k] x y; cbn; try easy.
  - now intros [= ->] [= ->].
  - apply IH.
Qed.
Lemma kicked_length dt de v d : length d = length v -> length (kicked dt de v d) = length v.
Proof. intros H. unfold kicked. rewrite map_length, combine_length. lia. Qed.
Lemma qltb_true x y : qltb x y = true <-> x < y.
Proof. unfold qltb. destruct (Qlt_le_dec x y); split; try easy. intros H. lra. Qed.
Lemma qltb_false x y : qltb x y = false <-> y <= x.
Proof. unfold qltb. destruct (Qlt_le_dec x y); split; try easy. intros H. lra. Qed.

Lemma reversal dt de : forall v d, length d = length v ->
  existsb (fun p => qltb (fst p * snd p) 0) (combine (kicked dt de v d) v) = false <->
  (forall k x y, nth_error v k = Some x -> nth_error d k = Some y -> 0 <= (x - de * y * dt) * x).
Proof.
  induction v as [|a v IH]; intros [|b d] Hl; cbn in Hl; try lia.
  - cbn. split; [|easy]. intros _ [|k] x y; easy.
  - injection Hl as Hl. cbn [kicked combine map existsb fst snd].
    fold (kicked dt de v d). rewrite Bool.orb_false_iff, (IH d Hl), qltb_false.
    split.
    + intros [H1 H2] [|k] x y; cbn; [now intros [= <-] [= <-]|apply H2].
    + intros H. split; [now apply (H O)|]. intros k x y. now apply (H (S k)).
Qed.

Lemma rescale_accept dt e nacr si sf v a b : nth_error e si = Some a -> nth_error e sf = Some b ->
  length (nacr si sf) = length v ->
  (forall k x y, nth_error v k = Some x -> nth_error (nacr si sf) k = Some y -> 0 <= (x - (a - b) * y * dt) * x) ->
  velocity_rescaling dt e nacr si sf v = Ok (sf, kicked dt (a - b) v (nacr si sf), 1%nat).
Proof.
  intros H1 H2 H3 H4. unfold velocity_rescaling.
  rewrite (index_some _ _ _ H1), (index_some _ _ _ H2). cbn [rbind].
  rewrite H3, Nat.eqb_refl. cbv zeta.
  apply (reversal dt (a - b) v _ H3) in H4. now rewrite H4.
Qed.
Lemma rescale_frustrated dt e nacr si sf v a b k x y : nth_error e si = Some a -> nth_error e sf = Some b ->
  length (nacr si sf) = length v ->
  nth_error v k = Some x -> nth_error (nacr si sf) k = Some y -> (x - (a - b) * y * dt) * x < 0 ->
  velocity_rescaling dt e nacr si sf v = Ok (si, v, 2%nat).
Proof.
  intros H1 H2 H3 H4 H5 H6. unfold velocity_rescaling.
  rewrite (index_some _ _ _ H1), (index_some _ _ _ H2). cbn [rbind].
  rewrite H3, Nat.eqb_refl. cbv zeta.
  destruct (existsb _ _) eqn:E; [easy|]. exfalso.
  rewrite reversal in E by easy. specialize (E k x y H4 H5). lra.
Qed.
Lemma rescale_spec dt e nacr si sf v a b : nth_error e si = Some a -> nth_error e sf = Some b ->
  length (nacr si sf) = length v ->
  let ok := forall k x y, nth_error v k = Some x -> nth_error (nacr si sf) k = Some y ->
              0 <= (x - (a - b) * y * dt) * x in
  (ok /\ exists w, velocity_rescaling dt e nacr si sf v = Ok (sf, w, 1%nat) /\ length w = length v /\
     forall k x y, nth_error v k = Some x -> nth_error (nacr si sf) k = Some y ->
       nth_error w k = Some (x - (a - b) * y * dt))
  \/ (~ ok /\ velocity_rescaling dt e nacr si sf v = Ok (si, v, 2%nat)).
Proof.
  intros H1 H2 H3 ok.
  destruct (existsb (fun p => qltb (fst p * snd p) 0) (combine (kicked dt (a - b) v (nacr si sf)) v)) eqn:E.
  - right. split.
    + intros H. apply (reversal dt (a - b) v _ H3) in H. congruence.
    + unfold velocity_rescaling. rewrite (index_some _ _ _ H1), (index_some _ _ _ H2). cbn [rbind].
      rewrite H3, Nat.eqb_refl. cbv zeta. now rewrite E.
  - left. pose proof (proj1 (reversal dt (a - b) v _ H3) E) as E'. split; [exact E'|].
    exists (kicked dt (a - b) v (nacr si sf)). split; [now apply rescale_accept|].
    split; [now apply kicked_length|]. intros k x y. apply kicked_nth.
Qed.

Lemma kicked_zero dt de : de == 0 -> forall v d, length d = length v -> same_vec (kicked dt de v d) v.
Proof.
  intros H. induction v as [|a v IH]; intros [|b d] Hl; cbn in Hl; try lia; [constructor|].
  constructor; [cbn [fst snd]; rewrite H; ring|]. apply IH. lia.
Qed.
Lemma rescale_degenerate dt e nacr si sf v a b : nth_error e si = Some a -> nth_error e sf = Some b ->
  a == b -> length (nacr si sf) = length v ->
  exists w, velocity_rescaling dt e nacr si sf v = Ok (sf, w, 1%nat) /\ same_vec w v.
Proof.
  intros H1 H2 H3 H4. exists (kicked dt (a - b) v (nacr si sf)). split.
  - apply rescale_accept; try easy. intros k x y _ _. rewrite H3.
    setoid_replace ((x - (b - b) * y * dt) * x) with (x * x) by ring. nra.
  - apply kicked_zero; [rewrite H3; ring|easy].
Qed.

Lemma uphill m dt a b v y : 0 < m -> 0 < dt -> a < b -> 0 < v -> 0 < y ->
  exists w, velocity_rescaling dt [a; b] (fun _ _ => [y]) 0 1 [v] = Ok (1%nat, [w], 1%nat) /\
    a + kinetic [m] [v] < b + kinetic [m] [w].
Proof.
  intros Hm Hdt Hab Hv Hy. exists (v - (a - b) * y * dt). 
  assert (P : 0 < (b - a) * y * dt).
  { apply Qmult_lt_0_compat; [apply Qmult_lt_0_compat|]; lra. }
  assert (W : v < v - (a - b) * y * dt) by lra.
  split.
  - pose proof (rescale_accept dt [a; b] (fun _ _ => [y]) 0 1 [v] a b eq_refl eq_refl eq_refl) as H.
    cbn [kicked combine map fst snd] in H. apply H.
    intros [|[|k]] x z; cbn; try easy. intros [= <-] [= <-]. nra.
  - unfold kinetic; cbn [combine map qsum fst snd].
    set (w := v - (a - b) * y * dt) in *.
    assert (v * v < w * w) by nra.
    assert (m * (v * v) < m * (w * w)) by (apply Qmult_lt_l; easy). lra.
Qed.
Lemma energy_refuted : exists m dt e nacr si sf v w a b, 0 < m /\ 0 < dt /\
  nth_error e si = Some a /\ nth_error e sf = Some b /\ a < b /\
  velocity_rescaling dt e nacr si sf [v] = Ok (sf, [w], 1%nat) /\
  kinetic [m] [v] < b - a /\ a + kinetic [m] [v] < b + kinetic [m] [w].
Proof.
  exists 1, 1, [0; 1], (fun _ _ => [1]), 0%nat, 1%nat, 1, (1 - (0 - 1) * 1 * 1), 0, 1.
  vm_compute. repeat split; congruence.
Qed.

(** hop up and back again *)
Lemma back dt a b v y : 0 < v -> 0 <= (a - b) * y * dt -> 2 * ((a - b) * y * dt) <= v ->
  let nacr := fun i j : nat => if Nat.ltb i j then [y] else [- y] in
  exists w w', velocity_rescaling dt [a; b] nacr 0 1 [v] = Ok (1%nat, [w], 1%nat) /\
    velocity_rescaling dt [a; b] nacr 1 0 [w] = Ok (0%nat, [w'], 1%nat) /\
    w' == v - 2 * ((a - b) * y * dt).
Proof.
  intros Hv H0 H1 nacr. set (q := (a - b) * y * dt) in *.
  set (w := v - q). set (w' := w - (b - a) * (- y) * dt).
  assert (E : (b - a) * (- y) * dt == q) by (unfold q; ring).
  exists w, w'. repeat split.
  - pose proof (rescale_accept dt [a; b] nacr 0 1 [v] a b eq_refl eq_refl eq_refl) as H.
    cbn [nacr Nat.ltb Nat.leb kicked combine map fst snd] in H. apply H.
    intros [|[|k]] x z; cbn; try easy. intros [= <-] [= <-]. fold q. nra.
  - pose proof (rescale_accept dt [a; b] nacr 1 0 [w] b a eq_refl eq_refl eq_refl) as H.
    cbn [nacr Nat.ltb Nat.leb kicked combine map fst snd] in H. apply H.
    intros [|[|k]] x z; cbn; try easy. intros [= <-] [= <-]. rewrite E. unfold w. nra.
  - unfold w'. rewrite E. unfold w. ring.
Qed.

(** momentum *)
Lemma momentum_kick dt de : forall m v d mu, length d = length v -> length m = length v ->
  (forall x, In x m -> x == mu) ->
  momentum m (kicked dt de v d) == momentum m v - mu * (de * qsum d * dt).
Proof.
  induction m as [|a m IH]; intros [|x v] [|y d] mu H1 H2 H3; cbn in H1, H2; try lia.
  - unfold momentum; cbn. ring.
  - unfold momentum in *. cbn [kicked combine map qsum fst snd]. fold (kicked dt de v d).
    rewrite (IH v d mu) by (try lia; intros z Hz; apply H3; now right).
    rewrite (H3 a (or_introl eq_refl)). ring.
Qed.
Lemma momentum_partial dt e nacr si sf v a b m mu s w t : nth_error e si = Some a -> nth_error e sf = Some b ->
  length (nacr si sf) = length v -> length m = length v -> (forall x, In x m -> x == mu) ->
  qsum (nacr si sf) == 0 ->
  velocity_rescaling dt e nacr si sf v = Ok (s, w, t) -> momentum m w == momentum m v.
Proof.
  intros H1 H2 H3 H4 H5 H6 H. unfold velocity_rescaling in H.
  rewrite (index_some _ _ _ H1), (index_some _ _ _ H2) in H. cbn [rbind] in H.
  rewrite H3, Nat.eqb_refl in H. cbv zeta in H.
  destruct (existsb _ _); injection H as <- <- <-; [reflexivity|].
  rewrite (momentum_kick dt (a - b) m v (nacr si sf) mu) by easy. rewrite H6. ring.
Qed.
Lemma momentum_refuted : exists m dt e nacr si sf v w,
  (forall x, In x m -> 0 < x) /\ qsum (nacr si sf) == 0 /\
  velocity_rescaling dt e nacr si sf v = Ok (sf, w, 1%nat) /\ ~ momentum m w == momentum m v.
Proof.
  exists [1; 16], 1, [0; 1], (fun _ _ => [1; -(1)]), 0%nat, 1%nat, [1; 2],
    [1 - (0 - 1) * 1 * 1; 2 - (0 - 1) * (-(1)) * 1].
  split; [intros x [<-|[<-|[]]]; reflexivity|].
  split; [reflexivity|]. split; [reflexivity|]. vm_compute. discriminate.
Qed.

(** ** check_hops *)
Lemma rescale_state dt e nacr si sf v s w t :
  velocity_rescaling dt e nacr si sf v = Ok (s, w, t) -> s = si \/ s = sf.
Proof.
  unfold velocity_rescaling. destruct (index e si); cbn [rbind]; [|easy].
  destruct (index e sf); cbn [rbind]; [|easy].
  destruct (Nat.eqb _ _); [|easy]. cbv zeta.
  destruct (existsb _ _); intros [= <- _ _]; auto.
Qed.
Lemma loop_state dt e nacr possible idx : forall js s v s' v',
  hop_loop dt e nacr possible idx js (s, v) = Ok (s', v') ->
  s' = s \/ exists k, In k js /\ nth_error possible k = Some true /\ nth_error idx k = Some s'.
Proof.
  induction js as [|j js IH]; cbn [hop_loop]; intros s v s' v' H; [injection H; auto|].
  destruct (index possible j) as [b|] eqn:E1; cbn [rbind] in H; [|easy].
  apply index_inv in E1. destruct b.
  - destruct (index idx j) as [f|] eqn:E2; cbn [rbind] in H; [|easy]. apply index_inv in E2.
    destruct (velocity_rescaling _ _ _ _ _ _) as [[[s1 v1] t]|] eqn:E3; cbn [rbind fst] in H; [|easy].
    apply rescale_state in E3. cbn [fst] in E3. apply IH in H.
    destruct H as [->|(k & H1 & H2 & H3)]; [|right; exists k; cbn; auto].
    destruct E3 as [->| ->]; [now left|]. right. exists j. cbn. auto.
  - apply IH in H. destruct H as [->|(k & H1 & H2 & H3)]; [now left|]. right. exists k. cbn. auto.
Qed.

Lemma possible_nth argsort p u k b : nth_error (possible_hops argsort p u) k = Some b ->
  exists i x, nth_error (argsort p) k = Some i /\ nth_error u k = Some x /\ b = qltb x (nth i p 0).
Proof.
  unfold possible_hops. revert k u. generalize (argsort p) as l.
  induction l as [|i l IH]; intros [|k] [|x u]; cbn; try easy.
  - intros [= <-]. eauto.
  - apply IH.
Qed.
Lemma possible_length argsort p u : length (argsort p) = length u ->
  length (possible_hops argsort p u) = length u.
Proof. intros H. unfold possible_hops. rewrite map_length, combine_length. lia. Qed.
Lemma sorts_length argsort p : sorts argsort p -> length (argsort p) = length p.
Proof. intros [H _]. apply Permutation_length in H. now rewrite seq_length in H. Qed.

Lemma hop_target dt n argsort e nacr p u s v s' v' : sorts argsort p ->
  (forall x, In x u -> 0 <= x) ->
  check_hops1 dt n argsort e nacr p u (s, v) = Ok (s', v') ->
  s' = s \/ (s' < length p)%nat /\ 0 < nth s' p 0 /\ (exists x, In x u /\ x < nth s' p 0).
Proof.
  intros Hs Hu H. apply loop_state in H. destruct H as [->|(k & _ & H1 & H2)]; [now left|].
  right. apply possible_nth in H1. destruct H1 as (i & x & H3 & H4 & H5).
  assert (i = s') by congruence. subst i. symmetry in H5. apply qltb_true in H5.
  apply nth_error_In in H4. split; [|split].
  - destruct Hs as [Hs _]. apply nth_error_In in H3. apply (Permutation_in _ Hs), in_seq in H3. lia.
  - specialize (Hu x H4). lra.
  - eauto.
Qed.

Lemma loop_none dt e nacr possible idx : forall js sv, (forall j, In j js -> nth_error possible j = Some false) ->
  hop_loop dt e nacr possible idx js sv = Ok sv.
Proof.
  induction js as [|j js IH]; intros sv H; [reflexivity|]. cbn [hop_loop].
  rewrite (index_some _ _ _ (H j (or_introl eq_refl))). cbn [rbind]. apply IH. intros k Hk. apply H. now right.
Qed.
Lemma hop_none dt n argsort e nacr p u s v : sorts argsort p -> length p = n -> length u = n ->
  (forall k i x, nth_error (argsort p) k = Some i -> nth_error u k = Some x -> nth i p 0 <= x) ->
  check_hops1 dt n argsort e nacr p u (s, v) = Ok (s, v).
Proof.
  intros Hs Hp Hu H. apply loop_none. intros j Hj. apply in_seq in Hj.
  assert (L : length (possible_hops argsort p u) = n).
  { rewrite possible_length; [easy|]. rewrite sorts_length; congruence. }
  destruct (nth_error (possible_hops argsort p u) j) as [b|] eqn:E; [|apply nth_error_None in E; lia].
  apply possible_nth in E as E'. destruct E' as (i & x & H1 & H2 & ->). f_equal.
  apply qltb_false. eauto.
Qed.

Lemma last_hop_skipn idx b : forall s, last_hop idx b s = last_hop (skipn 0 idx) (skipn 0 b) s.
Proof. reflexivity. Qed.
Lemma loop_last dt e nacr n m : (forall i j w, (i < n)%nat -> (j < n)%nat -> length w = m ->
    exists w', velocity_rescaling dt e nacr i j w = Ok (j, w', 1%nat) /\ length w' = m) ->
  forall possible idx, length possible = length idx -> (forall i, In i idx -> (i < n)%nat) ->
  forall len a s v, (a + len = length idx)%nat -> (s < n)%nat -> length v = m ->
  exists v', hop_loop dt e nacr possible idx (seq a len) (s, v) =
    Ok (last_hop (skipn a idx) (skipn a possible) s, v').
Proof.
  intros Hacc possible idx Hl Hi. induction len as [|len IH]; intros a s v Ha Hs Hv; cbn [seq hop_loop].
  - rewrite !skipn_all2 by lia. cbn. eauto.
  - destruct (index_ok possible a) as (b & E1 & E1'); [lia|].
    destruct (index_ok idx a) as (i & E2 & E2'); [lia|].
    assert (Si : forall A (l : list A) k x, nth_error l k = Some x -> skipn k l = x :: skipn (S k) l).
    { intros A. induction l as [|y l IHl]; intros [|k] x; cbn; try easy. now intros [= ->]. intros Hk. now apply IHl. }
    rewrite (Si _ _ _ _ E1'), (Si _ _ _ _ E2'). cbn [last_hop]. rewrite E1. cbn [rbind].
    destruct b.
    + rewrite E2. cbn [rbind fst snd].
      assert (Hin : (i < n)%nat) by (apply Hi; now apply nth_error_In in E2').
      destruct (Hacc s i v Hs Hin Hv) as (w' & -> & Hw). cbn [rbind fst].
      apply IH; lia || easy.
    + apply IH; lia || easy.
Qed.
Lemma hop_last dt n argsort e nacr p u s v : sorts argsort p -> length p = n -> length u = n -> (s < n)%nat ->
  (forall i j w, (i < n)%nat -> (j < n)%nat -> length w = length v ->
    exists w', velocity_rescaling dt e nacr i j w = Ok (j, w', 1%nat) /\ length w' = length v) ->
  exists v', check_hops1 dt n argsort e nacr p u (s, v) =
    Ok (last_hop (argsort p) (map (fun t => qltb (snd t) (nth (fst t) p 0)) (combine (argsort p) u)) s, v').
Proof.
  intros Hs Hp Hu Hsn Hacc.
  pose proof (sorts_length _ _ Hs) as Hl.
  destruct (loop_last dt e nacr n (length v) Hacc (possible_hops argsort p u) (argsort p)) with (len := n) (a := O) (s := s) (v := v)
    as [v' H]; try easy.
  - rewrite possible_length; congruence.
  - intros i Hi. destruct Hs as [Hs _]. apply (Permutation_in _ Hs), in_seq in Hi. lia.
  - cbn. congruence.
  - exists v'. exact H.
Qed.

(** distribution of the end state *)
Lemma qsum_app l1 l2 : qsum (l1 ++ l2) == qsum l1 + qsum l2.
Proof. induction l1; cbn; [ring|]. rewrite IHl1. ring. Qed.
Lemma prob_cons x p A : prob (x :: p) A ==
  x * prob p (fun b => A (true :: b)) + (1 - x) * prob p (fun b => A (false :: b)).
Proof.
  unfold prob. cbn [length outcomes]. rewrite map_app, qsum_app, !map_map.
  apply Qplus_comp; apply qsum_lin; intros b; cbn [weight]; destruct (A _); ring.
Qed.
Lemma prob_true p : prob p (fun _ => true) == 1.
Proof. induction p; [reflexivity|]. rewrite prob_cons, IHp. ring. Qed.
Lemma prob_ext p A B : (forall b, length b = length p -> A b = B b) -> prob p A == prob p B.
Proof.
  revert A B. induction p as [|x p IH]; intros A B H.
  - unfold prob; cbn. rewrite (H []) by easy. reflexivity.
  - rewrite !prob_cons. rewrite (IH (fun b => A (true :: b)) (fun b => B (true :: b))) by (intros; apply H; cbn; lia).
    rewrite (IH (fun b => A (false :: b)) (fun b => B (false :: b))) by (intros; apply H; cbn; lia). reflexivity.
Qed.
Lemma last_hop_in : forall idx b s, last_hop idx b s = s \/ In (last_hop idx b s) idx.
Proof.
  induction idx as [|i idx IH]; intros [|y b] s; cbn; auto.
  destruct (IH b (if y then i else s)) as [->|H]; [|auto]. destruct y; auto.
Qed.
Lemma prob_false p A : (forall b, length b = length p -> A b = false) -> prob p A == 0.
Proof.
  intros H. rewrite (prob_ext p A (fun _ => false) H). clear H A.
  induction p; [reflexivity|]. rewrite prob_cons, IHp. ring.
Qed.
(** probability that the end state is s when s does not occur later *)
Lemma prob_stay : forall idx q s, length idx = length q -> ~ In s idx ->
  prob q (fun b => Nat.eqb (last_hop idx b s) s) == none_of q.
Proof.
  induction idx as [|i idx IH]; intros [|x q] s Hl Hn; cbn in Hl; try lia; [unfold prob; cbn; rewrite Nat.eqb_refl; reflexivity|].
  rewrite prob_cons. cbn [none_of last_hop].
  rewrite (prob_false q (fun b => Nat.eqb (last_hop idx b i) s)).
  - rewrite IH; [ring|lia|]. intros H. apply Hn. now right.
  - intros b _. apply Nat.eqb_neq. intros H. destruct (last_hop_in idx b i) as [E|E].
    + apply Hn. left. congruence.
    + apply Hn. right. congruence.
Qed.
Lemma prob_hop : forall idx q s k j, length idx = length q -> NoDup idx -> nth_error idx k = Some j -> j <> s ->
  prob q (fun b => Nat.eqb (last_hop idx b s) j) == nth k q 0 * none_of (skipn (S k) q).
Proof.
  induction idx as [|i idx IH]; intros [|x q] s [|k] j Hl Hd Hk Hj; cbn in Hl; try lia; try easy.
  - cbn in Hk. injection Hk as ->. inversion Hd as [|? ? Hn Hd']; subst.
    rewrite prob_cons. cbn [last_hop nth skipn].
    rewrite prob_stay by (try lia; easy).
    rewrite (prob_false q (fun b => Nat.eqb (last_hop idx b s) j)); [ring|].
    intros b _. apply Nat.eqb_neq. intros H. destruct (last_hop_in idx b s) as [E|E]; congruence.
  - cbn in Hk. inversion Hd as [|? ? Hn Hd']; subst. rewrite prob_cons. cbn [last_hop].
    assert (j <> i) by (intros ->; apply Hn; now apply nth_error_In in Hk).
    rewrite (IH q i k j), (IH q s k j) by (try lia; easy). cbn [nth skipn]. ring.
Qed.
(** probability to stay when the current state is among the events with
    probability zero *)
Lemma prob_stay0 : forall idx q s k, length idx = length q -> NoDup idx -> nth_error idx k = Some s ->
  nth k q 0 == 0 -> prob q (fun b => Nat.eqb (last_hop idx b s) s) == none_of q.
Proof.
  induction idx as [|i idx IH]; intros [|x q] s [|k] Hl Hd Hk Hq; cbn in Hl; try lia; try easy.
  - cbn in Hk, Hq. injection Hk as ->. inversion Hd as [|? ? Hn Hd']; subst.
    rewrite prob_cons. cbn [last_hop none_of]. rewrite prob_stay by (try lia; easy). rewrite Hq. ring.
  - cbn in Hk, Hq. inversion Hd as [|? ? Hn Hd']; subst. rewrite prob_cons. cbn [last_hop none_of].
    assert (s <> i) by (intros ->; apply Hn; now apply nth_error_In in Hk).
    rewrite (IH q s k) by (try lia; easy). rewrite (prob_hop idx q i k s) by (try lia; easy). rewrite Hq. ring.
Qed.
Lemma hop_prob_refuted : exists idx q s k j, length idx = length q /\ NoDup idx /\ nth_error idx k = Some j /\ j <> s /\
  qsum q == 1 /\ StronglySorted Qle q /\
  ~ prob q (fun b => Nat.eqb (last_hop idx b s) j) == nth k q 0 /\
  ~ prob q (fun b => Nat.eqb (last_hop idx b s) s) == 1 - qsum q.
Proof.
  exists [0; 1; 2]%nat, [0; 1 # 2; 1 # 2], 0%nat, 1%nat, 1%nat.
  split; [reflexivity|]. split; [repeat constructor; cbn; intuition lia|].
  split; [reflexivity|]. split; [lia|]. split; [reflexivity|].
  split; [repeat constructor; cbn; vm_compute; congruence|].
  split; vm_compute; discriminate.
Qed.

Definition id3 (p : list Q) : list nat := seq 0 (length p).
Lemma double_refuted : exists dt argsort e nacr p u s v s' w, sorts argsort p /\ nth s p 0 == 0 /\ qsum p <= 1 /\
  (forall x, In x u -> 0 <= x < 1) /\
  check_hops1 dt 3 argsort e nacr p u (s, v) = Ok (s', w) /\ s' <> s /\
  forall x t, velocity_rescaling dt e nacr s s' v = Ok (s', x, t) -> ~ same_vec w x.
Proof.
  exists 1, id3, [0; 1; 2], (fun i j => match i, j with 1%nat, 2%nat => [3] | _, _ => [1] end),
   [0; 1 # 2; 1 # 2], [0; 0; 0], 0%nat, [10], 2%nat,
   [10 - (0 - 1) * 1 * 1 - (1 - 2) * 3 * 1].
  split; [split; [apply Permutation_refl|]|].
  { cbn. repeat constructor; cbn; vm_compute; congruence. }
  split; [reflexivity|]. split; [vm_compute; congruence|].
  split; [intros x [<-|[<-|[<-|[]]]]; split; vm_compute; congruence|].
  split; [reflexivity|]. split; [lia|]. intros x t H. vm_compute in H. injection H as <- <-.
  intros C. inversion C; subst. revert H2. vm_compute. discriminate.
Qed.

(** each molecule on its own *)
Lemma rmapM_nth {A B} (f : A -> res B) : forall l ys, rmapM f l = Ok ys ->
  length ys = length l /\ forall i x, nth_error l i = Some x -> exists y, nth_error ys i = Some y /\ f x = Ok y.
Proof.
  induction l as [|a l IH]; cbn [rmapM]; intros ys H.
  - injection H as <-. split; [easy|]. intros [|i] x; easy.
  - destruct (f a) as [y|] eqn:E; cbn [rbind] in H; [|easy].
    destruct (rmapM f l) as [zs|] eqn:E2; cbn [rbind] in H; [|easy]. injection H as <-.
    destruct (IH zs eq_refl) as [H1 H2]. split; [cbn; lia|].
    intros [|i] x; cbn; [intros [= <-]; eauto|apply H2].
Qed.

(** ** decoherence *)
Lemma decoherence n s : (s < n)%nat ->
  exists c, instantaneous_decoherence n (Z.of_nat s) = Ok c /\ length c = n /\
    (forall j, (j < n)%nat -> nth_error c j = Some (if Nat.eqb j s then 1 else 0)) /\
    qsum (map (fun x => x * x) c) == 1.
Proof.
  intros H. unfold instantaneous_decoherence, axis.
  replace ((0 <=? Z.of_nat s) && (Z.of_nat s <? Z.of_nat n))%Z%bool with true by (symmetry; lia).
  cbn [rbind]. rewrite Nat2Z.id. exists (upd (repeat 0 n) s 1). split; [easy|].
  revert s H. induction n as [|n IH]; intros s H; [lia|]. destruct s as [|s]; cbn [repeat upd].
  - split; [cbn; now rewrite repeat_length|]. split.
    + intros [|j] Hj; [reflexivity|]. cbn. apply nth_error_repeat. lia.
    + cbn. assert (E : qsum (map (fun x => x * x) (repeat 0 n)) == 0).
      { clear. induction n; cbn; [reflexivity|]. rewrite IHn. ring. }
      rewrite E. ring.
  - destruct (IH s) as (H1 & H2 & H3); [lia|]. split; [cbn; lia|]. split.
    + intros [|j] Hj; [reflexivity|]. cbn. apply H2. lia.
    + cbn. rewrite H3. ring.
Qed.
Lemma decoherence_err n s : (Z.of_nat n <= s \/ s < - Z.of_nat n)%Z ->
  instantaneous_decoherence n s = Err IndexError.
Proof.
  intros H. unfold instantaneous_decoherence, axis.
  replace ((0 <=? s) && (s <? Z.of_nat n))%Z%bool with false by (symmetry; lia).
  replace ((s <? 0) && (0 <=? Z.of_nat n + s))%Z%bool with false by (symmetry; lia). reflexivity.
Qed.
