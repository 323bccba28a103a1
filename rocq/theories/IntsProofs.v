(** Proofs about integral input and bookkeeping. *)
From Coq Require Import String Sorted Permutation.
From Verif Require Import Base BaseProofs IntsModel IntsSpec.
Open Scope nat_scope.

(** ** FCIDUMP *)
Lemma last_value_snoc f l x :
  last_value f (l ++ [x]) = if f x then Some (fv x) else last_value f l.
Proof.
  unfold last_value. rewrite filter_app, rev_app_distr. cbn. destruct (f x); reflexivity.
Qed.
Lemma axis_ok norb p : 1 <= p <= norb -> axis norb p = Ok (p - 1).
Proof.
  intros H. unfold axis. destruct (Nat.ltb_spec norb p); [lia|].
  destruct (Nat.eqb_spec p 0); [lia|reflexivity].
Qed.
Lemma upd4_images e p q r s v a b c d :
  upd4 (upd4 (upd4 (upd4 e p q r s v) q p r s v) p q s r v) q p s r v a b c d
  = if same_pair p q a b && same_pair r s c d then v else e a b c d.
Proof.
  unfold upd4, same_pair.
  rewrite (Nat.eqb_sym a p), (Nat.eqb_sym a q), (Nat.eqb_sym b p), (Nat.eqb_sym b q),
    (Nat.eqb_sym c r), (Nat.eqb_sym c s), (Nat.eqb_sym d r), (Nat.eqb_sym d s).
  destruct (p =? a), (q =? b), (p =? b), (q =? a), (r =? c), (s =? d), (r =? d), (s =? c); reflexivity.
Qed.
Lemma upd2_images h p q v a b :
  upd2 (upd2 h p q v) q p v a b = if same_pair p q a b then v else h a b.
Proof.
  unfold upd2, same_pair.
  rewrite (Nat.eqb_sym a p), (Nat.eqb_sym a q), (Nat.eqb_sym b p), (Nat.eqb_sym b q).
  destruct (p =? a), (q =? b), (p =? b), (q =? a); reflexivity.
Qed.
Definition fdone (st : fstate) (pre : list fci) : Prop :=
  (forall p q r s, f_e st p q r s = or_zero (last_value (gives_eri p q r s) pre)) /\
  (forall p q, f_h st p q = or_zero (last_value (gives_h1e p q) pre)) /\
  f_nuc st = last_value gives_nuc pre.
Lemma same_pair_S p q a b : 1 <= p -> 1 <= q -> same_pair p q (S a) (S b) = same_pair (p - 1) (q - 1) a b.
Proof.
  intros P Q. unfold same_pair. destruct p; [lia|]. destruct q; [lia|].
  cbn [Nat.eqb]. rewrite !Nat.sub_succ, !Nat.sub_0_r. reflexivity.
Qed.
Lemma read_line_ok norb st pre x : fdone st pre -> well_indexed norb x ->
  exists st', read_line norb st x = Ok st' /\ fdone st' (pre ++ [x]).
Proof.
  intros (E & H & N) (W1 & W2). unfold read_line.
  destruct (Nat.eqb_spec (fr x) 0) as [R|R]; cbn [negb].
  - destruct (Nat.eqb_spec (fp x) 0) as [P|P]; cbn [negb].
    + eexists; split; [reflexivity|]. split; [|split]; cbn [f_e f_h f_nuc]; intros;
        rewrite last_value_snoc; unfold gives_eri, gives_h1e, gives_nuc;
        rewrite ?R, ?P; cbn [Nat.eqb negb andb]; first [apply E | apply H | exact N | reflexivity | idtac].
    + destruct (W2 R P) as (A & B). rewrite !axis_ok by lia. cbn [rbind].
      eexists; split; [reflexivity|]. split; [|split]; cbn [f_e f_h f_nuc]; intros;
        rewrite last_value_snoc; unfold gives_eri, gives_h1e, gives_nuc; rewrite ?R; cbn [Nat.eqb negb andb]; first [apply E | apply H | exact N | reflexivity | idtac].
      * destruct (Nat.eqb_spec (fp x) 0); [lia|]. cbn [negb andb].
        rewrite upd2_images, same_pair_S by lia. destruct (same_pair _ _ _ _); [reflexivity|apply H].
      * destruct (Nat.eqb_spec (fp x) 0); [lia|]. exact N.
  - destruct (W1 R) as (A & B & C & D). rewrite !axis_ok by lia. cbn [rbind].
    assert (R' : (fr x =? 0) = false) by (apply Nat.eqb_neq; lia).
    eexists; split; [reflexivity|]. split; [|split]; cbn [f_e f_h f_nuc]; intros;
      rewrite last_value_snoc; unfold gives_eri, gives_h1e, gives_nuc; rewrite R'; cbn [negb andb]; first [apply E | apply H | exact N | idtac].
    rewrite upd4_images, !same_pair_S by lia. destruct (_ && _); [reflexivity|apply E].
Qed.
Lemma read_lines_ok norb : forall l st pre, fdone st pre -> (forall x, In x l -> well_indexed norb x) ->
  exists st', read_lines norb st l = Ok st' /\ fdone st' (pre ++ l).
Proof.
  induction l as [|x l IH]; intros st pre D W.
  - exists st. rewrite app_nil_r. auto.
  - destruct (read_line_ok norb st pre x D) as (st1 & E1 & D1); [apply W; left; reflexivity|].
    destruct (IH st1 (pre ++ [x]) D1) as (st2 & E2 & D2); [intros; apply W; right; assumption|].
    exists st2. cbn [read_lines]. rewrite E1. cbn [rbind]. rewrite E2. rewrite <- app_assoc in D2. auto.
Qed.
Lemma fdone_start : fdone fstart [].
Proof. repeat split. Qed.
Lemma fcidump_values norb l : (forall x, In x l -> well_indexed norb x) ->
  match last_value gives_nuc l with
  | None => read_fcidump norb l = Err UnboundLocalError
  | Some n => exists h e, read_fcidump norb l = Ok (h, e, n) /\
      (forall p q, h p q = or_zero (last_value (gives_h1e p q) l)) /\
      (forall p q r s, e p q r s = or_zero (last_value (gives_eri p q r s) l))
  end.
Proof.
  intros W. destruct (read_lines_ok norb l fstart [] fdone_start W) as (st & E & D1 & D2 & D3).
  cbn [app] in *. unfold read_fcidump. rewrite E. cbn [rbind]. rewrite D3.
  destruct (last_value gives_nuc l); [|reflexivity].
  exists (f_h st), (f_e st). auto.
Qed.

(** symmetry, for any records *)
Definition fsym (st : fstate) : Prop :=
  (forall p q, f_h st p q = f_h st q p) /\
  (forall p q r s, f_e st p q r s = f_e st q p r s) /\
  (forall p q r s, f_e st p q r s = f_e st p q s r).
Lemma same_pair_swap p q a b : same_pair p q a b = same_pair p q b a.
Proof. unfold same_pair. apply Bool.orb_comm. Qed.
Lemma read_line_sym norb st x st' : fsym st -> read_line norb st x = Ok st' -> fsym st'.
Proof.
  intros (S1 & S2 & S3). unfold read_line.
  destruct (negb (fr x =? 0)).
  - destruct (axis norb (fp x)) as [p|]; [|discriminate]; cbn [rbind].
    destruct (axis norb (fq x)) as [q|]; [|discriminate]; cbn [rbind].
    destruct (axis norb (fr x)) as [r|]; [|discriminate]; cbn [rbind].
    destruct (axis norb (fs x)) as [s|]; [|discriminate]; cbn [rbind].
    intros E; inversion E; subst; clear E. split; [|split]; cbn [f_h f_e]; auto; intros a b c d; rewrite !upd4_images.
    + rewrite (same_pair_swap p q a b), (S2 a b c d). reflexivity.
    + rewrite (same_pair_swap r s c d), (S3 a b c d). reflexivity.
  - destruct (negb (fp x =? 0)).
    + destruct (axis norb (fp x)) as [p|]; [|discriminate]; cbn [rbind].
      destruct (axis norb (fq x)) as [q|]; [|discriminate]; cbn [rbind].
      intros E; inversion E; subst; clear E. split; [|split]; cbn [f_h f_e]; auto.
      intros a b. rewrite !upd2_images, (same_pair_swap p q a b), (S1 a b). reflexivity.
    + intros E; inversion E; subst; clear E. split; [|split]; auto.
Qed.
Lemma read_lines_sym norb : forall l st st', fsym st -> read_lines norb st l = Ok st' -> fsym st'.
Proof.
  induction l as [|x l IH]; intros st st' S E; cbn [read_lines] in E.
  - inversion E; subst; auto.
  - destruct (read_line norb st x) as [s1|] eqn:E1; [|discriminate]. cbn [rbind] in E.
    exact (IH _ _ (read_line_sym _ _ _ _ S E1) E).
Qed.
Lemma fcidump_fourfold norb l h e n : read_fcidump norb l = Ok (h, e, n) ->
  (forall p q, h p q = h q p) /\
  (forall p q r s, e p q r s = e q p r s /\ e p q r s = e p q s r /\ e p q r s = e q p s r).
Proof.
  unfold read_fcidump. destruct (read_lines norb fstart l) as [st|] eqn:E; [|discriminate].
  cbn [rbind]. destruct (f_nuc st); [|discriminate]. intros X; inversion X; subst; clear X.
  assert (S : fsym fstart) by (repeat split).
  destruct (read_lines_sym _ _ _ _ S E) as (S1 & S2 & S3).
  split; [exact S1|]. intros p q r s. split; [apply S2|]. split; [apply S3|]. rewrite S2. apply S3.
Qed.

Definition eight_file := [Fci 1 2 1 1 1; Fci 0 0 0 0 0].
Lemma eight_bad : exists norb l h e n, read_fcidump norb l = Ok (h, e, n) /\
  (forall x, In x l -> well_indexed norb x) /\
  exists p q r s, p < norb /\ q < norb /\ r < norb /\ s < norb /\ ~ (e p q r s == e r s p q)%Q.
Proof.
  exists 2, eight_file.
  destruct (read_fcidump 2 eight_file) as [[[h e] n]|] eqn:E; [|vm_compute in E; discriminate].
  exists h, e, n. split; [reflexivity|]. split.
  - intros x [<-|[<-|[]]]; split; cbn; intros; try lia.
  - exists 1, 0, 0, 0. repeat (split; [lia|]).
    pose proof (fcidump_values 2 eight_file) as V. 
    assert (W : forall x, In x eight_file -> well_indexed 2 x)
      by (intros x [<-|[<-|[]]]; split; cbn; intros; try lia).
    specialize (V W). change (last_value gives_nuc eight_file) with (Some 0%Q) in V. destruct V as (h' & e' & E' & _ & V). rewrite E in E'. inversion E'; subst.
    rewrite !V. vm_compute. discriminate.
Qed.

(** a file listing the exchanged record too gives the eightfold symmetry *)
Lemma last_value_in f l v : last_value f l = Some v -> exists x, In x l /\ f x = true /\ fv x = v.
Proof.
  unfold last_value. destruct (rev (filter f l)) as [|x r] eqn:E; [discriminate|].
  intros H; inversion H; subst. exists x.
  assert (I : In x (filter f l)) by (apply in_rev; rewrite E; left; reflexivity).
  apply filter_In in I. destruct I. auto.
Qed.
Lemma last_value_some f l x : In x l -> f x = true -> exists v, last_value f l = Some v.
Proof.
  intros I F. unfold last_value. destruct (rev (filter f l)) as [|y r] eqn:E; [|eauto].
  assert (J : In x (rev (filter f l))) by (apply -> in_rev; apply filter_In; auto).
  rewrite E in J. destruct J.
Qed.
Lemma fcidump_eightfold norb l h e n :
  (forall x, In x l -> well_indexed norb x) ->
  (forall x, In x l -> fr x <> 0 -> exists y, In y l /\ swapped x y) ->
  (forall p q r s x y, In x l -> In y l -> gives_eri p q r s x = true -> gives_eri p q r s y = true -> fv x = fv y) ->
  read_fcidump norb l = Ok (h, e, n) ->
  forall p q r s, e p q r s = e r s p q.
Proof.
  intros W SW CO E p q r s. pose proof (fcidump_values norb l W) as V.
  destruct (last_value gives_nuc l); [|rewrite V in E; discriminate].
  destruct V as (h' & e' & E' & _ & V). rewrite E in E'. inversion E'; subst. rewrite !V.
  assert (G : forall p q r s x, In x l -> gives_eri p q r s x = true ->
      exists y, In y l /\ gives_eri r s p q y = true /\ fv y = fv x).
  { intros a b c d x I F. unfold gives_eri in F. apply andb_prop in F. destruct F as [F F3].
    apply andb_prop in F. destruct F as [F1 F2]. apply Bool.negb_true_iff, Nat.eqb_neq in F1.
    destruct (SW x I F1) as (y & J & X1 & X2 & X3 & X4 & X5). exists y. split; [exact J|]. split; [|auto].
    unfold gives_eri. rewrite <- X2, <- X3, <- X4, <- X5, F2, F3.
    destruct (W x I) as (WW & _). specialize (WW F1).
    replace (fp x =? 0) with false by (symmetry; apply Nat.eqb_neq; lia). reflexivity. }
  destruct (last_value (gives_eri p q r s) l) as [v|] eqn:E1.
  - destruct (last_value_in _ _ _ E1) as (x & I & F & <-).
    destruct (G _ _ _ _ _ I F) as (y & J & F' & Y).
    destruct (last_value_some _ _ _ J F') as (v' & E2). rewrite E2.
    destruct (last_value_in _ _ _ E2) as (z & K & F'' & <-). cbn. rewrite <- Y. eapply CO; eauto.
  - destruct (last_value (gives_eri r s p q) l) as [v|] eqn:E2; [|reflexivity].
    destruct (last_value_in _ _ _ E2) as (x & I & F & <-).
    destruct (G _ _ _ _ _ I F) as (y & J & F' & Y).
    destruct (last_value_some _ _ _ J F') as (v' & E3). rewrite E3 in E1. discriminate.
Qed.

(** ** Shells *)
Lemma ss_spec a j : ascending a ->
  searchsorted_right a j <= List.length a /\
  (forall i, i < searchsorted_right a j -> nth i a 0 <= j) /\
  (forall i, searchsorted_right a j <= i < List.length a -> j < nth i a 0).
Proof.
  induction 1 as [|x r S IH F]; cbn [searchsorted_right List.length].
  - split; [lia|]. split; intros; lia.
  - destruct IH as (I1 & I2 & I3). destruct (Nat.leb_spec x j).
    + split; [lia|]. split.
      * intros [|i] H'; cbn; [lia|]. apply I2. lia.
      * intros [|i] H'; cbn; [lia|]. apply I3. lia.
    + split; [lia|]. split; [intros; lia|]. intros [|i] H'; cbn; [lia|].
      assert (x < nth i r 0); [|lia]. rewrite Forall_forall in F. apply F. apply nth_In. lia.
Qed.
Lemma ascending_nth a : ascending a -> forall i j, i < j < List.length a -> nth i a 0 < nth j a 0.
Proof.
  induction 1 as [|x r S IH F]; intros i j H; cbn [List.length] in H; [lia|].
  destruct j; [lia|]. destruct i; cbn.
  - rewrite Forall_forall in F. apply F, nth_In. lia.
  - apply IH. lia.
Qed.
Lemma shell_unique a j k k' : ascending a -> contains a k j -> contains a k' j -> k = k'.
Proof.
  intros A (L1 & L2) (L3 & L4). destruct (Nat.lt_trichotomy k k') as [H|[H|H]]; [|exact H|].
  - exfalso. destruct (Nat.eq_dec (S k) k') as [<-|N]; [lia|].
    assert (nth (S k) a 0 < nth k' a 0) by (apply ascending_nth; [exact A|lia]). lia.
  - exfalso. destruct (Nat.eq_dec (S k') k) as [<-|N]; [lia|].
    assert (nth (S k') a 0 < nth k a 0) by (apply ascending_nth; [exact A|lia]). lia.
Qed.
Lemma shell_one a j : ascending a -> nth 0 a 1 = 0 -> j < last a 0 ->
  exists k, (Z.of_nat (searchsorted_right a j) - 1 = Z.of_nat k)%Z /\ contains a k j.
Proof.
  intros A Z0 LA. destruct (ss_spec a j A) as (S1 & S2 & S3).
  assert (NE : a <> []) by (intros ->; cbn in *; lia).
  assert (LL : last a 0 = nth (List.length a - 1) a 0).
  { clear -NE. destruct (exists_last NE) as (l & x & ->). rewrite last_last, app_length. cbn [List.length].
    rewrite app_nth2 by lia. replace (List.length l + 1 - 1 - List.length l) with 0 by lia. reflexivity. }
  assert (1 <= searchsorted_right a j).
  { destruct a as [|x r]; [contradiction|]. cbn in Z0. subst x. cbn. lia. }
  assert (searchsorted_right a j < List.length a).
  { destruct (Nat.eq_dec (searchsorted_right a j) (List.length a)) as [E|]; [|lia]. exfalso.
    assert (nth (List.length a - 1) a 0 <= j) by (apply S2; lia). lia. }
  exists (searchsorted_right a j - 1). split; [lia|]. unfold contains. split; [lia|]. split.
  - apply S2. lia.
  - apply S3. lia.
Qed.
Lemma find_shell_ok a j l : ascending a -> nth 0 a 1 = 0 -> j < last a 0 -> l < last a 0 ->
  exists sj sl, find_shell a j l = (Z.of_nat sj, Z.of_nat sl) /\ contains a sj j /\ contains a sl l /\
    (forall k, contains a k j -> k = sj) /\ (forall k, contains a k l -> k = sl).
Proof.
  intros A Z0 J L. destruct (shell_one a j A Z0 J) as (k & E & C). destruct (shell_one a l A Z0 L) as (k' & E' & C').
  exists k, k'. unfold find_shell. rewrite E, E'. repeat split; try apply C; try apply C';
    intros; eapply shell_unique; eauto.
Qed.
Lemma offsets_len sh : forall s, List.length (offsets_from s sh) = S (List.length sh).
Proof. induction sh as [|[l nc] r IH]; intros s; cbn [offsets_from List.length]; [reflexivity|]. rewrite IH. reflexivity. Qed.
Lemma offsets_nth sh : forall s k, k <= List.length sh ->
  nth k (offsets_from s sh) 0 = s + total (map shell_size (firstn k sh)).
Proof.
  induction sh as [|[l nc] r IH]; intros s k H; cbn [List.length] in H.
  - replace k with 0 by lia. cbn. lia.
  - destruct k; [cbn; lia|]. cbn [offsets_from nth firstn map total]. rewrite IH by lia.
    unfold shell_size at 2. cbn [fst snd]. lia.
Qed.
Lemma offsets_ge sh : forall s x, In x (offsets_from s sh) -> s <= x.
Proof.
  induction sh as [|[l nc] r IH]; intros s x [<-|H]; try lia; cbn in H; try tauto.
  specialize (IH _ _ H). lia.
Qed.
Lemma offsets_ascending sh : (forall x, In x sh -> 0 < snd x) -> forall s, ascending (offsets_from s sh).
Proof.
  intros P. induction sh as [|[l nc] r IH]; intros s; cbn [offsets_from].
  - constructor; constructor.
  - constructor; [apply IH; intros; apply P; right; assumption|].
    apply Forall_forall. intros x H. apply offsets_ge in H.
    assert (0 < nc) by (apply (P (l, nc)); left; reflexivity). nia.
Qed.
Lemma indices4bas_ok sh : (forall x, In x sh -> 0 < snd x) ->
  ascending (indices4bas sh) /\ List.length (indices4bas sh) = S (List.length sh) /\
  forall k, k <= List.length sh -> nth k (indices4bas sh) 0 = total (map shell_size (firstn k sh)).
Proof.
  intros P. split; [apply offsets_ascending; exact P|]. split; [apply offsets_len|].
  intros k H. unfold indices4bas. rewrite offsets_nth by exact H. reflexivity.
Qed.

(** ** Reordering signs *)
Definition below (x : nat) (l : list nat) : nat := List.length (filter (fun y => y <? x) l).
Lemma below_none x r : (forall y, In y r -> x < y) -> below x r = 0.
Proof.
  unfold below. induction r as [|z r IH]; intros F; cbn [filter]; [reflexivity|].
  destruct (Nat.ltb_spec z x); [specialize (F z (or_introl eq_refl)); lia|].
  apply IH. intros; apply F; right; assumption.
Qed.
Lemma where_below d : ascending d -> forall x, In x d -> where_eq d x = Some (below x d).
Proof.
  induction 1 as [|y r S IH F]; intros x I; [destruct I|]; destruct I as [->|I]; cbn [where_eq].
  - rewrite Nat.eqb_refl. unfold below. cbn [filter]. rewrite Nat.ltb_irrefl.
    f_equal. symmetry. rewrite Forall_forall in F. apply below_none, F.
  - rewrite Forall_forall in F. specialize (F x I). destruct (Nat.eqb_spec y x); [lia|].
    rewrite (IH x I). unfold below. cbn [filter option_map]. destruct (Nat.ltb_spec y x); [reflexivity|lia].
Qed.
Definition rest (xs d : list nat) := filter (fun y => negb (existsb (Nat.eqb y) xs)) d.
Lemma existsb_In y xs : existsb (Nat.eqb y) xs = true <-> In y xs.
Proof. rewrite existsb_exists. split; [intros (x & I & E); apply Nat.eqb_eq in E; subst; exact I|]. intros I; exists y; split; [exact I|apply Nat.eqb_refl]. Qed.
Lemma inversions_asc l : ascending l -> inversions l = 0.
Proof.
  induction 1 as [|x r S IH F]; cbn [inversions]; [reflexivity|]. rewrite IH. rewrite Forall_forall in F.
  fold (below x r). rewrite (below_none x r F). reflexivity.
Qed.
Lemma below_app x a b : below x (a ++ b) = below x a + below x b.
Proof. unfold below. rewrite filter_app, app_length. reflexivity. Qed.
Lemma inversions_app a b : inversions (a ++ b) = inversions a + inversions b + total (map (fun x => below x b) a).
Proof.
  induction a as [|x a IH]; cbn [inversions app map total]; [lia|]. rewrite IH.
  fold (below x (a ++ b)) (below x a). rewrite below_app. lia.
Qed.
Lemma filter_asc f l : ascending l -> ascending (filter f l).
Proof.
  induction 1 as [|x r S IH F]; cbn; [constructor|]. destruct (f x); [|exact IH]. constructor; [exact IH|].
  rewrite Forall_forall in *. intros y I. apply filter_In in I. apply F, I.
Qed.
Lemma asc_NoDup l : ascending l -> NoDup l.
Proof.
  induction 1 as [|x r S IH F]; constructor; [|exact IH]. rewrite Forall_forall in F. intros I. specialize (F x I). lia.
Qed.
Lemma below_perm x a b : Permutation a b -> below x a = below x b.
Proof.
  intros P. unfold below. apply Permutation_length. induction P; cbn [filter].
  - constructor.
  - destruct (x0 <? x); [constructor|]; assumption.
  - destruct (y <? x), (x0 <? x); try constructor; reflexivity.
  - etransitivity; eassumption.
Qed.
Lemma NoDup_app {A} (a b : list A) : NoDup a -> NoDup b -> (forall x, In x a -> ~ In x b) -> NoDup (a ++ b).
Proof.
  induction 1 as [|x a N H IH]; cbn; intros B D; [exact B|]. constructor.
  - rewrite in_app_iff. intros [I|I]; [contradiction|]. apply (D x); [left; reflexivity|exact I].
  - apply IH; [exact B|]. intros y I. apply D. right. exact I.
Qed.
Lemma front_perm xs d : NoDup xs -> NoDup d -> incl xs d -> Permutation (xs ++ rest xs d) d.
Proof.
  intros N1 N2 I. apply NoDup_Permutation; [|exact N2|].
  - apply NoDup_app; [exact N1|apply NoDup_filter; exact N2|].
    intros x I1 I2. unfold rest in I2. apply filter_In in I2. destruct I2 as [_ I2].
    apply existsb_In in I1. rewrite I1 in I2. discriminate.
  - intros x. rewrite in_app_iff. unfold rest. rewrite filter_In. split.
    + intros [H|[H _]]; [apply I|]; exact H.
    + intros H. destruct (existsb (Nat.eqb x) xs) eqn:E.
      * left. apply existsb_In. exact E.
      * right. auto.
Qed.
Definition moves (d : list nat) : list nat -> nat -> Z := fix go xs k :=
  match xs with [] => 0%Z | x :: r => (Z.of_nat (below x d) - Z.of_nat k + go r (S k))%Z end.
Lemma perm_loop_ok d xs : ascending d -> incl xs d -> forall k acc,
  match acc with Empty => True
  | One v => perm_loop d xs k acc = Ok (One (v + moves d xs k)%Z)
  | Start => perm_loop d xs k acc = Ok (match xs with [] => Start | _ => One (moves d xs k) end)
  end.
Proof.
  intros A. induction xs as [|x r IH]; intros I k acc.
  - destruct acc; cbn; [reflexivity| |exact Logic.I]. rewrite Z.add_0_r. reflexivity.
  - assert (Ir : incl r d) by (intros y H; apply I; right; exact H).
    destruct acc as [|v|]; [| |exact Logic.I]; cbn [perm_loop];
      rewrite (where_below d A x) by (apply I; left; reflexivity); cbn [add_io rbind].
    + rewrite (IH Ir (S k) (One _)). cbn [moves]. reflexivity.
    + rewrite (IH Ir (S k) (One _)). cbn [moves]. do 2 f_equal. rewrite <- Z.add_assoc. reflexivity.
Qed.
Lemma below_asc_nth xs : ascending xs -> forall pre post x, xs = pre ++ x :: post -> below x xs = List.length pre.
Proof.
  intros A pre post x E. pose proof (asc_NoDup _ A).
  assert (Sx : where_eq xs x = Some (List.length pre)).
  { subst xs. clear A. induction pre as [|y pre IH]; cbn [where_eq app List.length].
    - rewrite Nat.eqb_refl. reflexivity.
    - inversion H; subst. destruct (Nat.eqb_spec y x) as [->|]; [exfalso; apply H2; apply in_or_app; right; left; reflexivity|].
      rewrite IH by assumption. reflexivity. }
  rewrite (where_below xs A) in Sx; [congruence|]. subst. apply in_or_app; right; left; reflexivity.
Qed.
Lemma moves_below d xs : ascending d -> ascending xs -> incl xs d ->
  moves d xs 0 = Z.of_nat (total (map (fun x => below x (rest xs d)) xs)).
Proof.
  intros A B I.
  assert (H : forall post pre, xs = pre ++ post ->
    moves d post (List.length pre) = Z.of_nat (total (map (fun x => below x (rest xs d)) post))).
  { induction post as [|x post IH]; intros pre E; cbn [moves map total]; [reflexivity|].
    specialize (IH (pre ++ [x])). rewrite app_length in IH. cbn [List.length] in IH.
    replace (S (List.length pre)) with (List.length pre + 1) by lia. rewrite IH by (rewrite <- app_assoc; exact E).
    rewrite Nat2Z.inj_add.
    assert (X : below x d = List.length pre + below x (rest xs d)).
    { rewrite <- (below_perm x _ _ (front_perm xs d (asc_NoDup _ B) (asc_NoDup _ A) I)), below_app.
      rewrite (below_asc_nth xs B pre post x E). reflexivity. }
    rewrite X. lia. }
  apply (H xs []). reflexivity.
Qed.
Lemma front_inversions xs d : ascending d -> ascending xs ->
  inversions (to_front xs d) = total (map (fun x => below x (rest xs d)) xs).
Proof.
  intros A B. unfold to_front. rewrite inversions_app. fold (rest xs d).
  rewrite (inversions_asc xs B), (inversions_asc (rest xs d) (filter_asc _ _ A)). reflexivity.
Qed.
Lemma sign_parity n : (if (Z.of_nat n mod 2 =? 1)%Z then (-1)%Z else 1%Z) = if Nat.even n then 1%Z else (-1)%Z.
Proof.
  change 2%Z with (Z.of_nat 2). rewrite <- Nat2Z.inj_mod, <- Nat.bit0_mod, Nat.bit0_odd, <- Nat.negb_even.
  destruct (Nat.even n); reflexivity.
Qed.
Lemma permutation_sign_ok anh cre ref target :
  ascending ref -> ascending target -> ascending anh -> ascending cre ->
  incl anh target -> incl cre ref ->
  permutation_sign anh cre ref target = Ok (sign_of (to_front anh target) * sign_of (to_front cre ref))%Z.
Proof.
  intros R T A C IA IC. unfold permutation_sign, sign_of.
  rewrite !front_inversions by assumption.
  pose proof (perm_loop_ok target anh T IA 0 Start) as P1. cbn beta iota in P1. rewrite P1. cbn [rbind].
  rewrite <- !sign_parity, <- !moves_below by assumption.
  assert (M : forall m n, (if ((m + n) mod 2 =? 1)%Z then -1 else 1)%Z
    = ((if (m mod 2 =? 1)%Z then -1 else 1) * (if (n mod 2 =? 1)%Z then -1 else 1))%Z).
  { intros m n. rewrite Z.add_mod by lia.
    pose proof (Z.mod_pos_bound m 2 eq_refl). pose proof (Z.mod_pos_bound n 2 eq_refl).
    assert (m mod 2 = 0 \/ m mod 2 = 1)%Z as [->| ->] by lia; assert (n mod 2 = 0 \/ n mod 2 = 1)%Z as [->| ->] by lia; reflexivity. }
  destruct anh as [|x anh].
  - pose proof (perm_loop_ok ref cre R IC 0 Start) as P2. cbn beta iota in P2. rewrite P2. cbn [rbind].
    destruct cre; cbn [moves]; [reflexivity|].
    change (0 mod 2 =? 1)%Z with false. cbv iota. rewrite Z.mul_1_l. reflexivity.
  - rewrite (perm_loop_ok ref cre R IC 0 (One _)). cbn [rbind]. rewrite M. reflexivity.
Qed.
Lemma permutation_sign_bad : exists anh cre ref target,
  ascending ref /\ ascending target /\ ascending anh /\ ascending cre /\
  (forall x, In x anh <-> In x ref /\ ~ In x target) /\ (forall x, In x cre <-> In x target /\ ~ In x ref) /\
  sign_of (to_front anh ref) = 1%Z /\ sign_of (to_front cre target) = (-1)%Z /\
  permutation_sign anh cre ref target = Ok 1%Z.
Proof.
  exists [0], [2], [0; 1], [1; 2].
  repeat match goal with |- _ /\ _ => split end; try (repeat constructor; fail);
  intros x; cbn; lia.
Qed.

(** ** Frozen core *)
Lemma extend_core_ok na nb occa occb oa ob :
  extend_core na nb occa occb = Ok (oa, ob) ->
  (forall o, In o occa -> List.length o = List.length (nth 0 occa [])) ->
  (forall o, In o occb -> List.length o = List.length (nth 0 occb [])) ->
  (forall o, In o occa \/ In o occb -> NoDup o) ->
  na - List.length (nth 0 occa []) = nb - List.length (nth 0 occb []) ->
  (forall o, In o oa -> List.length o = na /\ NoDup o) /\
  (forall o, In o ob -> List.length o = nb /\ NoDup o) /\
  List.length oa = List.length occa /\ List.length ob = List.length occb.
Proof.
  unfold extend_core, index. intros E LA LB ND FE.
  destruct occa as [|a0 ra]; [discriminate|]. destruct occb as [|b0 rb]; [discriminate|].
  cbn [nth_error rbind] in E. cbn [nth] in *.
  destruct (Nat.ltb_spec na (List.length a0)); [discriminate|].
  destruct (Nat.ltb_spec nb (List.length b0)); [discriminate|].
  assert (X : forall f o, NoDup o -> NoDup (seq 0 f ++ map (fun x => x + f) o)).
  { intros f o N. apply NoDup_app; [apply seq_NoDup| |].
    - apply FinFun.Injective_map_NoDup; [intros x y; lia|exact N].
    - intros x I1 I2. apply in_seq in I1. apply in_map_iff in I2. destruct I2 as (y & <- & _). lia. }
  destruct (Nat.ltb_spec 0 (na - List.length a0)); inversion E; subst; clear E.
  - rewrite <- FE. split; [|split; [|split; cbn [List.length]; rewrite map_length; reflexivity]].
    + intros o I. change (In o (map (fun o => seq 0 (na - List.length a0) ++ map (fun x => x + (na - List.length a0)) o) (a0 :: ra))) in I.
      apply in_map_iff in I. destruct I as (p & <- & I). split; [|apply X, ND; left; exact I].
      rewrite app_length, seq_length, map_length, (LA p I). lia.
    + intros o I. change (In o (map (fun o => seq 0 (na - List.length a0) ++ map (fun x => x + (na - List.length a0)) o) (b0 :: rb))) in I.
      apply in_map_iff in I. destruct I as (p & <- & I). split; [|apply X, ND; right; exact I].
      rewrite app_length, seq_length, map_length, (LB p I). lia.
  - split; [|split; [|split; reflexivity]]; intros o I.
    + split; [rewrite (LA o I); lia|apply ND; left; exact I].
    + split; [rewrite (LB o I); lia|apply ND; right; exact I].
Qed.
Lemma extend_core_bad : exists na nb occa occb oa ob,
  (forall o, In o occa -> List.length o <= na /\ NoDup o) /\ (forall o, In o occb -> List.length o <= nb /\ NoDup o) /\
  extend_core na nb occa occb = Ok (oa, ob) /\
  exists o, In o ob /\ List.length o <> nb /\ ~ NoDup o.
Proof.
  exists 2, 1, [[0]], [[0]], [[0; 1]], [[0; 0]].
  repeat match goal with |- _ /\ _ => split end; try reflexivity.
  - intros o [<-|[]]. split; [cbn; lia|]. repeat constructor; intros [].
  - intros o [<-|[]]. split; [cbn; lia|]. repeat constructor; intros [].
  - exists [0; 0]. split; [left; reflexivity|]. split; [cbn; lia|].
    intros N. inversion N; subst. apply H1. left; reflexivity.
Qed.

(** ** Blocks *)
Lemma blocks_ok {V} (t : tens V) n1o n1v n2o n2v n3o n3v n4o n4v bs :
  make_two_e_blocks_full t n1o n1v n2o n2v n3o n3v n4o n4v = Ok bs ->
  List.length bs = 16 /\
  forall a b c d, exists blk, In (name a b c d, blk) bs /\
    (forall blk', In (name a b c d, blk') bs -> blk' = blk) /\
    td blk = (half n1o n1v a, half n2o n2v b, half n3o n3v c, half n4o n4v d) /\
    forall i j k l, te blk i j k l = te t (start n1o a + i) (start n2o b + j) (start n3o c + k) (start n4o d + l).
Proof.
  unfold make_two_e_blocks_full. destruct t as [[[[n1 n2] n3] n4] e]. cbn [td].
  destruct (Nat.eqb_spec n1 (n1o + n1v)) as [->|]; [|discriminate].
  destruct (Nat.eqb_spec n2 (n2o + n2v)) as [->|]; [|discriminate].
  destruct (Nat.eqb_spec n3 (n3o + n3v)) as [->|]; [|discriminate].
  destruct (Nat.eqb_spec n4 (n4o + n4v)) as [->|]; [|discriminate].
  cbn [negb]. intros E; inversion E; subst; clear E. split; [reflexivity|].
  intros a b c d. destruct a, b, c, d;
  (eexists; split;
    [cbn; repeat (first [left; reflexivity | right])|]; split;
    [intros blk' I; cbn in I; repeat (destruct I as [I|I]; [first [discriminate I | inversion I; reflexivity]|]); destruct I|];
   cbn; split; [repeat (f_equal; try lia)|reflexivity]).
Qed.
Lemma axis_cover no nv i : i < no + nv -> exists! p, at_axis no nv i p.
Proof.
  intros H. unfold at_axis, half, start. destruct (Nat.ltb_spec i no) as [L|L].
  - exists (false, i). split; [cbn; lia|]. intros [[|] x]; cbn; intros [A B]; [lia|]. f_equal; lia.
  - exists (true, i - no). split; [cbn; lia|]. intros [[|] x]; cbn; intros [A B]; [f_equal; lia|lia].
Qed.
Lemma blocks_cover n1o n1v n2o n2v n3o n3v n4o n4v i j k l :
  i < n1o + n1v -> j < n2o + n2v -> k < n3o + n3v -> l < n4o + n4v ->
  exists! p : (bool * nat) * (bool * nat) * (bool * nat) * (bool * nat),
    let '(pi, pj, pk, pl) := p in
    at_axis n1o n1v i pi /\ at_axis n2o n2v j pj /\ at_axis n3o n3v k pk /\ at_axis n4o n4v l pl.
Proof.
  intros A B C D. destruct (axis_cover _ _ _ A) as (a & A1 & A2). destruct (axis_cover _ _ _ B) as (b & B1 & B2).
  destruct (axis_cover _ _ _ C) as (c & C1 & C2). destruct (axis_cover _ _ _ D) as (d & D1 & D2).
  exists (a, b, c, d). split; [auto|]. intros [[[a' b'] c'] d'] (X1 & X2 & X3 & X4).
  rewrite (A2 _ X1), (B2 _ X2), (C2 _ X3), (D2 _ X4). reflexivity.
Qed.
Lemma block_diag_ok {V} (z : V) A B : exists M, block_diag z A B = Ok M /\
  mr M = mr A + mr B /\ mc M = mc A + mc B /\
  (forall i j, i < mr A -> j < mc A -> me M i j = me A i j) /\
  (forall i j, i < mr B -> j < mc B -> me M (mr A + i) (mc A + j) = me B i j) /\
  (forall i j, i < mr A -> me M i (mc A + j) = z) /\
  (forall i j, j < mc A -> me M (mr A + i) j = z).
Proof.
  unfold block_diag, hstack, vstack. cbn [mr mc]. rewrite !Nat.eqb_refl. cbn [rbind mr mc]. rewrite Nat.eqb_refl.
  eexists; split; [reflexivity|]. cbn [mr mc me].
  repeat match goal with |- _ /\ _ => split end; auto; intros;
  repeat match goal with |- context [?a <? ?b] => destruct (Nat.ltb_spec a b); try lia end; auto.
  f_equal; lia.
Qed.
Lemma fcidump_values_some norb l : (forall x, In x l -> well_indexed norb x) ->
  forall c, last_value gives_nuc l = Some c ->
  exists h e, read_fcidump norb l = Ok (h, e, c) /\
    (forall p q, h p q = or_zero (last_value (gives_h1e p q) l)) /\
    (forall p q r s, e p q r s = or_zero (last_value (gives_eri p q r s) l)).
Proof. intros W c E. pose proof (fcidump_values norb l W) as V. rewrite E in V. exact V. Qed.
Lemma fcidump_values_none norb l : (forall x, In x l -> well_indexed norb x) ->
  last_value gives_nuc l = None -> read_fcidump norb l = Err UnboundLocalError.
Proof. intros W E. pose proof (fcidump_values norb l W) as V. rewrite E in V. exact V. Qed.
Lemma fcidump_no_constant : exists norb l, (forall x, In x l -> well_indexed norb x) /\
  read_fcidump norb l = Err UnboundLocalError.
Proof. exists 1, [Fci 3 1 1 0 0]. split; [|reflexivity]. intros x [<-|[]]. split; cbn; intros; lia. Qed.
