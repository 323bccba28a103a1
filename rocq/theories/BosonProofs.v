(** Proofs about the photon-mode routines. *)
From Coq Require Import Reals Lra.
From Verif Require Import Base BosonModel BosonSpec.
Open Scope R_scope.

(** ** Sums *)
Lemma lsum_app a b : lsum (a ++ b) = lsum a + lsum b.
Proof. unfold lsum. induction a; cbn [app fold_right]; [lra|]. rewrite IHa. lra. Qed.
Lemma sumn_S n f : sumn (S n) f = sumn n f + f n.
Proof. unfold sumn. rewrite seq_S, map_app, lsum_app. unfold lsum. cbn. lra. Qed.
Lemma sumn_below n f : sumn n f = sum_below n f.
Proof. induction n; [reflexivity|]. rewrite sumn_S, IHn. reflexivity. Qed.
Lemma sum_ext n f g : (forall i, (i < n)%nat -> f i = g i) -> sum_below n f = sum_below n g.
Proof. induction n; intros H; cbn [sum_below]; [reflexivity|]. rewrite IHn, H; [reflexivity|lia|]. intros. apply H. lia. Qed.
Lemma sum_add n f g : sum_below n (fun i => f i + g i) = sum_below n f + sum_below n g.
Proof. induction n; cbn [sum_below]; [lra|]. rewrite IHn. lra. Qed.
Lemma sum_mulr n c f : sum_below n (fun i => f i * c) = sum_below n f * c.
Proof. induction n; cbn [sum_below]; [lra|]. rewrite IHn. lra. Qed.
Lemma sum_mull n c f : sum_below n (fun i => c * f i) = c * sum_below n f.
Proof. induction n; cbn [sum_below]; [lra|]. rewrite IHn. lra. Qed.
Lemma sum_zero n f : (forall i, (i < n)%nat -> f i = 0) -> sum_below n f = 0.
Proof. induction n; intros H; cbn [sum_below]; [reflexivity|]. rewrite IHn, H; [lra|lia|]. intros. apply H. lia. Qed.
Lemma sum_swap n m f : sum_below n (fun i => sum_below m (fun j => f i j)) = sum_below m (fun j => sum_below n (fun i => f i j)).
Proof.
  induction n; cbn [sum_below]; [symmetry; apply sum_zero; reflexivity|]. rewrite IHn, <- sum_add. reflexivity.
Qed.
Lemma sum_Sl n f : sum_below (S n) f = f 0%nat + sum_below n (fun i => f (S i)).
Proof. induction n; [cbn; lra|]. cbn [sum_below] in *. rewrite IHn. lra. Qed.
Lemma fold_sum {A} (f : A -> R) l s : fold_left (fun d x => d + f x) l s = s + lsum (map f l).
Proof.
  revert s. induction l; intros s; cbn [fold_left map]; [unfold lsum; cbn; lra|]. rewrite IHl. unfold lsum. cbn [fold_right]. lra.
Qed.
Lemma lsum_flat {A B} (f : B -> R) (g : A -> list B) l :
  lsum (map f (flat_map g l)) = lsum (map (fun a => lsum (map f (g a))) l).
Proof. induction l; [reflexivity|]. cbn [flat_map map]. rewrite map_app, lsum_app, IHl. reflexivity. Qed.
Lemma tril_strict_sum f n : lsum (map f (tril_strict n)) = sum_below n (fun i => sum_below i (fun j => f (i, j))).
Proof.
  unfold tril_strict. rewrite lsum_flat. change (sumn n (fun a => lsum (map f (map (fun j => (a, j)) (seq 0 a)))) = sum_below n (fun i => sum_below i (fun j => f (i, j)))).
  rewrite sumn_below. apply sum_ext. intros i _. rewrite map_map. apply sumn_below.
Qed.
Lemma tril_sum f n : lsum (map f (tril n)) = sum_below n (fun i => sum_below (S i) (fun j => f (i, j))).
Proof.
  unfold tril. rewrite lsum_flat. change (sumn n (fun a => lsum (map f (map (fun j => (a, j)) (seq 0 (S a))))) = sum_below n (fun i => sum_below (S i) (fun j => f (i, j)))).
  rewrite sumn_below. apply sum_ext. intros i _. rewrite map_map. apply sumn_below.
Qed.
(** a full double sum splits into twice the strict lower triangle and the diagonal *)
Lemma sum_triangle n f : sum_below n (fun i => sum_below n (fun j => f i j)) =
  sum_below n (fun i => sum_below i (fun j => f i j + f j i)) + sum_below n (fun i => f i i).
Proof.
  induction n; cbn [sum_below]; [lra|].
  rewrite (sum_add n (fun i => sum_below n (fun j => f i j)) (fun i => f i n)), IHn, (sum_add n (fun j => f n j) (fun j => f j n)). lra.
Qed.

(** ** Packed storage *)
Definition tri (i : nat) : nat := (i * (i + 1) / 2)%nat.
Lemma tri_S i : tri (S i) = (tri i + S i)%nat.
Proof.
  unfold tri. replace (S i * (S i + 1))%nat with (i * (i + 1) + (S i) * 2)%nat by lia. rewrite Nat.div_add by lia. reflexivity.
Qed.
Lemma tri_mono i j : (i <= j)%nat -> (tri i <= tri j)%nat.
Proof. induction 1; [lia|]. rewrite tri_S. lia. Qed.
Lemma packed_low i j : (j <= i)%nat -> packed_index i j = (tri i + j)%nat.
Proof. intros H. unfold packed_index. replace (i <? j)%nat with false by (symmetry; apply Nat.ltb_ge; lia). reflexivity. Qed.
Lemma packed_sym i j : packed_index i j = packed_index j i.
Proof.
  unfold packed_index. destruct (Nat.ltb_spec i j), (Nat.ltb_spec j i); try lia; try reflexivity. assert (i = j) by lia. subst. reflexivity.
Qed.
Lemma tril_S n : tril (S n) = tril n ++ map (fun j => (n, j)) (seq 0 (S n)).
Proof. unfold tril. replace (seq 0 (S n)) with (seq 0 n ++ [n]) at 1 by (rewrite seq_S; reflexivity). rewrite flat_map_app. cbn [flat_map]. rewrite app_nil_r. reflexivity. Qed.
Lemma seq_shift' a n : map (fun j => (a + j)%nat) (seq 0 n) = seq a n.
Proof.
  induction n; [reflexivity|]. rewrite !seq_S, map_app, IHn. reflexivity.
Qed.
Lemma tril_packed n : map (fun ij => packed_index (fst ij) (snd ij)) (tril n) = seq 0 (tri n).
Proof.
  induction n; [reflexivity|]. rewrite tril_S, map_app, IHn, tri_S, seq_app. f_equal. cbn [plus].
  rewrite map_map, <- (seq_shift' (tri n)). apply map_ext_in. intros j Hj. apply in_seq in Hj. cbn [fst snd]. apply packed_low. lia.
Qed.
Lemma tril_length n : List.length (tril n) = tri n.
Proof. rewrite <- (map_length (fun ij => packed_index (fst ij) (snd ij))), tril_packed, seq_length. reflexivity. Qed.
Lemma tril_nth n i j d : (j <= i < n)%nat -> nth (tri i + j) (tril n) d = (i, j).
Proof.
  induction n; intros H; [lia|]. rewrite tril_S. destruct (Nat.eq_dec i n) as [->|].
  - rewrite app_nth2 by (rewrite tril_length; lia). rewrite tril_length. replace (tri n + j - tri n)%nat with j by lia.
    rewrite nth_indep with (d' := (n, 0%nat)) by (rewrite map_length, seq_length; lia).
    rewrite (map_nth (fun j => (n, j)) (seq 0 (S n)) 0%nat j). rewrite seq_nth by lia. reflexivity.
  - rewrite app_nth1. { apply IHn. lia. } rewrite tril_length. pose proof (tri_mono (S i) n ltac:(lia)). rewrite tri_S in H0. lia.
Qed.
Lemma packed_bound n i j : (i < n)%nat -> (j < n)%nat -> (packed_index i j < tri n)%nat.
Proof.
  intros Hi Hj. destruct (Nat.le_gt_cases j i) as [H|H].
  - rewrite packed_low by lia. pose proof (tri_mono (S i) n ltac:(lia)). rewrite tri_S in H0. lia.
  - rewrite packed_sym, packed_low by lia. pose proof (tri_mono (S j) n ltac:(lia)). rewrite tri_S in H0. lia.
Qed.
Lemma packed_onto n k : (k < tri n)%nat -> exists i j, (j <= i < n)%nat /\ packed_index i j = k /\
  forall i' j', (j' <= i')%nat -> packed_index i' j' = k -> i' = i /\ j' = j.
Proof.
  induction n; intros H; [cbn in H; lia|]. rewrite tri_S in H. destruct (Nat.lt_ge_cases k (tri n)) as [L|G].
  - destruct (IHn L) as (i & j & A & B & U). exists i, j. split; [lia|]. auto.
  - exists n, (k - tri n)%nat. split; [lia|]. split; [rewrite packed_low by lia; lia|].
    intros i' j' L E. rewrite packed_low in E by lia. assert (i' = n); [|subst; lia].
    destruct (Nat.lt_trichotomy i' n) as [Q|[Q|Q]]; [|assumption|].
    + pose proof (tri_mono (S i') n ltac:(lia)). rewrite tri_S in H0. lia.
    + pose proof (tri_mono (S n) i' ltac:(lia)). rewrite tri_S in H0. lia.
Qed.
Lemma pack_ok n M : pack_symmetric n n M = Ok (map (fun ij => M (fst ij) (snd ij)) (tril n)).
Proof. unfold pack_symmetric. rewrite Nat.eqb_refl. reflexivity. Qed.
Lemma pack_nth n (M : mat) i j d : (j <= i < n)%nat ->
  nth (packed_index i j) (map (fun ij => M (fst ij) (snd ij)) (tril n)) d = M i j.
Proof.
  intros H. rewrite packed_low by lia. rewrite nth_indep with (d' := M (fst (0, 0)%nat) (snd (0, 0)%nat)).
  - rewrite (map_nth (fun ij : nat * nat => M (fst ij) (snd ij))). rewrite tril_nth by lia. reflexivity.
  - rewrite map_length, tril_length. pose proof (packed_bound n i j ltac:(lia) ltac:(lia)). rewrite packed_low in H0 by lia. lia.
Qed.
Lemma index_ok {A} (l : list A) i d : (i < List.length l)%nat -> index l i = Ok (nth i l d).
Proof.
  intros H. unfold index. rewrite (nth_error_nth' l d H). reflexivity.
Qed.
Lemma index_err {A} (l : list A) i : (List.length l <= i)%nat -> index l i = Err IndexError.
Proof. intros H. unfold index. apply nth_error_None in H. rewrite H. reflexivity. Qed.
(** state of unpacking: rows before [i] done, and columns before [j] of row [i] *)
Definition done (A : list R) (fac : R) (i j : nat) (full : mat) : Prop :=
  forall a b, (a <= i)%nat -> (b <= i)%nat -> ((a < i /\ b < i) \/ (a = i /\ b < j) \/ (b = i /\ a < j))%nat ->
  full a b = if (a =? b)%nat then nth (packed_index a b) A 0 else nth (packed_index a b) A 0 / fac.
Lemma unpack_inner_ok A fac i j full : (tri i + j <= List.length A)%nat -> (j <= i)%nat -> done A fac i 0 full ->
  exists full', fold_left (unpack_inner A fac i) (seq 0 j) (Ok (full, tri i)) = Ok (full', (tri i + j)%nat) /\ done A fac i j full'.
Proof.
  intros L Hj D. induction j.
  - exists full. cbn. rewrite Nat.add_0_r. auto.
  - destruct IHj as (f1 & E & D1); [lia|lia|]. rewrite seq_S, fold_left_app, E. cbn [fold_left]. unfold unpack_inner at 1. cbn [rbind plus].
    rewrite (index_ok A _ 0) by lia. cbn [rbind]. eexists. split; [replace (tri i + S j)%nat with (S (tri i + j)) by lia; reflexivity|].
    intros a b Ha Hb H. unfold setm.
    destruct (Nat.eqb_spec a j), (Nat.eqb_spec b i); cbn [andb].
    + subst. replace (j =? i)%nat with false by (symmetry; apply Nat.eqb_neq; lia). rewrite packed_sym, packed_low by lia. reflexivity.
    + destruct (Nat.eqb_spec a i), (Nat.eqb_spec b j); cbn [andb]; try (apply D1; lia).
      subst. lia.
    + destruct (Nat.eqb_spec a i), (Nat.eqb_spec b j); cbn [andb]; try (apply D1; lia). lia.
    + destruct (Nat.eqb_spec a i), (Nat.eqb_spec b j); cbn [andb]; try (apply D1; lia).
      subst. replace (i =? j)%nat with false by (symmetry; apply Nat.eqb_neq; lia). rewrite packed_low by lia. reflexivity.
Qed.
Lemma unpack_rows_ok A fac n : (tri n <= List.length A)%nat ->
  exists full, fold_left (unpack_row A fac) (seq 0 n) (Ok (fun _ _ => 0, 0%nat)) = Ok (full, tri n) /\ done A fac n 0 full.
Proof.
  induction n; intros L.
  - exists (fun _ _ => 0). split; [reflexivity|]. intros a b ? ? ?. lia.
  - rewrite tri_S in L. destruct IHn as (f & E & D); [lia|]. rewrite seq_S, fold_left_app, E. cbn [fold_left plus].
    unfold unpack_row at 1. destruct (unpack_inner_ok A fac n n f ltac:(lia) ltac:(lia) D) as (f1 & E1 & D1). rewrite E1. cbn [rbind].
    rewrite (index_ok A _ 0) by lia. cbn [rbind]. eexists. split; [rewrite tri_S; replace (tri n + S n)%nat with (S (tri n + n)) by lia; reflexivity|].
    intros a b Ha Hb H. unfold setm. destruct (Nat.eqb_spec a n), (Nat.eqb_spec b n); cbn [andb].
    + subst. rewrite Nat.eqb_refl, packed_low by lia. reflexivity.
    + apply D1; lia.
    + apply D1; lia.
    + apply D1; lia.
Qed.
Lemma unpack_ok A n fac : (tri n <= List.length A)%nat ->
  exists U, unpack_symmetric A n fac = Ok U /\ forall i j, (i < n)%nat -> (j < n)%nat ->
    U i j = if (i =? j)%nat then nth (packed_index i j) A 0 else nth (packed_index i j) A 0 / fac.
Proof.
  intros L. destruct (unpack_rows_ok A fac n L) as (f & E & D). exists f. unfold unpack_symmetric. rewrite E. split; [reflexivity|].
  intros. apply D; lia.
Qed.
Lemma round_trip n M : symmetric n M -> exists A U, pack_symmetric n n M = Ok A /\ List.length A = (n * (n + 1) / 2)%nat /\
  unpack_symmetric A n 1 = Ok U /\ forall i j, (i < n)%nat -> (j < n)%nat -> U i j = M i j.
Proof.
  intros S. rewrite pack_ok. eexists.
  destruct (unpack_ok (map (fun ij => M (fst ij) (snd ij)) (tril n)) n 1) as (U & E & H).
  { rewrite map_length, tril_length. lia. }
  exists U. split; [reflexivity|]. split; [rewrite map_length, tril_length; reflexivity|]. split; [exact E|].
  intros i j Hi Hj. rewrite H by lia.
  assert (nth (packed_index i j) (map (fun ij => M (fst ij) (snd ij)) (tril n)) 0 = M i j) as ->.
  { destruct (Nat.le_gt_cases j i); [apply pack_nth; lia|]. rewrite packed_sym, pack_nth by lia. apply S; lia. }
  destruct (i =? j)%nat; lra.
Qed.
(** doubled off-diagonals are undone by [fac] = 2 *)
Lemma round_trip2 n M : symmetric n M -> exists A U,
  pack_symmetric n n (fun i j => if (i =? j)%nat then M i j else 2 * M i j) = Ok A /\
  unpack_symmetric A n 2 = Ok U /\ forall i j, (i < n)%nat -> (j < n)%nat -> U i j = M i j.
Proof.
  intros S. rewrite pack_ok. eexists.
  set (M2 := fun i j => if (i =? j)%nat then M i j else 2 * M i j).
  destruct (unpack_ok (map (fun ij => M2 (fst ij) (snd ij)) (tril n)) n 2) as (U & E & H).
  { rewrite map_length, tril_length. lia. }
  exists U. split; [reflexivity|]. split; [exact E|].
  intros i j Hi Hj. rewrite H by lia.
  assert (nth (packed_index i j) (map (fun ij => M2 (fst ij) (snd ij)) (tril n)) 0 = M2 i j) as ->.
  { destruct (Nat.le_gt_cases j i); [apply pack_nth; lia|]. rewrite packed_sym, pack_nth by lia. unfold M2. rewrite Nat.eqb_sym. rewrite (S j i) by lia. reflexivity. }
  unfold M2. destruct (i =? j)%nat; lra.
Qed.
Lemma unpack_short A n fac : (List.length A < n * (n + 1) / 2)%nat -> unpack_symmetric A n fac = Err IndexError.
Proof.
  fold (tri n). intros H. unfold unpack_symmetric.
  assert (forall e l, fold_left (unpack_row A fac) l (Err e) = Err e) as Ferr.
  { intros e l. induction l; cbn [fold_left]; [reflexivity|]. rewrite <- IHl at 2. f_equal. unfold unpack_row.
    assert (forall e m, fold_left (unpack_inner A fac a) m (Err e) = Err e) as X by (intros e0 m; induction m; cbn [fold_left]; [reflexivity|exact IHm]).
    rewrite X. reflexivity. }
  induction n; [cbn in H; lia|]. rewrite seq_S, fold_left_app. cbn [plus].
  destruct (Nat.lt_ge_cases (List.length A) (tri n)) as [L|G].
  - specialize (IHn L). destruct (fold_left (unpack_row A fac) (seq 0 n) (Ok (fun _ _ => 0, 0%nat))); [discriminate|].
    cbn [rmap] in IHn. injection IHn as ->. rewrite Ferr. reflexivity.
  - rewrite tri_S in H. destruct (unpack_rows_ok A fac n G) as (f & E & D). rewrite E. cbn [fold_left]. unfold unpack_row at 1.
    destruct (Nat.le_gt_cases (List.length A) (tri n + n)) as [Q|Q]; [|lia].
    set (j := (List.length A - tri n)%nat).
    destruct (Nat.eq_dec j n) as [J|J].
    + destruct (unpack_inner_ok A fac n n f ltac:(lia) ltac:(lia) D) as (f1 & E1 & _). rewrite E1. cbn [rbind]. rewrite index_err by lia. reflexivity.
    + replace (seq 0 n) with (seq 0 j ++ j :: seq (S j) (n - S j)).
      2:{ change (j :: seq (S j) (n - S j)) with (seq j (S (n - S j))). rewrite <- seq_app. f_equal. lia. }
      rewrite fold_left_app. destruct (unpack_inner_ok A fac n j f ltac:(lia) ltac:(lia) D) as (f1 & E1 & _). rewrite E1. cbn [fold_left].
      unfold unpack_inner at 2. cbn [rbind]. rewrite index_err by lia.
      assert (forall e m, fold_left (unpack_inner A fac n) m (Err e) = Err e) as X by (intros e0 m; induction m; cbn [fold_left]; [reflexivity|exact IHm]).
      cbn [rbind]. rewrite X. reflexivity.
Qed.
Lemma dot_map {A} (f g : A -> R) l : dot (map f l) (map g l) = lsum (map (fun a => f a * g a) l).
Proof. induction l; [reflexivity|]. cbn [map dot]. rewrite IHl. reflexivity. Qed.
Lemma packed_dot n M N : symmetric n M -> symmetric n N -> exists A B,
  pack_symmetric n n M = Ok A /\ pack_symmetric n n (fun i j => if (i =? j)%nat then N i j else 2 * N i j) = Ok B /\
  dot A B = full_dot n M N.
Proof.
  intros SM SN. rewrite !pack_ok. do 2 eexists. split; [reflexivity|]. split; [reflexivity|].
  rewrite dot_map, tril_sum. unfold full_dot. rewrite sum_triangle, <- sum_add. apply sum_ext. intros i Hi.
  cbn [sum_below fst snd]. rewrite Nat.eqb_refl. f_equal. apply sum_ext. intros j Hj.
  replace (i =? j)%nat with false by (symmetry; apply Nat.eqb_neq; lia). rewrite (SM j i), (SN j i) by lia. lra.
Qed.

(** ** Displacement factors *)
Lemma fill_ok {A} (v : A -> R) l : forall k n rest, List.length l = n ->
  fold_left (fun d x => upd d (fst x) (snd x)) (combine (seq (List.length k) n) (map v l)) (k ++ repeat 0 n ++ rest) = k ++ map v l ++ rest.
Proof.
  induction l; intros k n rest E; cbn [List.length] in E; subst n; [reflexivity|].
  cbn [map repeat seq combine fold_left fst snd app].
  assert (forall k x, upd (k ++ 0 :: repeat 0 (List.length l) ++ rest) (List.length k) x = k ++ x :: repeat 0 (List.length l) ++ rest) as U.
  { clear. induction k; intros x; cbn [app List.length upd]; [reflexivity|]. rewrite IHk. reflexivity. }
  rewrite U. specialize (IHl (k ++ [v a]) (List.length l) rest eq_refl). rewrite app_length in IHl. cbn [List.length] in IHl.
  rewrite Nat.add_1_r in IHl. rewrite <- !app_assoc in IHl. cbn [app] in IHl. exact IHl.
Qed.
Lemma disp_fill mdim A : fold_left (fun d ij => upd d (packed_index (fst ij) (snd ij)) (disp_val A (fst ij) (snd ij))) (tril mdim)
  (repeat 0 (mdim * (mdim + 1) / 2)) = map (fun ij => disp_val A (fst ij) (snd ij)) (tril mdim).
Proof.
  fold (tri mdim).
  pose proof (fill_ok (fun ij : nat * nat => disp_val A (fst ij) (snd ij)) (tril mdim) [] (tri mdim) [] (tril_length mdim)) as F.
  cbn [List.length app] in F. rewrite !app_nil_r in F. rewrite <- F. clear F. rewrite <- tril_packed.
  generalize (repeat 0 (tri mdim)). generalize (tril mdim). intros l. induction l; intros d; [reflexivity|].
  cbn [map combine fold_left fst snd]. apply IHl.
Qed.
Definition off_term (A : R) (pdm : mat) (i j : nat) : R :=
  2 * pdm i j * sqrt (fratio j i) * (- A) ^ (i - j) * genlaguerre j (i - j) (A ^ 2).
Definition plain (mdim : nat) (A : R) (pdm : mat) : R :=
  sum_below mdim (fun i => sum_below i (fun j => off_term A pdm i j)) + sum_below mdim (fun m => pdm m m * genlaguerre m 0 (A ^ 2)).
Definition gauss (s : bool) (A : R) : R := if s then exp (- (1/2) * A ^ 2) else 1.
Lemma exp_val_eq mdim A pdm s : displacement_exp_val mdim A pdm s = plain mdim A pdm * gauss s A.
Proof.
  unfold displacement_exp_val. rewrite fold_sum.
  replace (fold_left _ (tril_strict mdim) 0) with (sum_below mdim (fun i => sum_below i (fun j => off_term A pdm i j))).
  2:{ rewrite <- (tril_strict_sum (fun ij => off_term A pdm (fst ij) (snd ij))). rewrite <- (Rplus_0_l (lsum _)), <- fold_sum.
      generalize 0. induction (tril_strict mdim) as [|[i j] l IH]; intros z; [reflexivity|]. cbn [fold_left]. rewrite IH. reflexivity. }
  change (lsum (map (fun m => pdm m m * genlaguerre m 0 (A ^ 2)) (seq 0 mdim))) with (sumn mdim (fun m => pdm m m * genlaguerre m 0 (A ^ 2))).
  rewrite sumn_below. unfold plain, gauss. destruct s; lra.
Qed.
Lemma matrix_eq mdim A pdm s : displacement_matrix mdim A pdm s = Ok (displacement_exp_val mdim A pdm s).
Proof.
  unfold displacement_matrix. rewrite pack_ok. cbn [rmap]. f_equal. rewrite exp_val_eq. unfold disp_mat. rewrite disp_fill.
  assert (forall g, dot (map (fun ij => pdm (fst ij) (snd ij)) (tril mdim)) (map (fun ij => disp_val A (fst ij) (snd ij) * g) (tril mdim)) = plain mdim A pdm * g) as X.
  { intros g. rewrite dot_map, tril_sum. unfold plain. rewrite <- sum_add, <- sum_mulr. apply sum_ext. intros i _. cbn [sum_below fst snd].
    rewrite Rmult_plus_distr_r, <- sum_mulr. f_equal.
    - apply sum_ext. intros j Hj. unfold disp_val, off_term. replace (i =? j)%nat with false by (symmetry; apply Nat.eqb_neq; lia). lra.
    - unfold disp_val. rewrite Nat.eqb_refl. lra. }
  unfold gauss. destruct s.
  - rewrite map_map. apply X.
  - rewrite <- (X 1). f_equal. apply map_ext. intros. lra.
Qed.
(** Laguerre polynomials *)
Lemma lag_sum n a x : genlaguerre n a x = sum_below (S n) (fun i => (-1) ^ i * C (n + a) (n - i) * x ^ i / INR (fact i)).
Proof. unfold genlaguerre. rewrite <- sumn_below. reflexivity. Qed.
Lemma deriv_sum n (f g : nat -> R -> R) x : (forall i, (i < n)%nat -> derivable_pt_lim (f i) x (g i x)) ->
  derivable_pt_lim (fun y => sum_below n (fun i => f i y)) x (sum_below n (fun i => g i x)).
Proof.
  induction n; intros H; cbn [sum_below]; [apply derivable_pt_lim_const|].
  apply (derivable_pt_lim_plus (fun y => sum_below n (fun i => f i y)) (f n)); [apply IHn; intros; apply H; lia|apply H; lia].
Qed.
Lemma deriv_ext f g x l l' : (forall y, f y = g y) -> l = l' -> derivable_pt_lim f x l -> derivable_pt_lim g x l'.
Proof. intros E -> H eps He. destruct (H eps He) as [d Hd]. exists d. intros h Hh Hl. rewrite <- !E. apply Hd; assumption. Qed.
Lemma fact_S n : INR (fact (S n)) = INR (S n) * INR (fact n).
Proof. rewrite <- mult_INR. reflexivity. Qed.
Lemma fact_pos n : 0 < INR (fact n).
Proof. apply lt_0_INR, lt_O_fact. Qed.
Lemma INR_S_pos n : 0 < INR (S n).
Proof. apply lt_0_INR. lia. Qed.
Lemma lag_0 a x : genlaguerre 0 a x = 1.
Proof. rewrite lag_sum. cbn. unfold C. cbn. rewrite Nat.sub_0_r. pose proof (fact_pos a). field. lra. Qed.
Lemma lag_deriv n a x : derivable_pt_lim (genlaguerre n a) x (match n with O => 0 | S k => - genlaguerre k (S a) x end).
Proof.
  eapply deriv_ext; [intros y; symmetry; apply lag_sum|reflexivity|].
  set (g := fun i y => (-1) ^ i * C (n + a) (n - i) * (INR i * y ^ pred i) / INR (fact i)).
  eapply deriv_ext with (l := sum_below (S n) (fun i => g i x)); [reflexivity| |].
  - rewrite sum_Sl. unfold g at 1. cbn [INR]. rewrite Rmult_0_l, Rmult_0_r. unfold Rdiv at 1. rewrite Rmult_0_l, Rplus_0_l.
    destruct n; [reflexivity|]. rewrite lag_sum. rewrite <- (Rmult_1_l (sum_below (S n) (fun i => (-1) ^ i * _ * _ / _))).
    rewrite <- Ropp_mult_distr_l_reverse, <- sum_mull. apply sum_ext. intros i Hi. unfold g. rewrite fact_S. cbn [pred].
    replace (S n - S i)%nat with (n - i)%nat by lia. replace (S n + a)%nat with (n + S a)%nat by lia.
    pose proof (fact_pos i). pose proof (INR_S_pos i). cbn [pow]. field. lra.
  - apply deriv_sum. intros i Hi. unfold g.
    eapply deriv_ext with (f := fun y => ((-1) ^ i * C (n + a) (n - i) / INR (fact i)) * y ^ i); [intros; unfold Rdiv; lra| |].
    2:{ apply (derivable_pt_lim_scal (fun y => y ^ i)), derivable_pt_lim_pow. } unfold Rdiv. lra.
Qed.
Lemma sq_deriv A : derivable_pt_lim (fun A => A ^ 2) A (2 * A).
Proof. eapply deriv_ext; [reflexivity| |apply derivable_pt_lim_pow]. cbn. lra. Qed.
Lemma gauss_deriv A : derivable_pt_lim (fun A => exp (- (1/2) * A ^ 2)) A (- A * exp (- (1/2) * A ^ 2)).
Proof.
  eapply deriv_ext; [reflexivity| |apply (derivable_pt_lim_comp (fun A => - (1/2) * A ^ 2) exp)].
  2:{ apply (derivable_pt_lim_scal (fun A => A ^ 2)), sq_deriv. } 2:{ apply derivable_pt_lim_exp. } lra.
Qed.
Lemma oppow_deriv k A : derivable_pt_lim (fun A => (- A) ^ k) A (- INR k * (- A) ^ (k - 1)).
Proof.
  eapply deriv_ext; [reflexivity| |apply (derivable_pt_lim_comp (fun A => - A) (fun y => y ^ k))].
  2:{ apply (derivable_pt_lim_opp (fun A => A)), derivable_pt_lim_id. } 2:{ apply derivable_pt_lim_pow. }
  replace (pred k) with (k - 1)%nat by lia. lra.
Qed.
Definition lag' (n a : nat) (x : R) : R := match n with O => 0 | S k => - genlaguerre k (S a) x end.
Lemma lag_sq_deriv n a A : derivable_pt_lim (fun A => genlaguerre n a (A ^ 2)) A (lag' n a (A ^ 2) * (2 * A)).
Proof.
  apply (derivable_pt_lim_comp (fun A => A ^ 2) (genlaguerre n a)); [apply sq_deriv|apply lag_deriv].
Qed.
Definition off_deriv (A : R) (pdm : mat) (i j : nat) : R :=
  2 * pdm i j * sqrt (fratio j i) * (- INR (i - j) * (- A) ^ (i - j - 1) * genlaguerre j (i - j) (A ^ 2)
     + (- A) ^ (i - j) * (lag' j (i - j) (A ^ 2) * (2 * A))).
Lemma off_term_deriv A pdm i j : derivable_pt_lim (fun A => off_term A pdm i j) A (off_deriv A pdm i j).
Proof.
  unfold off_term. eapply deriv_ext with (f := fun A => (2 * pdm i j * sqrt (fratio j i)) * ((- A) ^ (i - j) * genlaguerre j (i - j) (A ^ 2))).
  - intros. lra.
  - reflexivity.
  - apply (derivable_pt_lim_scal (fun A => (- A) ^ (i - j) * genlaguerre j (i - j) (A ^ 2))).
    apply (derivable_pt_lim_mult (fun A => (- A) ^ (i - j)) (fun A => genlaguerre j (i - j) (A ^ 2))); [apply oppow_deriv|apply lag_sq_deriv].
Qed.
Definition plain_deriv (mdim : nat) (A : R) (pdm : mat) : R :=
  sum_below mdim (fun i => sum_below i (fun j => off_deriv A pdm i j))
  + sum_below mdim (fun m => pdm m m * (lag' m 0 (A ^ 2) * (2 * A))).
Lemma plain_derivable mdim A pdm : derivable_pt_lim (fun A => plain mdim A pdm) A (plain_deriv mdim A pdm).
Proof.
  unfold plain, plain_deriv.
  apply (derivable_pt_lim_plus (fun A => sum_below mdim (fun i => sum_below i (fun j => off_term A pdm i j))) (fun A => sum_below mdim (fun m => pdm m m * genlaguerre m 0 (A ^ 2)))).
  - apply (deriv_sum mdim (fun i A => sum_below i (fun j => off_term A pdm i j)) (fun i A => sum_below i (fun j => off_deriv A pdm i j))).
    intros i _. apply (deriv_sum i (fun j A => off_term A pdm i j) (fun j A => off_deriv A pdm i j)). intros j _. apply off_term_deriv.
  - apply (deriv_sum mdim (fun m A => pdm m m * genlaguerre m 0 (A ^ 2)) (fun m A => pdm m m * (lag' m 0 (A ^ 2) * (2 * A)))).
    intros m _. apply (derivable_pt_lim_scal (fun A => genlaguerre m 0 (A ^ 2))), lag_sq_deriv.
Qed.
Lemma exp_val_deriv mdim A pdm : derivable_pt_lim (fun A => displacement_exp_val mdim A pdm true) A
  ((plain_deriv mdim A pdm - A * plain mdim A pdm) * exp (- (1/2) * A ^ 2)).
Proof.
  eapply deriv_ext; [intros y; symmetry; apply exp_val_eq| |].
  2:{ apply (derivable_pt_lim_mult (fun A => plain mdim A pdm) (fun A => exp (- (1/2) * A ^ 2))); [apply plain_derivable|apply gauss_deriv]. }
  lra.
Qed.
(** the term left out of the derivative routine *)
Definition missing (mdim : nat) (A : R) (pdm : mat) : R :=
  2 * sum_below (mdim - 1) (fun n => pdm (S n) n * sqrt (fratio n (S n)) * genlaguerre n 1 (A ^ 2)).
Lemma fold_ext_in {A B} (f g : A -> B -> A) l : (forall a b, In b l -> f a b = g a b) -> forall s, fold_left f l s = fold_left g l s.
Proof. induction l; intros H s; [reflexivity|]. cbn [fold_left]. rewrite H by (left; reflexivity). apply IHl. intros. apply H. right. assumption. Qed.
Lemma in_tril_strict n i j : In (i, j) (tril_strict n) -> (j < i < n)%nat.
Proof.
  unfold tril_strict. rewrite in_flat_map. intros (x & H1 & H2). apply in_map_iff in H2 as (y & E & H3). injection E as -> ->.
  apply in_seq in H1, H3. lia.
Qed.
Definition near (A : R) (pdm : mat) (i j : nat) : R :=
  if (i - j =? 1)%nat then 2 * pdm i j * sqrt (fratio j i) * genlaguerre j 1 (A ^ 2) else 0.
Lemma near_sum mdim A pdm : sum_below mdim (fun i => sum_below i (fun j => near A pdm i j)) = missing mdim A pdm.
Proof.
  unfold missing. destruct mdim; [cbn; lra|]. rewrite sum_Sl. cbn [sum_below]. rewrite Rplus_0_l.
  replace (S mdim - 1)%nat with mdim by lia. rewrite <- sum_mull. apply sum_ext. intros i Hi. cbn [sum_below].
  rewrite sum_zero. 2:{ intros j Hj. unfold near. replace (S i - j =? 1)%nat with false by (symmetry; apply Nat.eqb_neq; lia). reflexivity. }
  unfold near. replace (S i - i)%nat with 1%nat by lia. cbn [Nat.eqb]. lra.
Qed.
Lemma kernel_eq mdim A pdm : displacement_deriv_kernel mdim A pdm =
  (plain_deriv mdim A pdm - A * plain mdim A pdm + missing mdim A pdm) * exp (- (1/2) * A ^ 2).
Proof.
  unfold displacement_deriv_kernel. f_equal.
  rewrite (fold_ext_in (deriv_diag A pdm) (fun d m => d + (pdm m m * (lag' m 0 (A ^ 2) * (2 * A)) - A * (pdm m m * genlaguerre m 0 (A ^ 2))))).
  2:{ intros d m _. unfold deriv_diag, lag'. destruct m; cbn [Nat.ltb Nat.leb]; [lra|]. replace (S m - 1)%nat with m by lia. lra. }
  rewrite fold_sum. change (lsum (map ?f (seq 0 mdim))) with (sumn mdim f). rewrite sumn_below.
  rewrite (fold_ext_in (deriv_off A pdm) (fun d ij => d + (off_deriv A pdm (fst ij) (snd ij) - A * off_term A pdm (fst ij) (snd ij) + near A pdm (fst ij) (snd ij)))).
  2:{ intros d [i j] H. apply in_tril_strict in H. cbn [fst snd]. unfold deriv_off, off_deriv, off_term, near.
      remember (i - j)%nat as k eqn:K. assert (k <> 0)%nat by lia. destruct k as [|[|k]]; [lia| |]; cbn [Nat.ltb Nat.leb Nat.eqb].
      - cbn [Nat.sub pow INR]. destruct j; cbn [Nat.ltb Nat.leb lag']; [lra|]. replace (S j - 1)%nat with j by lia. cbn [plus]. lra.
      - replace (S (S k) - 1)%nat with (S k) by lia. destruct j; cbn [Nat.ltb Nat.leb lag']; [lra|]. replace (S j - 1)%nat with j by lia.
        replace (S (S k) + 1)%nat with (S (S (S k))) by lia. lra. }
  rewrite fold_sum. rewrite (tril_strict_sum (fun ij => off_deriv A pdm (fst ij) (snd ij) - A * off_term A pdm (fst ij) (snd ij) + near A pdm (fst ij) (snd ij))).
  cbn [fst snd]. unfold plain_deriv, plain.
  assert (sum_below mdim (fun i => sum_below i (fun j => off_deriv A pdm i j - A * off_term A pdm i j + near A pdm i j))
   = sum_below mdim (fun i => sum_below i (fun j => off_deriv A pdm i j)) - A * sum_below mdim (fun i => sum_below i (fun j => off_term A pdm i j)) + missing mdim A pdm) as ->.
  { rewrite <- near_sum. rewrite <- (Rmult_1_l (A * _)), <- !Rmult_assoc. replace (1 * A) with A by lra.
    unfold Rminus. rewrite <- Ropp_mult_distr_l_reverse, <- sum_mull, <- !sum_add. apply sum_ext. intros i _.
    rewrite <- sum_mull, <- !sum_add. apply sum_ext. intros j _. lra. }
  assert (sum_below mdim (fun m => pdm m m * (lag' m 0 (A ^ 2) * (2 * A)) - A * (pdm m m * genlaguerre m 0 (A ^ 2)))
   = sum_below mdim (fun m => pdm m m * (lag' m 0 (A ^ 2) * (2 * A))) - A * sum_below mdim (fun m => pdm m m * genlaguerre m 0 (A ^ 2))) as ->.
  { unfold Rminus. rewrite <- Ropp_mult_distr_l_reverse, <- sum_mull, <- sum_add. apply sum_ext. intros. lra. }
  lra.
Qed.
(** The derivative of the value routine is the derivative routine minus the missing term. *)
Lemma true_derivative mdim A pdm : derivable_pt_lim (fun A => displacement_exp_val mdim A pdm true) A
  (displacement_deriv_kernel mdim A pdm - missing mdim A pdm * exp (- (1/2) * A ^ 2)).
Proof. eapply deriv_ext; [reflexivity| |apply exp_val_deriv]. rewrite kernel_eq. lra. Qed.

(** ** The displacement operator *)
Lemma normal_deriv m : forall n z, derivable_pt_lim (normal m n) z (INR m * normal (m - 1) n z - INR n * normal m (n - 1) z).
Proof.
  induction m; intros n z.
  - eapply deriv_ext; [reflexivity| |apply oppow_deriv]. cbn [INR normal Nat.sub]. lra.
  - eapply deriv_ext with (f := fun z => z * normal m n z + INR n * normal m (n - 1) z); [reflexivity| |].
    2:{ apply (derivable_pt_lim_plus (fun z => z * normal m n z) (fun z => INR n * normal m (n - 1) z)).
        - apply (derivable_pt_lim_mult (fun z => z) (normal m n)); [apply derivable_pt_lim_id|apply IHm].
        - apply (derivable_pt_lim_scal (normal m (n - 1))), IHm. }
    replace (S m - 1)%nat with m by lia. cbn [normal]. rewrite S_INR.
    destruct m; cbn [INR normal Nat.sub]; [lra|]. replace (S m - 0)%nat with (S m) by lia. rewrite Nat.sub_0_r. cbn [normal]. lra.
Qed.
Lemma normal_0 m : forall n, normal m n 0 = if (m =? n)%nat then INR (fact n) else 0.
Proof.
  induction m; intros n.
  - cbn [normal]. rewrite Ropp_0. destruct n; cbn; lra.
  - cbn [normal]. rewrite !IHm. destruct n.
    + cbn [Nat.eqb INR]. lra.
    + replace (S n - 1)%nat with n by lia. cbn [Nat.eqb]. destruct (Nat.eqb_spec m n); [|lra]. rewrite fact_S. lra.
Qed.
Lemma fsqrt_pos m n : 0 < sqrt (INR (fact m) * INR (fact n)).
Proof. apply sqrt_lt_R0, Rmult_lt_0_compat; apply fact_pos. Qed.
Lemma disp_op_ok : displacement_operator disp_op.
Proof.
  split.
  - intros m n. unfold disp_op. rewrite normal_0. replace (- (1/2) * 0 ^ 2) with 0 by lra. rewrite exp_0.
    destruct (Nat.eqb_spec m n) as [->|]; [|lra]. rewrite sqrt_square by (pose proof (fact_pos n); lra). pose proof (fact_pos n). field. lra.
  - intros z m n. unfold disp_op.
    eapply deriv_ext with (f := fun z => / sqrt (INR (fact m) * INR (fact n)) * (exp (- (1/2) * z ^ 2) * normal m n z)); [intros; unfold Rdiv; lra| |].
    2:{ apply (derivable_pt_lim_scal (fun z => exp (- (1/2) * z ^ 2) * normal m n z)).
        apply (derivable_pt_lim_mult (fun z => exp (- (1/2) * z ^ 2)) (normal m n)); [apply gauss_deriv|apply normal_deriv]. }
    cbn [normal]. set (e := exp (- (1/2) * z ^ 2)).
    assert (sqrt (INR (S m)) / sqrt (INR (fact (S m)) * INR (fact n)) = / sqrt (INR (fact m) * INR (fact n))) as E1.
    { rewrite fact_S, Rmult_assoc, (sqrt_mult (INR (S m))); try (pose proof (INR_S_pos m); lra).
      - pose proof (fsqrt_pos m n). pose proof (sqrt_lt_R0 _ (INR_S_pos m)). field. lra.
      - pose proof (fact_pos m). pose proof (fact_pos n). nra. }
    assert (sqrt (INR m) * normal (m - 1) n z / sqrt (INR (fact (m - 1)) * INR (fact n)) = INR m * normal (m - 1) n z / sqrt (INR (fact m) * INR (fact n))) as E2.
    { destruct m; [cbn [INR]; rewrite sqrt_0; unfold Rdiv; lra|]. replace (S m - 1)%nat with m by lia.
      rewrite fact_S, (Rmult_assoc (INR (S m))), (sqrt_mult (INR (S m))); try (pose proof (INR_S_pos m); lra).
      2:{ pose proof (fact_pos m). pose proof (fact_pos n). nra. }
      pose proof (fsqrt_pos m n). pose proof (sqrt_lt_R0 _ (INR_S_pos m)).
      rewrite <- (sqrt_sqrt (INR (S m))) at 2 by (pose proof (INR_S_pos m); lra). field. lra. }
    replace (sqrt (INR m) * (e * normal (m - 1) n z / sqrt (INR (fact (m - 1)) * INR (fact n))))
      with (e * (sqrt (INR m) * normal (m - 1) n z / sqrt (INR (fact (m - 1)) * INR (fact n)))) by (unfold Rdiv; lra).
    rewrite E2. replace (sqrt (INR (S m)) * (e * (z * normal m n z + INR n * normal m (n - 1) z) / sqrt (INR (fact (S m)) * INR (fact n))))
      with (e * (z * normal m n z + INR n * normal m (n - 1) z) * (sqrt (INR (S m)) / sqrt (INR (fact (S m)) * INR (fact n)))) by (unfold Rdiv; lra).
    rewrite E1. unfold Rdiv. lra.
Qed.
(** recursion in the other index and symmetry *)
Lemma normal_down m : forall n z, normal m (S n) z = - z * normal m n z + INR m * normal (m - 1) n z.
Proof.
  induction m; intros n z; [cbn [normal INR pow]; lra|].
  destruct m; [cbn [normal Nat.sub]; destruct n; [cbn [INR pow Nat.sub]; ring|]; replace (S n - 0)%nat with (S n) by lia; replace (S n - 1)%nat with n by lia; rewrite (S_INR (S n)); cbn [pow INR]; ring|].
  assert (forall n, INR (S m) * normal (S m) n z = z * (INR (S m) * normal m n z) + INR n * (INR (S m) * normal m (n - 1) z)) as R by (intros; cbn [normal]; lra).
  replace (S (S m) - 1)%nat with (S m) by lia. pose proof (IHm (S n) z) as H1. pose proof (IHm n z) as H2. pose proof (IHm (n - 1)%nat z) as H3.
  change (normal (S (S m)) (S n) z) with (z * normal (S m) (S n) z + INR (S n) * normal (S m) (S n - 1) z).
  change (normal (S (S m)) n z) with (z * normal (S m) n z + INR n * normal (S m) (n - 1) z).
  replace (S n - 1)%nat with n by lia. replace (S m - 1)%nat with m in * by lia. rewrite H2.
  rewrite (S_INR (S m)), (S_INR n). pose proof (R n) as Rn.
  destruct n; [cbn [INR] in *; lra|]. replace (S n - 1)%nat with n in * by lia.
  assert (INR (S n) * normal (S m) (S n) z = INR (S n) * (- z * normal (S m) n z + INR (S m) * normal m n z)) as H4 by (rewrite H3; reflexivity).
  lra.
Qed.
Lemma normal_sym m : forall n z, normal m n z = normal n m (- z).
Proof.
  induction m; intros n z.
  - cbn [normal]. clear. induction n; [cbn; lra|]. cbn [normal INR pow]. rewrite <- IHn. cbn [pow]. lra.
  - rewrite normal_down. cbn [normal]. rewrite IHm. rewrite (IHm (n - 1)%nat). lra.
Qed.
Lemma disp_op_sym z m n : disp_op z m n = disp_op (- z) n m.
Proof.
  unfold disp_op. rewrite normal_sym. rewrite (Rmult_comm (INR (fact m))). replace ((- z) ^ 2) with (z ^ 2) by lra. reflexivity.
Qed.
(** Pascal's rule for Laguerre polynomials *)
Lemma lag_pascal n a x : genlaguerre (S n) (S a) x = genlaguerre (S n) a x + genlaguerre n (S a) x.
Proof.
  rewrite !lag_sum. cbn [sum_below]. 
  assert (forall i, (i <= n)%nat -> C (S n + S a) (S n - i) = C (S n + a) (S n - i) + C (n + S a) (n - i)) as P.
  { intros i Hi. replace (S n + S a)%nat with (S (S n + a)) by lia. replace (S n - i)%nat with (S (n - i)) by lia.
    rewrite <- pascal by lia. replace (n + S a)%nat with (S n + a)%nat by lia. lra. }
  rewrite (sum_ext n _ (fun i => (-1) ^ i * C (S n + a) (S n - i) * x ^ i / INR (fact i) + (-1) ^ i * C (n + S a) (n - i) * x ^ i / INR (fact i))).
  2:{ intros i Hi. rewrite P by lia. unfold Rdiv. lra. }
  rewrite sum_add, P by lia.
  replace (S n - S n)%nat with 0%nat by lia. assert (forall m, C m 0 = 1) as C0.
  { intros m. unfold C. rewrite Nat.sub_0_r. cbn [fact INR]. pose proof (fact_pos m). field. lra. }
  rewrite !C0. unfold Rdiv. lra.
Qed.
Lemma lag_x n x : INR (S n) * genlaguerre (S n) 0 x = INR (S n) * genlaguerre n 0 x - x * genlaguerre n 1 x.
Proof.
  rewrite !lag_sum. rewrite !Nat.add_0_r.
  assert (forall m i, (i <= m)%nat -> C m (m - i) = C m i) as Csym.
  { intros m i H. unfold C. replace (m - (m - i))%nat with i by lia. rewrite Rmult_comm. unfold Rdiv. rewrite (Rmult_comm (INR (fact i))). rewrite Rmult_comm. reflexivity. }
  rewrite <- (sum_mull (S (S n)) (INR (S n))), <- (sum_mull (S n) (INR (S n))), <- (sum_mull (S n) x).
  match goal with |- sum_below _ ?f = sum_below _ ?g - _ => rewrite (sum_Sl (S n) f), (sum_Sl n g) end.
  cbn [sum_below].
  assert (forall m, C m 0 = 1) as C0.
  { intros m. unfold C. rewrite Nat.sub_0_r. cbn [fact INR]. pose proof (fact_pos m). field. lra. }
  assert (forall m, C m m = 1) as Cm.
  { intros m. rewrite <- (C0 m), <- (Csym m m) by lia. f_equal. lia. }
  rewrite !Csym by lia. replace (S n - S n)%nat with 0%nat by lia. replace (n - n)%nat with 0%nat by lia. rewrite !C0.
  assert (forall i, (i < n)%nat ->
    INR (S n) * ((-1) ^ S i * C (S n) (S n - S i) * x ^ S i / INR (fact (S i))) =
    INR (S n) * ((-1) ^ S i * C n (n - S i) * x ^ S i / INR (fact (S i))) + - (x * ((-1) ^ i * C (n + 1) (n - i) * x ^ i / INR (fact i)))) as T.
  { intros i Hi. rewrite (Csym (S n) (S i)) by lia. rewrite (Csym n (S i)) by lia.
    replace (C (n + 1) (n - i)) with (C (S n) (S i)).
    2:{ rewrite <- (Csym (S n) (S i)) by lia. f_equal; lia. }
    rewrite <- pascal by lia.
    assert (INR (S n) * C n i = INR (S i) * (C n i + C n (S i))) as E.
    { rewrite pascal by lia. unfold C. rewrite !fact_S. replace (S n - S i)%nat with (n - i)%nat by lia.
      pose proof (fact_pos i). pose proof (INR_S_pos i). pose proof (fact_pos (n - i)). field. lra. }
    rewrite fact_S. cbn [pow]. pose proof (fact_pos i). pose proof (INR_S_pos i).
    replace (C n (S i)) with (INR (S n) * C n i / INR (S i) - C n i) by (rewrite E; field; lra).
    field. lra. }
  rewrite (sum_ext n _ _ T), sum_add.
  replace (sum_below n (fun i => - (x * ((-1) ^ i * C (n + 1) (n - i) * x ^ i / INR (fact i))))) with (- sum_below n (fun i => x * ((-1) ^ i * C (n + 1) (n - i) * x ^ i / INR (fact i)))).
  2:{ rewrite <- (Rmult_1_l (sum_below n _)), <- Ropp_mult_distr_l_reverse, <- sum_mull. apply sum_ext. intros. lra. }
  rewrite Cm, (fact_S n). assert (INR (S n) * ((-1) ^ S n * 1 * x ^ S n / (INR (S n) * INR (fact n))) = - (x * ((-1) ^ n * 1 * x ^ n / INR (fact n)))) as ->.
  { pose proof (fact_pos n). pose proof (INR_S_pos n). cbn [pow]. field. lra. }
  lra.
Qed.
Lemma normal_lag n a z : normal (n + a) n z = INR (fact n) * z ^ a * genlaguerre n a (z ^ 2).
Proof.
  revert a z. induction n; intros a z.
  - rewrite lag_0. cbn [plus]. rewrite normal_sym. cbn [normal fact INR]. rewrite Ropp_involutive. lra.
  - induction a.
    + rewrite Nat.add_0_r. cbn [normal]. replace (S n - 1)%nat with n by lia.
      rewrite (normal_sym n (S n)). pose proof (IHn 1%nat (- z)) as H1. rewrite Nat.add_1_r in H1. rewrite H1.
      pose proof (IHn 0%nat z) as H0. rewrite Nat.add_0_r in H0. rewrite H0.
      replace ((- z) ^ 2) with (z ^ 2) by lra. pose proof (lag_x n (z ^ 2)) as L. rewrite fact_S. cbn [pow] in *.
      replace (INR (S n) * INR (fact n) * 1 * genlaguerre (S n) 0 (z * (z * 1))) with (INR (fact n) * (INR (S n) * genlaguerre (S n) 0 (z * (z * 1)))) by lra.
      rewrite L. lra.
    + replace (S n + S a)%nat with (S (S n + a)) by lia. cbn [normal]. rewrite IHa. replace (S n - 1)%nat with n by lia.
      replace (S n + a)%nat with (n + S a)%nat by lia. rewrite IHn, lag_pascal, fact_S. cbn [pow]. lra.
Qed.
Lemma disp_op_low z m n : (n <= m)%nat ->
  disp_op z m n = sqrt (fratio n m) * z ^ (m - n) * genlaguerre n (m - n) (z ^ 2) * exp (- (1/2) * z ^ 2).
Proof.
  intros H. unfold disp_op. replace m with (n + (m - n))%nat at 1 by lia. rewrite normal_lag. unfold fratio.
  pose proof (fact_pos m). pose proof (fact_pos n). rewrite sqrt_mult, sqrt_div_alt by lra.
  rewrite <- (sqrt_sqrt (INR (fact n))) at 1 by lra. pose proof (sqrt_lt_R0 _ H0). pose proof (sqrt_lt_R0 _ H1). field. lra.
Qed.
(** what the value routine computes *)
Lemma exp_val_op mdim A rho : displacement_exp_val mdim A rho true =
  sum_below mdim (fun m => sum_below m (fun n => 2 * rho m n * disp_op (- A) m n)) + sum_below mdim (fun m => rho m m * disp_op (- A) m m).
Proof.
  rewrite exp_val_eq. unfold plain, gauss. rewrite Rmult_plus_distr_r, <- !sum_mulr. replace (A ^ 2) with ((- A) ^ 2) by lra. f_equal.
  - apply sum_ext. intros i _. rewrite <- sum_mulr. apply sum_ext. intros j Hj. rewrite disp_op_low by lia. unfold off_term.
    replace (A ^ 2) with ((- A) ^ 2) by lra. lra.
  - apply sum_ext. intros i _. rewrite disp_op_low by lia. rewrite Nat.sub_diag. unfold fratio.
    pose proof (fact_pos i). replace (INR (fact i) / INR (fact i)) with 1 by (field; lra). rewrite sqrt_1. cbn [pow]. lra.
Qed.
Lemma exp_val_mean mdim A rho : symmetric mdim rho ->
  (displacement_exp_val mdim A rho true + displacement_exp_val mdim (- A) rho true) / 2 = expectation mdim rho (disp_op A).
Proof.
  intros S. rewrite !exp_val_op. rewrite Ropp_involutive. unfold expectation, full_dot. rewrite sum_triangle.
  rewrite (sum_ext mdim (fun m => rho m m * disp_op (- A) m m) (fun m => rho m m * disp_op A m m)) by (intros i _; rewrite (disp_op_sym A); reflexivity).
  enough (sum_below mdim (fun m => sum_below m (fun n => 2 * rho m n * disp_op (- A) m n)) + sum_below mdim (fun m => sum_below m (fun n => 2 * rho m n * disp_op A m n))
    = 2 * sum_below mdim (fun i => sum_below i (fun j => rho i j * disp_op A i j + rho j i * disp_op A j i))) by lra.
  rewrite <- sum_add, <- sum_mull. apply sum_ext. intros i Hi. rewrite <- sum_add, <- sum_mull. apply sum_ext. intros j Hj.
  rewrite (S j i) by lia. rewrite (disp_op_sym A j i). lra.
Qed.
Lemma pow_opp_even k x : Nat.Even k -> (- x) ^ k = x ^ k.
Proof. intros [j ->]. rewrite !pow_mult. replace ((- x) ^ 2) with (x ^ 2) by lra. reflexivity. Qed.
Lemma even_exp_val mdim A rho : no_odd mdim rho -> displacement_exp_val mdim (- A) rho true = displacement_exp_val mdim A rho true.
Proof.
  intros N. rewrite !exp_val_eq. unfold plain, gauss. replace ((- A) ^ 2) with (A ^ 2) by lra. f_equal. f_equal.
  apply sum_ext. intros i Hi. apply sum_ext. intros j Hj. unfold off_term. replace ((- A) ^ 2) with (A ^ 2) by lra.
  destruct (Nat.Even_or_Odd (i - j)) as [E|O]; [|rewrite N by (assumption || lia); lra].
  rewrite (pow_opp_even (i - j) (- A)) by assumption. lra.
Qed.
Lemma even_expectation mdim A rho : symmetric mdim rho -> no_odd mdim rho -> displacement_exp_val mdim A rho true = expectation mdim rho (disp_op A).
Proof. intros S N. rewrite <- exp_val_mean by assumption. rewrite even_exp_val by assumption. lra. Qed.

(** ** Dressing factors *)
Definition fc (mdim : nat) (ci : nat -> R) (F om d : R) : R :=
  if (1 <? mdim)%nat then displacement_exp_val mdim (exp F / om * d) (outer ci) true
  else exp (- (1/2) * (exp F / om * d) ^ 2).
Lemma fc_ok mdim ci F om d : FC_factor mdim ci F om d = Ok (fc mdim ci F om d).
Proof. unfold FC_factor, fc. destruct (1 <? mdim)%nat; [apply matrix_eq|reflexivity]. Qed.
Lemma outer_odd mdim ci : parity mdim ci -> no_odd mdim (outer ci).
Proof. intros P m n H O. apply P; assumption. Qed.
Lemma outer_sym mdim ci : symmetric mdim (outer ci).
Proof. intros i j _ _. unfold outer. lra. Qed.
Lemma fc_even mdim ci F om d : parity mdim ci -> fc mdim ci F om (- d) = fc mdim ci F om d.
Proof.
  intros P. unfold fc. replace (exp F / om * - d) with (- (exp F / om * d)) by lra. destruct (1 <? mdim)%nat.
  - apply even_exp_val, outer_odd, P.
  - f_equal. lra.
Qed.
Lemma fc_sym mdim ci F om eta p q : ((mdim <= 1)%nat \/ parity mdim ci) ->
  FC_factor mdim ci F om (diff1 eta 0 p q) = FC_factor mdim ci F om (diff1 eta 0 q p).
Proof.
  intros H. rewrite !fc_ok. f_equal. replace (diff1 eta 0 q p) with (- diff1 eta 0 p q) by (unfold diff1; lra).
  symmetry. apply fc_even. destruct H as [H|H]; [|exact H]. intros m n ? ?. lia.
Qed.
Lemma diff2_pair eta p q r s : diff2 eta p q r s = diff2 eta r s p q.
Proof. unfold diff2. lra. Qed.
Lemma diff2_rev eta p q r s : diff2 eta q p s r = - diff2 eta p q r s.
Proof. unfold diff2. lra. Qed.
Lemma fc_sym2 mdim ci F om eta p q r s :
  FC_factor mdim ci F om (diff2 eta p q r s) = FC_factor mdim ci F om (diff2 eta r s p q) /\
  ((mdim <= 1)%nat \/ parity mdim ci -> FC_factor mdim ci F om (diff2 eta p q r s) = FC_factor mdim ci F om (diff2 eta q p s r)).
Proof.
  split; [rewrite (diff2_pair eta p q r s); reflexivity|]. intros H. rewrite !fc_ok. f_equal. rewrite diff2_rev. apply fc_even.
  destruct H as [H|H]; [|exact H]. intros m n ? ?. lia.
Qed.
(** the two-photon example used for several refutations *)
Lemma lag_1_0 x : genlaguerre 1 0 x = 1 - x.
Proof. unfold genlaguerre, lsum, C. cbn. lra. Qed.
Lemma plain2 A pdm : plain 2 A pdm = - 2 * pdm 1%nat 0%nat * A + (pdm 0%nat 0%nat + pdm 1%nat 1%nat * (1 - A ^ 2)).
Proof.
  unfold plain. cbn [sum_below]. unfold off_term. cbn [Nat.sub]. rewrite !lag_0, lag_1_0. unfold fratio. cbn [fact plus mult INR].
  replace (1 / 1) with 1 by lra. rewrite sqrt_1. cbn [pow]. lra.
Qed.
Definition c35 (m : nat) : R := match m with O => 3/5 | _ => 4/5 end.
Lemma fc_bad : exists mdim ci F om eta p q, 0 < om /\ sum_below mdim (fun m => ci m ^ 2) = 1 /\
  FC_factor mdim ci F om (diff1 eta 0 p q) <> FC_factor mdim ci F om (diff1 eta 0 q p).
Proof.
  exists 2%nat, c35, 0, 1, INR, 1%nat, 0%nat. split; [lra|]. split; [cbn; lra|]. rewrite !fc_ok. intros E. injection E.
  unfold fc, diff1. cbn [Nat.ltb Nat.leb INR]. rewrite exp_0, !exp_val_eq, !plain2. unfold gauss.
  replace ((1 / 1 * (0 - 1 + 0)) ^ 2) with ((1 / 1 * (1 - 0 + 0)) ^ 2) by lra. unfold outer, c35.
  pose proof (exp_pos (- (1/2) * (1 / 1 * (1 - 0 + 0)) ^ 2)). set (e := exp _) in *. lra.
Qed.
Lemma kernel2 A pdm : displacement_deriv_kernel 2 A pdm =
  (2 * pdm 1%nat 0%nat * A ^ 2 - A * (pdm 0%nat 0%nat + pdm 1%nat 1%nat * (1 - A ^ 2)) - 2 * A * pdm 1%nat 1%nat) * exp (- (1/2) * A ^ 2).
Proof.
  rewrite kernel_eq, plain2. f_equal. unfold plain_deriv, missing. cbn [sum_below Nat.sub]. unfold off_deriv, lag'. cbn [Nat.sub].
  rewrite !lag_0. unfold fratio. cbn [fact plus mult INR]. replace (1 / 1) with 1 by lra. rewrite sqrt_1. cbn [pow]. lra.
Qed.
Lemma deriv_bad : exists mdim A pdm, symmetric mdim pdm /\
  ~ derivable_pt_lim (fun A => displacement_exp_val mdim A pdm true) A (displacement_deriv_kernel mdim A pdm).
Proof.
  exists 2%nat, 0, (fun i j => c35 i * c35 j). split; [intros i j _ _; lra|]. intros H.
  pose proof (uniqueness_limite _ _ _ _ H (true_derivative 2 0 (fun i j => c35 i * c35 j))) as E.
  unfold missing in E. cbn [Nat.sub sum_below] in E. rewrite lag_0 in E. unfold fratio in E. cbn [fact plus mult INR] in E.
  replace (1 / 1) with 1 in E by lra. rewrite sqrt_1 in E. replace (- (1/2) * 0 ^ 2) with 0 in E by lra. rewrite exp_0 in E. unfold c35 in E. lra.
Qed.
Lemma missing_0 mdim A pdm : (forall n, (S n < mdim)%nat -> pdm (S n) n = 0) -> missing mdim A pdm = 0.
Proof. intros H. unfold missing. rewrite sum_zero; [lra|]. intros n Hn. rewrite H by lia. lra. Qed.
Lemma kernel_ok mdim A pdm : (forall n, (S n < mdim)%nat -> pdm (S n) n = 0) ->
  derivable_pt_lim (fun A => displacement_exp_val mdim A pdm true) A (displacement_deriv_kernel mdim A pdm).
Proof. intros H. eapply deriv_ext; [reflexivity| |apply true_derivative]. rewrite missing_0 by assumption. lra. Qed.
Lemma near_term mdim A pdm : missing mdim A pdm = sum_below (mdim - 1) (fun n => 2 * pdm (S n) n / sqrt (INR (S n)) * genlaguerre n 1 (A ^ 2)).
Proof.
  unfold missing. rewrite <- sum_mull. apply sum_ext. intros n _. unfold fratio. rewrite fact_S.
  pose proof (fact_pos n). pose proof (INR_S_pos n). replace (INR (fact n) / (INR (S n) * INR (fact n))) with (/ INR (S n)) by (field; lra).
  rewrite sqrt_inv. unfold Rdiv. lra.
Qed.
(** gradient of the dressing factor with respect to the displacement *)
Lemma lin_deriv c d : derivable_pt_lim (fun d => c * d) d c.
Proof. eapply deriv_ext; [reflexivity| |apply (derivable_pt_lim_scal (fun d => d)), derivable_pt_lim_id]. lra. Qed.
Lemma fc_vac_deriv mdim ci F om d : (mdim <= 1)%nat ->
  derivable_pt_lim (fc mdim ci F om) d (gaussian_derivative_vectorized mdim ci F om d).
Proof.
  intros H. unfold gaussian_derivative_vectorized. replace (1 <? mdim)%nat with false by (symmetry; apply Nat.ltb_ge; lia).
  eapply deriv_ext with (f := fun d => exp (- (1/2) * (exp F / om * d) ^ 2)).
  - intros y. unfold fc. replace (1 <? mdim)%nat with false by (symmetry; apply Nat.ltb_ge; lia). reflexivity.
  - reflexivity.
  - eapply deriv_ext; [reflexivity| |apply (derivable_pt_lim_comp (fun d => exp F / om * d) (fun A => exp (- (1/2) * A ^ 2))); [apply lin_deriv|apply gauss_deriv]].
    lra.
Qed.
Lemma fc_scaled_deriv mdim ci F om d : (1 < mdim)%nat -> parity mdim ci ->
  derivable_pt_lim (fc mdim ci F om) d (exp F / om * gaussian_derivative_vectorized mdim ci F om d).
Proof.
  intros H P. unfold gaussian_derivative_vectorized. replace (1 <? mdim)%nat with true by (symmetry; apply Nat.ltb_lt; lia).
  eapply deriv_ext with (f := fun d => displacement_exp_val mdim (exp F / om * d) (outer ci) true).
  - intros y. unfold fc. replace (1 <? mdim)%nat with true by (symmetry; apply Nat.ltb_lt; lia). reflexivity.
  - reflexivity.
  - eapply deriv_ext; [reflexivity| |apply (derivable_pt_lim_comp (fun d => exp F / om * d) (fun A => displacement_exp_val mdim A (outer ci) true)); [apply lin_deriv|apply kernel_ok]].
    + lra.
    + intros n Hn. apply P; [lia|]. exists 0%nat. lia.
Qed.
Definition c01 (m : nat) : R := match m with 1%nat => 1 | _ => 0 end.
Lemma parity01 : parity 2 c01.
Proof. intros m n H _. assert (m = 1%nat) as -> by lia. assert (n = 0%nat) as -> by lia. cbn. lra. Qed.
Lemma fc_grad_bad : exists mdim ci F om d, 0 < om /\ sum_below mdim (fun m => ci m ^ 2) = 1 /\ parity mdim ci /\
  exists G, (forall x, FC_factor mdim ci F om x = Ok (G x)) /\
  ~ derivable_pt_lim G d (gaussian_derivative_vectorized mdim ci F om d).
Proof.
  exists 2%nat, c01, 0, 2, 2. split; [lra|]. split; [cbn; lra|]. split; [exact parity01|]. exists (fc 2 c01 0 2). split; [intros; apply fc_ok|].
  intros H. pose proof (uniqueness_limite _ _ _ _ H (fc_scaled_deriv 2 c01 0 2 2 ltac:(lia) parity01)) as E.
  unfold gaussian_derivative_vectorized in E. cbn [Nat.ltb Nat.leb] in E. rewrite exp_0, kernel2 in E. unfold outer, c01 in E.
  replace (1 / 2 * 2) with 1 in E by lra. pose proof (exp_pos (- (1/2) * 1 ^ 2)). set (e := exp _) in *. lra.
Qed.
(** gradients with respect to the squeezing and the coupling parameter *)
Lemma kernel_odd mdim A pdm : no_odd mdim pdm -> displacement_deriv_kernel mdim (- A) pdm = - displacement_deriv_kernel mdim A pdm.
Proof.
  intros N. assert (forall n, (S n < mdim)%nat -> pdm (S n) n = 0) as Z by (intros n Hn; apply N; [lia|exists 0%nat; lia]).
  pose proof (kernel_ok mdim A pdm Z) as H1. pose proof (kernel_ok mdim (- A) pdm Z) as H2.
  assert (derivable_pt_lim (fun A => displacement_exp_val mdim A pdm true) A (displacement_deriv_kernel mdim (- A) pdm * -1)) as H3.
  { eapply deriv_ext with (f := fun A => displacement_exp_val mdim (- A) pdm true); [intros; apply even_exp_val, N|reflexivity|].
    apply (derivable_pt_lim_comp (fun A => - A) (fun A => displacement_exp_val mdim A pdm true)); [|exact H2].
    eapply deriv_ext; [reflexivity| |apply (derivable_pt_lim_opp (fun A => A)), derivable_pt_lim_id]. lra. }
  pose proof (uniqueness_limite _ _ _ _ H1 H3). lra.
Qed.
Lemma fc_sq_deriv mdim ci F om d : ((mdim <= 1)%nat \/ parity mdim ci) ->
  derivable_pt_lim (fun F => fc mdim ci F om d) F (gaussian_derivative_sq mdim ci F om (- d)).
Proof.
  intros H. unfold gaussian_derivative_sq.
  assert (derivable_pt_lim (fun F => exp F / om * d) F (exp F / om * d)) as L.
  { eapply deriv_ext with (f := fun F => (d / om) * exp F); [intros; unfold Rdiv; lra| |apply (derivable_pt_lim_scal exp), derivable_pt_lim_exp]. unfold Rdiv. lra. }
  destruct (1 <? mdim)%nat eqn:M.
  - apply Nat.ltb_lt in M. destruct H as [H|P]; [lia|].
    eapply deriv_ext with (f := fun F => displacement_exp_val mdim (exp F / om * d) (outer ci) true).
    { intros y. unfold fc. apply Nat.ltb_lt in M. rewrite M. reflexivity. } { reflexivity. }
    eapply deriv_ext; [reflexivity| |apply (derivable_pt_lim_comp (fun F => exp F / om * d) (fun A => displacement_exp_val mdim A (outer ci) true)); [exact L|apply kernel_ok]].
    + unfold displacement_deriv_vt. replace (exp F / om * - d) with (- (exp F / om * d)) by lra. rewrite kernel_odd by (apply outer_odd; exact P). lra.
    + intros n Hn. apply P; [lia|]. exists 0%nat. lia.
  - eapply deriv_ext with (f := fun F => exp (- (1/2) * (exp F / om * d) ^ 2)).
    { intros y. unfold fc. rewrite M. reflexivity. } { reflexivity. }
    eapply deriv_ext; [reflexivity| |apply (derivable_pt_lim_comp (fun F => exp F / om * d) (fun A => exp (- (1/2) * A ^ 2))); [exact L|apply gauss_deriv]].
    replace (exp F / om * - d) with (- (exp F / om * d)) by lra. set (A := exp F / om * d). replace ((- A) ^ 2) with (A ^ 2) by lra. lra.
Qed.
Lemma fc_f_deriv mdim ci F om f x : f <> 0 -> ((mdim <= 1)%nat \/ parity mdim ci) ->
  derivable_pt_lim (fun f => fc mdim ci F om (f * x)) f (gaussian_derivative_f mdim ci F om f (f * x)).
Proof.
  intros Hf H. unfold gaussian_derivative_f.
  assert (derivable_pt_lim (fun f => exp F / om * (f * x)) f (exp F / om * x)) as L.
  { eapply deriv_ext with (f := fun f => (exp F / om * x) * f); [intros; lra| |apply lin_deriv]. lra. }
  destruct (1 <? mdim)%nat eqn:M.
  - apply Nat.ltb_lt in M. destruct H as [H|P]; [lia|].
    eapply deriv_ext with (f := fun f => displacement_exp_val mdim (exp F / om * (f * x)) (outer ci) true).
    { intros y. unfold fc. apply Nat.ltb_lt in M. rewrite M. reflexivity. } { reflexivity. }
    eapply deriv_ext; [reflexivity| |apply (derivable_pt_lim_comp (fun f => exp F / om * (f * x)) (fun A => displacement_exp_val mdim A (outer ci) true)); [exact L|apply kernel_ok]].
    + unfold displacement_deriv_vt. unfold Rdiv. set (k := displacement_deriv_kernel _ _ _). replace (k * (exp F * / om * (f * x)) * / f) with (k * (exp F * / om * x) * (f * / f)) by lra. rewrite Rinv_r by assumption. lra.
    + intros n Hn. apply P; [lia|]. exists 0%nat. lia.
  - eapply deriv_ext with (f := fun f => exp (- (1/2) * (exp F / om * (f * x)) ^ 2)).
    { intros y. unfold fc. rewrite M. reflexivity. } { reflexivity. }
    eapply deriv_ext; [reflexivity| |apply (derivable_pt_lim_comp (fun f => exp F / om * (f * x)) (fun A => exp (- (1/2) * A ^ 2))); [exact L|apply gauss_deriv]].
    set (e := exp (- (1/2) * _)). unfold Rdiv. replace (- e * (exp F * / om * (f * x)) ^ 2 * / f) with (- e * ((exp F * / om) * x) * (exp F * / om * (f * x)) * (f * / f)) by ring. rewrite Rinv_r by assumption. ring.
Qed.

(** ** Zero displacement *)
Lemma lag_at_0 n : genlaguerre n 0 0 = 1.
Proof.
  rewrite lag_sum, sum_Sl. rewrite sum_zero.
  - rewrite Nat.add_0_r, Nat.sub_0_r. unfold C. rewrite Nat.sub_diag. cbn [pow fact INR]. pose proof (fact_pos n). field. lra.
  - intros i _. cbn [pow]. unfold Rdiv. lra.
Qed.
Lemma fc_zero mdim ci F om : (1 < mdim)%nat -> FC_factor mdim ci F om 0 = Ok (sum_below mdim (fun m => ci m ^ 2)).
Proof.
  intros H. rewrite fc_ok. f_equal. unfold fc. replace (1 <? mdim)%nat with true by (symmetry; apply Nat.ltb_lt; lia).
  rewrite Rmult_0_r, exp_val_eq. unfold gauss, plain. replace (- (1/2) * 0 ^ 2) with 0 by lra. rewrite exp_0, Rmult_1_r.
  rewrite sum_zero.
  - rewrite Rplus_0_l. apply sum_ext. intros i _. replace (0 ^ 2) with 0 by lra. rewrite lag_at_0. unfold outer. lra.
  - intros i _. apply sum_zero. intros j Hj. unfold off_term. rewrite Ropp_0, pow_i by lia. lra.
Qed.
Lemma fc_zero_vac mdim ci F om : (mdim <= 1)%nat -> FC_factor mdim ci F om 0 = Ok 1.
Proof.
  intros H. unfold FC_factor. replace (1 <? mdim)%nat with false by (symmetry; apply Nat.ltb_ge; lia).
  rewrite Rmult_0_r. replace (- (1/2) * 0 ^ 2) with 0 by lra. rewrite exp_0. reflexivity.
Qed.
(** ** Bosonic Hamiltonian *)
Lemma offset_S ns k : (k < List.length ns)%nat -> offset ns (S k) = (offset ns k + nth k ns 0)%nat.
Proof.
  revert k. induction ns; intros k H; cbn [List.length] in H; [lia|]. destruct k; [destruct ns; cbn; lia|].
  change (offset (a :: ns) (S (S k))) with (a + offset ns (S k))%nat. rewrite IHns by lia. cbn [offset nth]. lia.
Qed.
Lemma offset_mono ns a b : (a <= b)%nat -> (b <= List.length ns)%nat -> (offset ns a <= offset ns b)%nat.
Proof. induction 1; intros L; [lia|]. rewrite offset_S by lia. specialize (IHle ltac:(lia)). lia. Qed.
Lemma offset_sum ns a : offset ns a = nsum (firstn a ns).
Proof. revert ns. induction a; intros ns; [destruct ns; reflexivity|]. destruct ns; [reflexivity|]. cbn. rewrite IHa. reflexivity. Qed.
Lemma ham_block_eq om z F i j : ham_block om z F i j = mode_hamiltonian om z F i j.
Proof.
  unfold ham_block, mode_hamiltonian. destruct (Nat.eqb_spec i j) as [->|N].
  - replace (j =? S j)%nat with false by (symmetry; apply Nat.eqb_neq; lia). lra.
  - destruct (Nat.eqb_spec j (S i)) as [A|A], (Nat.eqb_spec i (S j)) as [B|B]; try lia; try rewrite A; try rewrite B; lra.
Qed.
Definition block_of (ns : list nat) (a i : nat) : Prop := (offset ns a <= i < offset ns a + nth a ns 0)%nat.
Lemma ham_fold ns om za Fa : List.length om = List.length ns -> List.length za = List.length ns -> List.length Fa = List.length ns ->
  forall k, (k <= List.length ns)%nat -> exists H,
  fold_left (ham_step ns om za Fa) (seq 0 k) (Ok (fun _ _ => 0, 0%nat)) = Ok (H, offset ns k) /\
  (forall a i j, (a < k)%nat -> (i < nth a ns 0)%nat -> (j < nth a ns 0)%nat ->
     H (offset ns a + i)%nat (offset ns a + j)%nat = mode_hamiltonian (nth a om 0) (nth a za 0) (nth a Fa 0) i j) /\
  (forall i j, (forall a, (a < k)%nat -> block_of ns a i -> block_of ns a j -> False) -> H i j = 0).
Proof.
  intros L1 L2 L3. induction k; intros Hk.
  - exists (fun _ _ => 0). split; [destruct ns; reflexivity|]. split; [intros; lia|reflexivity].
  - destruct IHk as (H & E & B & Z); [lia|]. rewrite seq_S, fold_left_app, E. cbn [fold_left plus]. unfold ham_step. cbn [rbind].
    rewrite (index_ok ns k 0%nat), (index_ok Fa k 0), (index_ok om k 0), (index_ok za k 0) by lia. cbn [rbind].
    eexists. split; [rewrite offset_S by lia; reflexivity|]. split.
    + intros a i j Ha Hi Hj. unfold set_block. destruct (Nat.eq_dec a k) as [->|].
      * replace (offset ns k <=? offset ns k + i)%nat with true by (symmetry; apply Nat.leb_le; lia).
        replace (offset ns k <=? offset ns k + j)%nat with true by (symmetry; apply Nat.leb_le; lia).
        replace (offset ns k + i <? offset ns k + nth k ns 0)%nat with true by (symmetry; apply Nat.ltb_lt; lia).
        replace (offset ns k + j <? offset ns k + nth k ns 0)%nat with true by (symmetry; apply Nat.ltb_lt; lia). cbn [andb].
        replace (offset ns k + i - offset ns k)%nat with i by lia. replace (offset ns k + j - offset ns k)%nat with j by lia. apply ham_block_eq.
      * pose proof (offset_mono ns (S a) k ltac:(lia) ltac:(lia)) as M. rewrite offset_S in M by lia.
        replace (offset ns k <=? offset ns a + i)%nat with false by (symmetry; apply Nat.leb_gt; lia). cbn [andb]. apply B; lia.
    + intros i j N. unfold set_block.
      destruct ((offset ns k <=? i)%nat && (i <? offset ns k + nth k ns 0)%nat && (offset ns k <=? j)%nat && (j <? offset ns k + nth k ns 0)%nat) eqn:Q.
      * exfalso. apply andb_prop in Q as [Q Q4]. apply andb_prop in Q as [Q Q3]. apply andb_prop in Q as [Q1 Q2].
        apply Nat.leb_le in Q1, Q3. apply Nat.ltb_lt in Q2, Q4. apply (N k); unfold block_of; lia.
      * apply Z. intros a Ha. apply N. lia.
Qed.
Lemma block_disjoint ns a b i : (a < List.length ns)%nat -> (b < List.length ns)%nat -> block_of ns a i -> block_of ns b i -> a = b.
Proof.
  unfold block_of. intros La Lb Ha Hb. destruct (Nat.lt_trichotomy a b) as [H|[H|H]]; [|assumption|].
  - pose proof (offset_mono ns (S a) b ltac:(lia) ltac:(lia)) as M. rewrite offset_S in M by lia. lia.
  - pose proof (offset_mono ns (S b) a ltac:(lia) ltac:(lia)) as M. rewrite offset_S in M by lia. lia.
Qed.
Lemma ham_ok ns om za Fa : List.length om = List.length ns -> List.length za = List.length ns -> List.length Fa = List.length ns ->
  exists H, get_bosonic_Ham (List.length ns) ns om za Fa = Ok H /\
  (forall a b i j, (a < List.length ns)%nat -> (b < List.length ns)%nat -> (i < nth a ns 0)%nat -> (j < nth b ns 0)%nat ->
     H (offset ns a + i)%nat (offset ns b + j)%nat =
     if (a =? b)%nat then mode_hamiltonian (nth a om 0) (nth a za 0) (nth a Fa 0) i j else 0) /\
  forall i j, H i j = H j i.
Proof.
  intros L1 L2 L3. destruct (ham_fold ns om za Fa L1 L2 L3 (List.length ns) ltac:(lia)) as (H & E & B & Z).
  exists H. unfold get_bosonic_Ham. rewrite E. split; [reflexivity|].
  assert (forall om z F i j, mode_hamiltonian om z F i j = mode_hamiltonian om z F j i) as MS.
  { intros. unfold mode_hamiltonian. rewrite (Nat.eqb_sym j i). destruct (Nat.eqb_spec i j) as [->|]; [reflexivity|].
    destruct (Nat.eqb_spec j (S i)), (Nat.eqb_spec i (S j)); try lia; reflexivity. }
  split.
  - intros a b i j Ha Hb Hi Hj. destruct (Nat.eqb_spec a b) as [->|N]; [apply B; lia|].
    apply Z. intros c Hc B1 B2. assert (c = a) by (apply (block_disjoint ns c a (offset ns a + i)); unfold block_of; try lia; assumption).
    assert (c = b) by (apply (block_disjoint ns c b (offset ns b + j)); unfold block_of; try lia; assumption). lia.
  - intros i j.
    assert ((exists a, (a < List.length ns)%nat /\ block_of ns a i /\ block_of ns a j) \/ (forall a, (a < List.length ns)%nat -> block_of ns a i -> block_of ns a j -> False)) as [(a & Ha & B1 & B2)|N].
    { clear. generalize (List.length ns). induction n as [|n IH]; [right; intros; lia|]. destruct IH as [(a & H)|N]; [left; exists a; intuition lia|].
      destruct (le_dec (offset ns n) i), (lt_dec i (offset ns n + nth n ns 0)%nat), (le_dec (offset ns n) j), (lt_dec j (offset ns n + nth n ns 0)%nat);
      try (left; exists n; unfold block_of; intuition lia); right; intros a Ha B1 B2; (destruct (Nat.eq_dec a n) as [->|]; [unfold block_of in *; lia|apply (N a); [lia|assumption|assumption]]). }
    + unfold block_of in *. replace i with (offset ns a + (i - offset ns a))%nat by lia. replace j with (offset ns a + (j - offset ns a))%nat by lia.
      rewrite !B by lia. apply MS.
    + rewrite !Z; [reflexivity| |]; intros a Ha B1 B2; apply (N a); assumption.
Qed.
Lemma mode_plain om i j : mode_hamiltonian om 0 0 i j = if (i =? j)%nat then INR i * om else 0.
Proof.
  unfold mode_hamiltonian. rewrite Rmult_0_r, cosh_0, sinh_0. destruct (i =? j)%nat; [cbn [pow]; lra|].
  destruct (j =? S i)%nat; [lra|]. destruct (i =? S j)%nat; lra.
Qed.
Lemma ham_short k ns om za Fa : (List.length ns < k)%nat -> get_bosonic_Ham k ns om za Fa = Err IndexError.
Proof.
  intros H. unfold get_bosonic_Ham.
  assert (forall e l, fold_left (ham_step ns om za Fa) l (Err e) = Err e) as Ferr by (intros e l; induction l; [reflexivity|exact IHl]).
  assert (forall m, (m <= k)%nat -> (exists s, fold_left (ham_step ns om za Fa) (seq 0 m) (Ok (fun _ _ => 0, 0%nat)) = Ok s) \/
     fold_left (ham_step ns om za Fa) (seq 0 m) (Ok (fun _ _ => 0, 0%nat)) = Err IndexError) as X.
  { induction m; intros Hm; [left; eexists; reflexivity|]. rewrite seq_S, fold_left_app. cbn [plus fold_left].
    destruct IHm as [[[h o] E]|E]; [lia| |]; rewrite E; [|right; reflexivity]. unfold ham_step. cbn [rbind].
    unfold index. destruct (nth_error ns m); [|right; reflexivity]. cbn [rbind]. destruct (nth_error Fa m); [|right; reflexivity]. cbn [rbind].
    destruct (nth_error om m); [|right; reflexivity]. cbn [rbind]. destruct (nth_error za m); [|right; reflexivity]. cbn [rbind]. left. eexists. reflexivity. }
  set (n := List.length ns) in *. replace (seq 0 k) with (seq 0 n ++ n :: seq (S n) (k - S n)).
  2:{ change (n :: seq (S n) (k - S n)) with (seq n (S (k - S n))). rewrite <- seq_app. f_equal. lia. }
  rewrite fold_left_app. destruct (X n ltac:(lia)) as [[[h o] E]|E]; rewrite E; [|rewrite Ferr; reflexivity].
  cbn [fold_left]. unfold ham_step at 2. cbn [rbind]. rewrite (index_err ns n) by (unfold n; lia). cbn [rbind]. rewrite Ferr. reflexivity.
Qed.
(** ** Two modes: the dressing factor of the second vanishes *)
Lemma ham_two : exists H, get_bosonic_Ham 2 [2; 2]%nat [1; 2] [0; 0] [0; 0] = Ok H /\
  forall i j, (i < 4)%nat -> (j < 4)%nat -> H i j = if (i =? j)%nat then nth i [0; 1; 0; 2] 0 else 0.
Proof.
  destruct (ham_ok [2; 2]%nat [1; 2] [0; 0] [0; 0] eq_refl eq_refl eq_refl) as (H & E & B & _). exists H. split; [exact E|].
  intros i j Hi Hj.
  assert (forall k, (k < 4)%nat -> exists a r, (a < 2)%nat /\ (r < nth a [2; 2] 0)%nat /\ k = (offset [2; 2] a + r)%nat) as S.
  { intros [|[|[|[|]]]] L; [exists 0%nat, 0%nat|exists 0%nat, 1%nat|exists 1%nat, 0%nat|exists 1%nat, 1%nat|lia]; cbn; lia. }
  destruct (S i Hi) as (a & r & Ha & Hr & ->), (S j Hj) as (b & t & Hb & Ht & ->). rewrite B by (assumption || cbn [List.length]; lia).
  destruct a as [|[|]]; try lia; destruct b as [|[|]]; try lia; cbn [nth] in Hr, Ht; destruct r as [|[|]]; try lia; destruct t as [|[|]]; try lia;
  cbn [Nat.eqb offset Nat.add]; rewrite ?mode_plain; cbn [Nat.eqb nth INR]; lra.
Qed.
Lemma diag_eigen e c : is_eigh 4 (fun i j => if (i =? j)%nat then nth i [0; 1; 0; 2] 0 else 0) e c ->
  forall m, (m < 2)%nat -> c (2 + m)%nat 2%nat = 0.
Proof.
  intros (HE & HC & HR & HO).
  assert (forall i k, (i < 4)%nat -> (k < 4)%nat -> (nth i [0; 1; 0; 2] 0 - e k) * c i k = 0) as D.
  { intros i k Hi Hk. pose proof (HE i k Hi Hk) as Q. cbn [sum_below] in Q. destruct i as [|[|[|[|]]]]; try lia; cbn [Nat.eqb nth] in *; lra. }
  (* each eigenvalue is 0, 1 or 2 *)
  assert (forall k, (k < 4)%nat -> e k = 0 \/ e k = 1 \/ e k = 2) as V.
  { intros k Hk. pose proof (HC k k Hk Hk) as N. rewrite Nat.eqb_refl in N. cbn [sum_below] in N.
    pose proof (D 0%nat k ltac:(lia) Hk) as D0. pose proof (D 1%nat k ltac:(lia) Hk) as D1. pose proof (D 2%nat k ltac:(lia) Hk) as D2. pose proof (D 3%nat k ltac:(lia) Hk) as D3.
    cbn [nth] in *. apply Rmult_integral in D0, D1, D2, D3.
    destruct D0 as [D0|D0]; [left; lra|]. destruct D1 as [D1|D1]; [right; left; lra|]. destruct D2 as [D2|D2]; [left; lra|]. destruct D3 as [D3|D3]; [right; right; lra|].
    rewrite D0, D1, D2, D3 in N. lra. }
  (* trace of H and of H^2 *)
  assert (forall k, (k < 4)%nat -> e k = c 1%nat k ^ 2 + 2 * c 3%nat k ^ 2) as T1.
  { intros k Hk. pose proof (HC k k Hk Hk) as N. rewrite Nat.eqb_refl in N. cbn [sum_below] in N.
    pose proof (D 0%nat k ltac:(lia) Hk) as D0. pose proof (D 1%nat k ltac:(lia) Hk) as D1. pose proof (D 2%nat k ltac:(lia) Hk) as D2. pose proof (D 3%nat k ltac:(lia) Hk) as D3.
    cbn [nth] in *. replace (e k) with (e k * (0 + c 0%nat k * c 0%nat k + c 1%nat k * c 1%nat k + c 2%nat k * c 2%nat k + c 3%nat k * c 3%nat k)) by (rewrite N; lra).
    replace (e k * (0 + c 0%nat k * c 0%nat k + c 1%nat k * c 1%nat k + c 2%nat k * c 2%nat k + c 3%nat k * c 3%nat k))
      with (c 1%nat k ^ 2 + 2 * c 3%nat k ^ 2 - c 0%nat k * ((0 - e k) * c 0%nat k) - c 1%nat k * ((1 - e k) * c 1%nat k) - c 2%nat k * ((0 - e k) * c 2%nat k) - c 3%nat k * ((2 - e k) * c 3%nat k)) by ring.
    rewrite D0, D1, D2, D3. ring. }
  assert (e 0%nat + e 1%nat + e 2%nat + e 3%nat = 3) as TR.
  { pose proof (HR 1%nat 1%nat ltac:(lia) ltac:(lia)) as R1. pose proof (HR 3%nat 3%nat ltac:(lia) ltac:(lia)) as R3. cbn [sum_below Nat.eqb] in R1, R3. rewrite !T1 by lia. lra. }
  assert (forall k, (k < 4)%nat -> e k ^ 2 = c 1%nat k ^ 2 + 4 * c 3%nat k ^ 2) as T2.
  { intros k Hk. pose proof (T1 k Hk) as Q. pose proof (D 1%nat k ltac:(lia) Hk) as D1. pose proof (D 3%nat k ltac:(lia) Hk) as D3. cbn [nth] in *.
    replace (e k ^ 2) with (e k * (c 1%nat k ^ 2 + 2 * c 3%nat k ^ 2)) by (rewrite <- Q; ring).
    replace (e k * (c 1%nat k ^ 2 + 2 * c 3%nat k ^ 2)) with (c 1%nat k ^ 2 + 4 * c 3%nat k ^ 2 - c 1%nat k * ((1 - e k) * c 1%nat k) - 2 * c 3%nat k * ((2 - e k) * c 3%nat k)) by ring.
    rewrite D1, D3. ring. }
  assert (e 0%nat ^ 2 + e 1%nat ^ 2 + e 2%nat ^ 2 + e 3%nat ^ 2 = 5) as TR2.
  { pose proof (HR 1%nat 1%nat ltac:(lia) ltac:(lia)) as R1. pose proof (HR 3%nat 3%nat ltac:(lia) ltac:(lia)) as R3. cbn [sum_below Nat.eqb] in R1, R3. rewrite !T2 by lia. lra. }
  pose proof (HO 0%nat 1%nat ltac:(lia) ltac:(lia)). pose proof (HO 1%nat 2%nat ltac:(lia) ltac:(lia)). pose proof (HO 2%nat 3%nat ltac:(lia) ltac:(lia)).
  assert (e 2%nat = 1) as E2.
  { destruct (V 0%nat) as [Q0|[Q0|Q0]], (V 1%nat) as [Q1|[Q1|Q1]], (V 2%nat) as [Q2|[Q2|Q2]], (V 3%nat) as [Q3|[Q3|Q3]]; try lia; rewrite Q0, Q1, Q2, Q3 in *; lra. }
  intros m Hm. pose proof (D 2%nat 2%nat ltac:(lia) ltac:(lia)) as A2. pose proof (D 3%nat 2%nat ltac:(lia) ltac:(lia)) as A3. cbn [nth] in *. rewrite E2 in *.
  destruct m as [|[|]]; [| |lia]; cbn [Nat.add]; lra.
Qed.
Lemma exp_val_null mdim A ci s : (forall m, (m < mdim)%nat -> ci m = 0) -> displacement_exp_val mdim A (outer ci) s = 0.
Proof.
  intros Z. rewrite exp_val_eq. unfold plain. rewrite !sum_zero; [lra| |].
  - intros i Hi. unfold outer. rewrite Z by lia. lra.
  - intros i Hi. apply sum_zero. intros j Hj. unfold off_term, outer. rewrite (Z i) by lia. lra.
Qed.
Lemma second_mode : exists nboson omega za Fa H, get_bosonic_Ham 2 nboson omega za Fa = Ok H /\
  forall e c, is_eigh 4 H e c -> forall d, FC_factor 2 (mode_coeff nboson c 1) 0 2 d = Ok 0.
Proof.
  destruct ham_two as (H & E & HD). exists [2; 2]%nat, [1; 2], [0; 0], [0; 0], H. split; [exact E|]. intros e c Ec d.
  assert (is_eigh 4 (fun i j => if (i =? j)%nat then nth i [0; 1; 0; 2] 0 else 0) e c) as Ec'.
  { destruct Ec as (A1 & A2 & A3 & A4). split; [|auto]. intros i k Hi Hk. rewrite <- A1 by lia. apply sum_ext. intros j Hj. rewrite HD by lia. reflexivity. }
  rewrite fc_ok. unfold fc. cbn [Nat.ltb Nat.leb]. f_equal. apply exp_val_null. intros m Hm. unfold mode_coeff. cbn [firstn nsum].
  apply (diag_eigen e c Ec' m Hm).
Qed.
Lemma one_mode n H e c F om : (1 < n)%nat -> is_eigh n H e c -> FC_factor n (mode_coeff [n] c 0) F om 0 = Ok 1.
Proof.
  intros Hn (_ & HC & _). rewrite fc_zero by lia. f_equal. pose proof (HC 0%nat 0%nat ltac:(lia) ltac:(lia)) as N. cbn [Nat.eqb] in N. rewrite <- N.
  apply sum_ext. intros i _. unfold mode_coeff. cbn [firstn nsum Nat.add]. lra.
Qed.
(** ** Photon energy *)
Lemma cosh_double F : cosh (2 * F) = 1 + 2 * sinh F ^ 2.
Proof.
  unfold cosh, sinh. replace (2 * F) with (F + F) by lra. replace (- (F + F)) with (- F + - F) by lra. rewrite !exp_plus.
  assert (exp F * exp (- F) = 1) as E by (rewrite <- exp_plus; replace (F + - F) with 0 by lra; apply exp_0).
  replace (1 + 2 * ((exp F - exp (- F)) / 2) ^ 2) with (1 + (exp F * exp F + exp (- F) * exp (- F) - 2 * (exp F * exp (- F))) / 2) by field.
  rewrite E. lra.
Qed.
Lemma mode_energy_eq c idx mdim om z F : mode_energy c idx mdim om F =
  sum_below mdim (fun m => c (idx + m)%nat ^ 2 * mode_hamiltonian om z F m m).
Proof.
  unfold mode_energy. rewrite sumn_below, <- sum_mull. apply sum_ext. intros m _. unfold mode_hamiltonian. rewrite Nat.eqb_refl, cosh_double. lra.
Qed.
Lemma sum_split n m f : sum_below (n + m) f = sum_below n f + sum_below m (fun i => f (n + i)%nat).
Proof. induction m; [rewrite Nat.add_0_r; cbn; lra|]. rewrite Nat.add_succ_r. cbn [sum_below]. rewrite IHm. lra. Qed.
Fixpoint zip3 (ns : list nat) (om Fa : list R) : list (nat * R * R) :=
  match ns, om, Fa with n :: a, x :: b, y :: c => (n, x, y) :: zip3 a b c | _, _, _ => [] end.
Lemma energy_sum c H z : forall ns om Fa idx, List.length om = List.length ns -> List.length Fa = List.length ns ->
  (forall a i, (a < List.length ns)%nat -> (i < nth a ns 0)%nat ->
    H (idx + offset ns a + i)%nat = mode_hamiltonian (nth a om 0) z (nth a Fa 0) i i) ->
  photon_energy c idx (zip3 ns om Fa) = sum_below (offset ns (List.length ns)) (fun i => c (idx + i)%nat ^ 2 * H (idx + i)%nat).
Proof.
  induction ns; intros om Fa idx L1 L2 HH; [destruct om; reflexivity|].
  destruct om as [|o om]; [discriminate|]. destruct Fa as [|f Fa]; [discriminate|]. cbn [zip3 photon_energy List.length offset].
  rewrite sum_split, (mode_energy_eq c idx a o z f). f_equal.
  - apply sum_ext. intros i Hi. specialize (HH 0%nat i ltac:(cbn; lia) Hi). cbn [offset nth] in HH. rewrite Nat.add_0_r in HH. rewrite HH. reflexivity.
  - rewrite (IHns om Fa (idx + a)%nat); [|cbn in L1; lia|cbn in L2; lia|].
    + apply sum_ext. intros i _. rewrite Nat.add_assoc. reflexivity.
    + intros b i Hb Hi. specialize (HH (S b) i ltac:(cbn; lia) Hi). cbn [offset nth] in HH. rewrite <- HH. f_equal. lia.
Qed.
Lemma mode_ham_diag om z z' F i : mode_hamiltonian om z F i i = mode_hamiltonian om z' F i i.
Proof. unfold mode_hamiltonian. rewrite Nat.eqb_refl. reflexivity. Qed.
Lemma energy_ok c ns om za Fa H : List.length om = List.length ns -> List.length za = List.length ns -> List.length Fa = List.length ns ->
  get_bosonic_Ham (List.length ns) ns om za Fa = Ok H ->
  photon_energy c 0 (zip3 ns om Fa) = sum_below (offset ns (List.length ns)) (fun i => c i ^ 2 * H i i).
Proof.
  intros L1 L2 L3 E. destruct (ham_ok ns om za Fa L1 L2 L3) as (H' & E' & B & _). rewrite E in E'. injection E' as <-.
  rewrite (energy_sum c (fun i => H i i) 0 ns om Fa 0 L1 L3); [reflexivity|].
  intros a i Ha Hi. rewrite Nat.add_0_l, B, Nat.eqb_refl by lia. apply mode_ham_diag.
Qed.
Lemma cosh2_deriv F : derivable_pt_lim (fun F => cosh (2 * F)) F (sinh (2 * F) * 2).
Proof. apply (derivable_pt_lim_comp (fun F => 2 * F) cosh); [apply lin_deriv|apply derivable_pt_lim_cosh]. Qed.
Lemma mode_energy_deriv c idx mdim om F : derivable_pt_lim (mode_energy c idx mdim om) F (mode_grad c idx mdim om F).
Proof.
  unfold mode_grad. eapply deriv_ext with (f := fun F => om * sum_below mdim (fun m => c (idx + m)%nat * c (idx + m)%nat * ((INR m + / 2) * cosh (2 * F) - / 2))).
  - intros y. unfold mode_energy. rewrite sumn_below. reflexivity.
  - reflexivity.
  - rewrite sumn_below. apply (derivable_pt_lim_scal (fun F => sum_below mdim _)).
    apply (deriv_sum mdim (fun m F => c (idx + m)%nat * c (idx + m)%nat * ((INR m + / 2) * cosh (2 * F) - / 2)) (fun m F => c (idx + m)%nat * c (idx + m)%nat * ((INR m + / 2) * sinh (2 * F) * 2))).
    intros m _. apply (derivable_pt_lim_scal (fun F => (INR m + / 2) * cosh (2 * F) - / 2)).
    eapply deriv_ext; [reflexivity| |apply (derivable_pt_lim_minus (fun F => (INR m + / 2) * cosh (2 * F)) (fun _ => / 2)); [apply (derivable_pt_lim_scal (fun F => cosh (2 * F))), cosh2_deriv|apply derivable_pt_lim_const]].
    lra.
Qed.
Lemma energy_grad c : forall ns om Fa idx a, List.length om = List.length ns -> List.length Fa = List.length ns -> (a < List.length ns)%nat ->
  derivable_pt_lim (fun F => photon_energy c idx (zip3 ns om (upd Fa a F))) (nth a Fa 0) (nth a (photon_grad c idx (zip3 ns om Fa)) 0).
Proof.
  induction ns; intros om Fa idx k L1 L2 Hk; cbn [List.length] in *; [lia|].
  destruct om as [|o om]; [discriminate|]. destruct Fa as [|f Fa]; [discriminate|]. destruct k.
  - cbn [zip3 upd nth photon_energy photon_grad]. eapply deriv_ext; [reflexivity| |apply (derivable_pt_lim_plus (mode_energy c idx a o) (fun _ => photon_energy c (idx + a) (zip3 ns om Fa))); [apply mode_energy_deriv|apply derivable_pt_lim_const]]. lra.
  - cbn [zip3 upd nth photon_energy photon_grad]. eapply deriv_ext; [reflexivity| |apply (derivable_pt_lim_plus (fun _ => mode_energy c idx a o f) (fun F => photon_energy c (idx + a) (zip3 ns om (upd Fa k F)))); [apply derivable_pt_lim_const|apply IHns; cbn in *; lia]]. lra.
Qed.
(** ** Photon number distribution *)
Lemma amp_sq z m : fock_amp z m * fock_amp z m = exp (- z ^ 2) * z ^ (2 * m) * INR (fact m).
Proof.
  unfold fock_amp. replace (exp (- z ^ 2)) with (exp (- (1/2) * z ^ 2) * exp (- (1/2) * z ^ 2)) by (rewrite <- exp_plus; f_equal; lra).
  replace (2 * m)%nat with (m + m)%nat by lia. rewrite pow_add. pose proof (fact_pos m). rewrite <- (sqrt_sqrt (INR (fact m))) at 3 by lra. ring.
Qed.
Lemma sum_pos n f : (forall i, (i < n)%nat -> 0 <= f i) -> 0 < f 0%nat -> (0 < n)%nat -> 0 < sum_below n f.
Proof.
  intros H H0 Hn. destruct n; [lia|]. rewrite sum_Sl. assert (forall m g, (forall i, (i < m)%nat -> 0 <= g i) -> 0 <= sum_below m g) as P.
  { clear. induction m; intros g H; cbn [sum_below]; [lra|]. specialize (IHm g). pose proof (H m ltac:(lia)). assert (0 <= sum_below m g) by (apply IHm; intros; apply H; lia). lra. }
  pose proof (P n (fun i => f (S i)) ltac:(intros; apply H; lia)). lra.
Qed.
Lemma pow_even_pos z m : 0 <= z ^ (2 * m).
Proof. rewrite pow_mult. apply pow_le. pose proof (pow2_ge_0 z). lra. Qed.
Lemma rho_b_diag tr z nfock m : tr <> 0 -> (0 < nfock)%nat ->
  rho_b tr z nfock m m = z ^ (2 * m) * INR (fact m) / sum_below nfock (fun k => z ^ (2 * k) * INR (fact k)).
Proof.
  intros Ht Hn. unfold rho_b. rewrite sumn_below.
  rewrite (sum_ext nfock _ (fun k => (tr * exp (- z ^ 2)) * (z ^ (2 * k) * INR (fact k)))) by (intros i _; rewrite Rmult_assoc, amp_sq; ring).
  rewrite sum_mull, Rmult_assoc, amp_sq. pose proof (exp_pos (- z ^ 2)).
  assert (0 < sum_below nfock (fun k => z ^ (2 * k) * INR (fact k))).
  { apply sum_pos; [|cbn; lra|assumption]. intros i _. pose proof (pow_even_pos z i). pose proof (fact_pos i). nra. }
  field. lra.
Qed.
Lemma trunc_poisson z n m : (0 < n)%nat -> truncated_poisson z n m = (z ^ (2 * m) / INR (fact m)) / sum_below n (fun k => z ^ (2 * k) / INR (fact k)).
Proof.
  intros Hn. unfold truncated_poisson, poisson.
  rewrite (sum_ext n (fun k => exp (- z ^ 2) * z ^ (2 * k) / INR (fact k)) (fun k => exp (- z ^ 2) * (z ^ (2 * k) / INR (fact k)))) by (intros; unfold Rdiv; ring).
  rewrite sum_mull. pose proof (exp_pos (- z ^ 2)). pose proof (fact_pos m).
  assert (0 < sum_below n (fun k => z ^ (2 * k) / INR (fact k))).
  { apply sum_pos; [|cbn; lra|assumption]. intros i _. pose proof (pow_even_pos z i). pose proof (fact_pos i). apply Rmult_le_pos; [lra|]. left. apply Rinv_0_lt_compat. lra. }
  field. lra.
Qed.
Lemma poisson_small tr z nfock m : tr <> 0 -> (0 < nfock <= 2)%nat -> (m < nfock)%nat -> rho_b tr z nfock m m = truncated_poisson z nfock m.
Proof.
  intros Ht Hn Hm. rewrite rho_b_diag, trunc_poisson by (assumption || lia).
  assert (forall i, (i < 2)%nat -> INR (fact i) = 1) as F by (intros i Hi; destruct i as [|[|]]; [reflexivity|reflexivity|lia]).
  rewrite (sum_ext nfock (fun k => z ^ (2 * k) * INR (fact k)) (fun k => z ^ (2 * k))) by (intros i Hi; rewrite F by lia; lra).
  rewrite (sum_ext nfock (fun k => z ^ (2 * k) / INR (fact k)) (fun k => z ^ (2 * k))) by (intros i Hi; rewrite F by lia; lra).
  rewrite F by lia. unfold Rdiv. rewrite Rinv_1. reflexivity.
Qed.
Lemma poisson_bad : exists tr z nfock m, 0 < tr /\ (m < nfock)%nat /\ rho_b tr z nfock m m <> truncated_poisson z nfock m.
Proof.
  exists 2, 1, 3%nat, 2%nat. split; [lra|]. split; [lia|]. rewrite rho_b_diag, trunc_poisson by (lra || lia). cbn. lra.
Qed.

Lemma zip3_map (modes : list (nat * R * R)) : zip3 (map (fun m => fst (fst m)) modes) (map (fun m => snd (fst m)) modes) (map snd modes) = modes.
Proof. induction modes as [|[[n o] f] l IH]; [reflexivity|]. cbn. rewrite IH. reflexivity. Qed.
Lemma energy_modes c modes za H : List.length za = List.length modes ->
  get_bosonic_Ham (List.length modes) (map (fun m => fst (fst m)) modes) (map (fun m => snd (fst m)) modes) za (map snd modes) = Ok H ->
  photon_energy c 0 modes = sum_below (offset (map (fun m => fst (fst m)) modes) (List.length modes)) (fun i => c i ^ 2 * H i i).
Proof.
  intros L E. rewrite <- (zip3_map modes) at 1. rewrite (energy_ok c _ _ za _ H); rewrite ?map_length; auto.
Qed.
Lemma grad_modes c mdim om F : forall l1 l2 idx,
  derivable_pt_lim (fun F => photon_energy c idx (l1 ++ (mdim, om, F) :: l2)) F (nth (List.length l1) (photon_grad c idx (l1 ++ (mdim, om, F) :: l2)) 0).
Proof.
  induction l1 as [|[[n o] f] l1 IH]; intros l2 idx; cbn [app photon_energy photon_grad List.length nth].
  - eapply deriv_ext; [reflexivity| |apply (derivable_pt_lim_plus (mode_energy c idx mdim om) (fun _ => photon_energy c (idx + mdim) l2)); [apply mode_energy_deriv|apply derivable_pt_lim_const]]. lra.
  - eapply deriv_ext; [reflexivity| |apply (derivable_pt_lim_plus (fun _ => mode_energy c idx n o f) (fun F => photon_energy c (idx + n) (l1 ++ (mdim, om, F) :: l2))); [apply derivable_pt_lim_const|apply IH]]. lra.
Qed.
Lemma near_derivative mdim A pdm : derivable_pt_lim (fun A => displacement_exp_val mdim A pdm true) A
  (displacement_deriv_kernel mdim A pdm - exp (- (1/2) * A ^ 2) * sum_below (mdim - 1) (fun n => 2 * pdm (S n) n / sqrt (INR (S n)) * genlaguerre n 1 (A ^ 2))).
Proof. eapply deriv_ext; [reflexivity| |apply true_derivative]. rewrite near_term. lra. Qed.
(** ** Forms used in the property file *)
Lemma pack_stored n M i j : (j <= i < n)%nat -> exists A, pack_symmetric n n M = Ok A /\ nth_error A (packed_index i j) = Some (M i j).
Proof.
  intros H. unfold pack_symmetric. rewrite Nat.eqb_refl. eexists. split; [reflexivity|].
  rewrite <- (pack_nth n M i j 0 H). apply nth_error_nth'. rewrite map_length, tril_length. apply packed_bound; lia.
Qed.
Lemma pack_rect r c M : r <> c -> pack_symmetric r c M = Err AssertionError.
Proof. intros H. unfold pack_symmetric. destruct (Nat.eqb_spec r c); [contradiction|reflexivity]. Qed.
Lemma fc_vac_deriv' mdim ci F om : (mdim <= 1)%nat -> exists G,
  (forall x, FC_factor mdim ci F om x = Ok (G x)) /\ forall d, derivable_pt_lim G d (gaussian_derivative_vectorized mdim ci F om d).
Proof. intros H. exists (fc mdim ci F om). split; [intros; apply fc_ok|intros; apply fc_vac_deriv; assumption]. Qed.
Lemma fc_scaled_deriv' mdim ci F om : (1 < mdim)%nat -> parity mdim ci -> exists G,
  (forall x, FC_factor mdim ci F om x = Ok (G x)) /\ forall d, derivable_pt_lim G d (exp F / om * gaussian_derivative_vectorized mdim ci F om d).
Proof. intros H P. exists (fc mdim ci F om). split; [intros; apply fc_ok|intros; apply fc_scaled_deriv; assumption]. Qed.
Lemma fc_sq_deriv' mdim ci om d : (mdim <= 1)%nat \/ parity mdim ci -> exists G,
  (forall F, FC_factor mdim ci F om d = Ok (G F)) /\ forall F, derivable_pt_lim G F (gaussian_derivative_sq mdim ci F om (- d)).
Proof. intros H. exists (fun F => fc mdim ci F om d). split; [intros; apply fc_ok|intros; apply fc_sq_deriv; assumption]. Qed.
Lemma fc_f_deriv' mdim ci F om x : (mdim <= 1)%nat \/ parity mdim ci -> exists G,
  (forall f, FC_factor mdim ci F om (f * x) = Ok (G f)) /\ forall f, f <> 0 -> derivable_pt_lim G f (gaussian_derivative_f mdim ci F om f (f * x)).
Proof. intros H. exists (fun f => fc mdim ci F om (f * x)). split; [intros; apply fc_ok|intros; apply fc_f_deriv; assumption]. Qed.
Lemma fc_at_zero mdim ci F om : FC_factor mdim ci F om 0 = Ok (if (1 <? mdim)%nat then sum_below mdim (fun m => ci m ^ 2) else 1).
Proof. destruct (Nat.ltb_spec 1 mdim); [apply fc_zero; assumption|apply fc_zero_vac; lia]. Qed.
(** squeezing derivative of a state that mixes parities *)
Lemma fc_sq_bad : exists mdim ci om d F, 0 < om /\ sum_below mdim (fun m => ci m ^ 2) = 1 /\
  exists G, (forall F, FC_factor mdim ci F om d = Ok (G F)) /\ ~ derivable_pt_lim G F (gaussian_derivative_sq mdim ci F om (- d)).
Proof.
  exists 2%nat, c35, 1, 1, 0. split; [lra|]. split; [cbn; lra|]. exists (fun F => fc 2 c35 F 1 1). split; [intros; apply fc_ok|]. intros H.
  assert (derivable_pt_lim (fun F => exp F / 1 * 1) 0 (exp 0)) as DA.
  { eapply deriv_ext with (f := exp); [intros; lra|reflexivity|apply derivable_pt_lim_exp]. }
  pose proof (derivable_pt_lim_comp (fun F => exp F / 1 * 1) (fun A => displacement_exp_val 2 A (outer c35) true) 0 _ _ DA (true_derivative 2 _ (outer c35))) as T.
  pose proof (uniqueness_limite _ _ _ _ H T) as E. clear H T DA.
  unfold gaussian_derivative_sq, displacement_deriv_vt in E. cbn [Nat.ltb Nat.leb] in E. rewrite exp_0 in E.
  replace (1 / 1 * 1) with 1 in E by lra. replace (1 / 1 * -(1)) with (-1) in E by lra. rewrite !kernel2 in E. unfold missing in E. cbn [sum_below Nat.sub] in E.
  rewrite lag_0 in E. unfold fratio in E. cbn [fact plus mult INR] in E. replace (1 / 1) with 1 in E by lra. rewrite sqrt_1 in E. unfold outer, c35 in E.
  replace ((-1) ^ 2) with (1 ^ 2) in E by lra. pose proof (exp_pos (- (1/2) * 1 ^ 2)). set (e := exp _) in *. lra.
Qed.
Lemma expectation_bad : exists mdim A rho, symmetric mdim rho /\ displacement_exp_val mdim A rho true <> expectation mdim rho (disp_op A).
Proof.
  exists 2%nat, 1, (outer c35). split; [apply outer_sym|]. rewrite <- exp_val_mean by apply outer_sym. rewrite !exp_val_eq, !plain2. unfold gauss, outer, c35.
  replace ((- (1)) ^ 2) with (1 ^ 2) by lra. pose proof (exp_pos (- (1/2) * 1 ^ 2)). set (e := exp _) in *. lra.
Qed.
(** the eigenvectors of diag(0,1,0,2), in ascending order *)
Lemma two_mode_eigh : exists e c, is_eigh 4 (fun i j => if (i =? j)%nat then nth i [0; 1; 0; 2] 0 else 0) e c.
Proof.
  exists (fun k => nth k [0; 0; 1; 2] 0), (fun i k => if (k =? nth i [0; 2; 1; 3] 0)%nat then 1 else 0).
  split; [|split; [|split]]; intros i j Hi Hj; destruct i as [|[|[|[|]]]]; try lia; destruct j as [|[|[|[|]]]]; try lia; cbn; lra.
Qed.
