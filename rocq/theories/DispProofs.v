(** Proofs for the compiled dressing factors. *)
From Coq Require Import Reals Lra Lia.
From Verif Require Import Base BosonModel BosonSpec BosonProofs DispModel DispSpec.
Open Scope R_scope.

Lemma cpp_index_low m n : (n <= m)%nat -> cpp_index m n = (tri m + n)%nat.
Proof.
  intros H. unfold cpp_index. destruct (Nat.ltb_spec n m); [reflexivity|]. assert (n = m) as -> by lia. reflexivity.
Qed.
Lemma cpp_val_eq f m n : cpp_val f m n = disp_val f m n.
Proof. unfold cpp_val, disp_val, fratio. replace (f ^ 2) with (f * f) by lra. reflexivity. Qed.
Lemma row_fill f m : forall k s y, (k <= S m)%nat ->
  fold_left (fun s n => store s (cpp_index m n) (cpp_val f m n)) (seq 0 k) s y =
  if (tri m <=? y)%nat && (y <? tri m + k)%nat then disp_val f m (y - tri m) else s y.
Proof.
  induction k; intros s y H.
  - cbn [seq fold_left]. rewrite Nat.add_0_r. destruct (Nat.leb_spec (tri m) y), (Nat.ltb_spec y (tri m)); try reflexivity; lia.
  - rewrite seq_S, fold_left_app. cbn [fold_left plus]. unfold store at 1. rewrite cpp_index_low by lia. rewrite IHk by lia.
    destruct (Nat.eqb_spec y (tri m + k)) as [->|].
    + rewrite cpp_val_eq. destruct (Nat.leb_spec (tri m) (tri m + k)), (Nat.ltb_spec (tri m + k) (tri m + S k)); try lia. cbn [andb].
      f_equal; lia.
    + destruct (Nat.leb_spec (tri m) y), (Nat.ltb_spec y (tri m + k)), (Nat.ltb_spec y (tri m + S k)); cbn [andb]; try reflexivity; lia.
Qed.
Lemma fill_ok f : forall mdim s i j, (j <= i < mdim)%nat -> cpp_fill mdim f s (tri i + j)%nat = disp_val f i j.
Proof.
  induction mdim; intros s i j H; [lia|].
  unfold cpp_fill. rewrite seq_S, fold_left_app. cbn [fold_left plus]. fold (cpp_fill mdim f s).
  rewrite row_fill by lia. destruct (Nat.eq_dec i mdim) as [->|N].
  - destruct (Nat.leb_spec (tri mdim) (tri mdim + j)), (Nat.ltb_spec (tri mdim + j) (tri mdim + S mdim)); try lia. cbn [andb]. f_equal; lia.
  - pose proof (tri_mono (S i) mdim ltac:(lia)). rewrite tri_S in *.
    destruct (Nat.leb_spec (tri mdim) (tri i + j)); [lia|]. cbn [andb]. apply IHmdim. lia.
Qed.
Lemma fill_out f : forall mdim s y, (tri mdim <= y)%nat -> cpp_fill mdim f s y = s y.
Proof.
  induction mdim; intros s y H; [reflexivity|].
  unfold cpp_fill. rewrite seq_S, fold_left_app. cbn [fold_left plus]. fold (cpp_fill mdim f s).
  rewrite tri_S in H. rewrite row_fill by lia. destruct (Nat.ltb_spec y (tri mdim + S mdim)); [lia|]. rewrite Bool.andb_false_r. apply IHmdim. lia.
Qed.
Lemma scale_gen c : forall k s y,
  fold_left (fun s k => store s k (s k * c)) (seq 0 k) s y = if (y <? k)%nat then s y * c else s y.
Proof.
  induction k; intros s y; [reflexivity|]. rewrite seq_S, fold_left_app. cbn [fold_left plus]. unfold store at 1.
  rewrite !IHk. destruct (Nat.eqb_spec y k) as [->|].
  - destruct (Nat.ltb_spec k k), (Nat.ltb_spec k (S k)); try lia. reflexivity.
  - destruct (Nat.ltb_spec y k), (Nat.ltb_spec y (S k)); try lia; reflexivity.
Qed.
Lemma contract_gen (h : nat -> R) : forall k, fold_left (fun acc k => acc + h k) (seq 0 k) 0 = sum_below k h.
Proof. induction k; [reflexivity|]. rewrite seq_S, fold_left_app, IHk. reflexivity. Qed.
Lemma sum_tri (h : nat -> R) : forall n, sum_below (tri n) h = sum_below n (fun i => sum_below (S i) (fun j => h (tri i + j)%nat)).
Proof.
  assert (forall a k, sum_below (a + k) h = sum_below a h + sum_below k (fun j => h (a + j)%nat)) as A.
  { intros a. induction k; [rewrite Nat.add_0_r; cbn [sum_below]; lra|]. rewrite Nat.add_succ_r. cbn [sum_below]. rewrite IHk. lra. }
  induction n; [reflexivity|]. rewrite tri_S, A, IHn. reflexivity.
Qed.
Lemma disp_ok nboson imode nao freq eta pdm vsq shift junk p q mdim :
  nth_error nboson imode = Some mdim ->
  let A := exp (vsq imode) / freq imode * (eta (imode * nao + p)%nat - eta (imode * nao + q)%nat + shift) in
  exists d e, cpp_displacement nboson imode nao freq eta pdm vsq shift junk p q = Ok (d, e) /\
    (forall i j, (j <= i < mdim)%nat -> d (i * (i + 1) / 2 + j)%nat = disp_val A i j * exp (- (1/2) * A ^ 2)) /\
    e = sum_below mdim (fun i => sum_below (S i) (fun j => pdm (i * (i + 1) / 2 + j)%nat * (disp_val A i j * exp (- (1/2) * A ^ 2)))).
Proof.
  intros H A. unfold cpp_displacement, index. rewrite H. cbn [rmap]. fold A.
  eexists _, _. split; [reflexivity|].
  assert (forall i j, (j <= i < mdim)%nat -> cpp_scale mdim A (cpp_fill mdim A junk) (tri i + j)%nat = disp_val A i j * exp (- (1/2) * A ^ 2)) as E.
  { intros i j L. unfold cpp_scale. rewrite scale_gen, fill_ok by assumption. change (mdim * (mdim + 1) / 2)%nat with (tri mdim).
    pose proof (tri_mono (S i) mdim ltac:(lia)) as T. rewrite tri_S in T. destruct (Nat.ltb_spec (tri i + j) (tri mdim)); [|lia].
    f_equal. f_equal. lra. }
  split; [exact E|]. unfold cpp_contract. rewrite (contract_gen (fun k => pdm k * _ k)). change (mdim * (mdim + 1) / 2)%nat with (tri mdim).
  rewrite sum_tri. apply sum_ext. intros i Hi. apply sum_ext. intros j Hj. rewrite E by lia. reflexivity.
Qed.
Lemma packed_ok nboson imode nao freq eta pdm vsq shift junk p q mdim m :
  nth_error nboson imode = Some mdim -> packed mdim m pdm ->
  let A := exp (vsq imode) / freq imode * (eta (imode * nao + p)%nat - eta (imode * nao + q)%nat + shift) in
  exists d, cpp_displacement nboson imode nao freq eta pdm vsq shift junk p q = Ok (d, displacement_exp_val mdim A m true).
Proof.
  intros H P A. destruct (disp_ok nboson imode nao freq eta pdm vsq shift junk p q mdim H) as (d & e & E & _ & V). fold A in V.
  exists d. rewrite E. f_equal. f_equal. rewrite V, exp_val_eq. unfold plain, gauss. rewrite <- sum_add, <- sum_mulr.
  apply sum_ext. intros i Hi. cbn [sum_below]. rewrite Rmult_plus_distr_r, <- sum_mulr. f_equal.
  - apply sum_ext. intros j Hj. rewrite P by lia. unfold disp_val, off_term. replace (i =? j)%nat with false by (symmetry; apply Nat.eqb_neq; lia). lra.
  - rewrite P by lia. unfold disp_val. rewrite Nat.eqb_refl. lra.
Qed.
Lemma disp_badmode nboson imode nao freq eta pdm vsq shift junk p q : (List.length nboson <= imode)%nat ->
  cpp_displacement nboson imode nao freq eta pdm vsq shift junk p q = Err IndexError.
Proof. intros H. unfold cpp_displacement, index. apply nth_error_None in H. rewrite H. reflexivity. Qed.

Definition excited (i j : nat) : R := if (i =? 1)%nat && (j =? 1)%nat then 1 else 0.
Lemma square_bad : exists nboson freq eta vsq m, forall junk, exists d e,
  (forall i j, m i j = m j i) /\ sum_below 2 (fun i => m i i) = 1 /\
  cpp_displacement nboson 0 1 freq eta (row_major 2 m) vsq 0 junk 0 0 = Ok (d, e) /\ e = 0 /\
  displacement_matrix 2 (exp (vsq 0%nat) / freq 0%nat * (eta 0%nat - eta 0%nat + 0)) m true = Ok 1.
Proof.
  exists (2%nat :: nil), (fun _ => 1), (fun _ => 0), (fun _ => 0), excited. intros junk.
  destruct (disp_ok (2%nat :: nil) 0 1 (fun _ => 1) (fun _ => 0) (row_major 2 excited) (fun _ => 0) 0 junk 0 0 2 eq_refl) as (d & e & E & _ & V).
  exists d, e. split; [|split; [|split; [exact E|split]]].
  - intros i j. unfold excited. rewrite Bool.andb_comm. reflexivity.
  - unfold excited. cbn. lra.
  - rewrite V. unfold row_major, excited. cbn. lra.
  - rewrite matrix_eq, exp_val_eq, plain2. unfold gauss, excited. cbn [Nat.eqb andb].
    replace (exp 0 / 1 * (0 - 0 + 0)) with 0 by lra. replace (- (1/2) * 0 ^ 2) with 0 by lra. rewrite exp_0. f_equal. lra.
Qed.

(** ** Gaussian factors *)
Lemma gaussian_ok freq ep eq er es : er <> -1 -> es <> -1 ->
  gaussian_factor freq ep eq er es = exp (- (1/2) * ((ep - eq + er - es) / freq) ^ 2).
Proof.
  intros A B. unfold gaussian_factor. destruct (Req_EM_T er (-1)); [contradiction|]. destruct (Req_EM_T es (-1)); [contradiction|].
  cbn [andb]. do 4 f_equal. lra.
Qed.
Lemma table_ok N freq eta p q r s : (q < N)%nat -> (r < N)%nat -> (s < N)%nat -> eta r <> -1 -> eta s <> -1 ->
  gaussian_table N freq eta (p * N * N * N + q * N * N + r * N + s) = exp (- (1/2) * ((eta p - eta q + eta r - eta s) / freq) ^ 2).
Proof.
  intros Q R S A B. unfold gaussian_table.
  assert ((p * N * N * N + q * N * N + r * N + s) / N = p * N * N + q * N + r)%nat as E1.
  { symmetry. apply Nat.div_unique with s; lia. }
  assert ((p * N * N * N + q * N * N + r * N + s) / (N * N) = p * N + q)%nat as E2.
  { rewrite <- Nat.div_div by lia. rewrite E1. symmetry. apply Nat.div_unique with r; lia. }
  assert ((p * N * N * N + q * N * N + r * N + s) / (N * N * N) = p)%nat as E3.
  { rewrite <- Nat.div_div by nia. rewrite E2. symmetry. apply Nat.div_unique with q; lia. }
  assert ((p * N * N * N + q * N * N + r * N + s) mod N = s)%nat as E4.
  { symmetry. apply Nat.mod_unique with (p * N * N + q * N + r)%nat; lia. }
  rewrite E1, E2, E3, E4. rewrite gaussian_ok.
  - replace ((p * N + q) mod N)%nat with q by (apply Nat.mod_unique with p; lia).
    replace ((p * N * N + q * N + r) mod N)%nat with r by (apply Nat.mod_unique with (p * N + q)%nat; lia). reflexivity.
  - replace ((p * N * N + q * N + r) mod N)%nat with r by (apply Nat.mod_unique with (p * N + q)%nat; lia). exact A.
  - exact B.
Qed.
Lemma exp_small x : x < 0 -> exp x <> 1.
Proof. intros H E. pose proof (exp_increasing x 0 H) as P. rewrite exp_0 in P. lra. Qed.
Lemma gaussian_bad : exists freq ep eq er es, 0 < freq /\ gaussian_factor freq ep eq er es = 1 /\
  exp (- (1/2) * ((ep - eq + er - es) / freq) ^ 2) <> 1.
Proof.
  exists 1, 0, 0, 0, (-1). split; [lra|]. split.
  - unfold gaussian_factor. destruct (Req_EM_T (-1) (-1)) as [_|N]; [|contradiction]. rewrite Bool.andb_false_r.
    replace (- (1/2) * ((0 - 0) / 1) ^ 2) with 0 by lra. apply exp_0.
  - apply exp_small. lra.
Qed.
