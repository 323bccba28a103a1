From Coq Require Import Bool Lqa.
From Verif Require Import Base CcModel CcSpec.
Local Open Scope nat_scope.

(** * Loops over the order *)
Section Chain.
Variables (P : nat -> tensor -> Prop) (f : nat -> tensor -> res tensor) (d : tensor).
Hypothesis step : forall i t, P i t -> exists t', f (S i) t = Ok t' /\ P (S i) t'.
Lemma chain_inv n : forall i t, P i t ->
  exists r, chain f (S i) n t = Ok r /\ length r = n /\ forall k, k < n -> P (S i + k) (nth k r d).
Proof.
  induction n as [|n IH]; intros i t H.
  - exists []. repeat split. intros k Hk; lia.
  - destruct (step i t H) as (t' & E & H'). destruct (IH (S i) t' H') as (r & Er & L & F).
    exists (t' :: r). cbn [chain]. rewrite E. cbn [rbind]. rewrite Er. split; [reflexivity|]. split; [cbn; lia|].
    intros [|k] Hk; cbn [nth]; [now rewrite Nat.add_0_r|]. replace (S i + S k) with (S (S i) + k) by lia. apply F. lia.
Qed.
Lemma order_inv t0 n : P 0 t0 -> 0 < n ->
  exists ds, order_loop f t0 n = Ok (Some ds) /\ length ds = n /\ forall k, k < n -> P k (nth k ds d).
Proof.
  intros H Hn. destruct n as [|n]; [lia|]. destruct (chain_inv n 0 t0 H) as (r & E & L & F).
  exists (t0 :: r). unfold order_loop. rewrite E. split; [reflexivity|]. split; [cbn; lia|].
  intros [|k] Hk; [exact H|]. cbn [nth]. apply (F k). lia.
Qed.
End Chain.

Lemma bdims_app a b a' b' x y : bdims a b = Some x -> bdims a' b' = Some y -> bdims (a ++ a') (b ++ b') = Some (x ++ y).
Proof.
  revert b x. induction a as [|p a IH]; intros [|q b] x H H'; cbn in *; try discriminate.
  - injection H as <-. exact H'.
  - destruct (bdim p q); [|discriminate]. destruct (bdims a b) eqn:E; [|discriminate]. injection H as <-.
    rewrite (IH _ _ E H'). reflexivity.
Qed.
Lemma bdim_1r n : bdim n 1 = Some n.
Proof. unfold bdim. destruct (Nat.eqb_spec n 1); [reflexivity|]. cbn. reflexivity. Qed.
Lemma bdim_1l n : bdim 1 n = Some n.
Proof. unfold bdim. destruct (Nat.eqb_spec 1 n); [now subst|reflexivity]. Qed.
Lemma bdims_ones sh : bdims sh (repeat 1 (length sh)) = Some sh.
Proof. induction sh as [|x sh IH]; [reflexivity|]. cbn [length repeat bdims]. now rewrite bdim_1r, IH. Qed.
Lemma bidx_id sh idx : Forall2 (fun d i => i < d) sh idx -> bidx sh idx = idx.
Proof.
  induction 1 as [|d i sh idx H F IH]; [reflexivity|]. cbn. rewrite IH. f_equal.
  destruct (Nat.eqb_spec d 1); lia.
Qed.
Lemma bidx_ones n idx : length idx = n -> bidx (repeat 1 n) idx = repeat 0 n.
Proof. revert idx; induction n as [|n IH]; intros [|i idx] H; cbn in *; try lia; [reflexivity|]. rewrite IH; [reflexivity|lia]. Qed.
Lemma bidx_app a b x y : length x = length a -> bidx (a ++ b) (x ++ y) = bidx a x ++ bidx b y.
Proof. revert x; induction a as [|p a IH]; intros [|q x] H; cbn in *; try lia; [reflexivity|]. rewrite IH; [reflexivity|lia]. Qed.
Lemma below_f2 n ps k : length ps = k -> below n ps -> Forall2 (fun d i => i < d) (repeat n k) ps.
Proof. intros <- H. induction H; cbn; constructor; assumption. Qed.

(** * Dsn *)
Section Dsn.
Variable w : list Q.
Let np := length w.
Definition Pdsn (i : nat) (t : tensor) : Prop :=
  shape t = repeat np (S i) /\
  forall ps, length ps = S i -> below np ps -> (at_ t ps == - photon_energy w ps)%Q.
Lemma photon_app ps p : (photon_energy w (ps ++ [p]) == photon_energy w ps + nth p w 0)%Q.
Proof.
  unfold photon_energy. induction ps as [|q ps IH]; cbn; [ring|]. rewrite IH. ring.
Qed.
Lemma dsn_step i t : Pdsn i t -> exists t', tsub (new_last t) (expand_front w (S i)) = Ok t' /\ Pdsn (S i) t'.
Proof.
  intros [Hs Ha]. unfold tsub.
  assert (B : bdims (shape (new_last t)) (shape (expand_front w (S i))) = Some (repeat np (S i) ++ [np])).
  { cbn [shape new_last expand_front]. rewrite Hs. apply bdims_app.
    - pose proof (bdims_ones (repeat np (S i))) as H. rewrite repeat_length in H. exact H.
    - cbn [bdims]. fold np. now rewrite bdim_1l. }
  rewrite B. eexists. split; [reflexivity|]. split; cbn [shape at_].
  - symmetry. apply (repeat_cons (S i) np).
  - intros qs L F.
    destruct (exists_last (l := qs)) as (ps & p & ->); [intro; subst; discriminate|].
    rewrite app_length in L. cbn in L. apply Forall_app in F as [F1 F2]. inversion F2; subst.
    cbn [new_last expand_front at_ shape]. rewrite Hs.
    rewrite !bidx_app by (rewrite repeat_length; lia).
    rewrite (bidx_id (repeat np (S i)) ps) by (apply below_f2; [lia|assumption]).
    rewrite bidx_ones by lia.
    cbn [bidx Nat.eqb]. rewrite removelast_last, last_last.
    fold np. rewrite photon_app, Ha by (assumption || lia).
    destruct (Nat.eqb_spec np 1) as [E|E].
    + replace p with 0 by lia. ring.
    + ring.
Qed.
Lemma dsn_ok nfock : 0 < nfock -> exists ds, getDsn w nfock = Ok (Some ds) /\ length ds = nfock /\
  forall k, k < nfock -> shape (nth k ds (Tensor [] (fun _ => 0%Q))) = repeat (length w) (S k) /\
    forall ps, length ps = S k -> below (length w) ps ->
      (at_ (nth k ds (Tensor [] (fun _ => 0%Q))) ps == - photon_energy w ps)%Q.
Proof.
  intro H. unfold getDsn. apply (order_inv Pdsn); [apply dsn_step | | exact H].
  split; [reflexivity|]. intros [|p [|q r]] L F; try discriminate. cbn. unfold photon_energy. cbn. ring.
Qed.
End Dsn.

(** * Mixed denominators, one mode *)
Section OneMode.
Variables (w0 : Q) (ts : list nat) (t0 : tensor).
Hypothesis t0s : shape t0 = 1 :: ts.
Definition Pmix (i : nat) (t : tensor) : Prop :=
  shape t = repeat 1 (S i) ++ ts /\
  forall ps x, length ps = S i -> below 1 ps -> Forall2 (fun d i => i < d) ts x ->
    (at_ t (ps ++ x) == at_ t0 (0%nat :: x) - inject_Z (Z.of_nat i) * w0)%Q.
Lemma mix_step i t : Pmix i t ->
  exists t', tsub (new_first t) (expand_front [w0] (S i + length ts)) = Ok t' /\ Pmix (S i) t'.
Proof.
  intros [Hs Ha]. unfold tsub.
  assert (E : shape (expand_front [w0] (S i + length ts)) = repeat 1 (length (shape (new_first t)))).
  { cbn [shape expand_front new_first length]. rewrite Hs, app_length, repeat_length.
    symmetry. apply (repeat_cons (S i + length ts) 1). }
  rewrite E, bdims_ones. eexists. split; [reflexivity|]. split; cbn [shape at_ new_first].
  - rewrite Hs. reflexivity.
  - intros ps x L F G. destruct ps as [|p ps]; [discriminate|]. inversion F; subst. injection L as L.
    cbn [app tl bidx Nat.eqb]. rewrite Hs.
    assert (LG : length x = length ts) by (clear - G; induction G; cbn; lia).
    rewrite (bidx_id (repeat 1 (S i) ++ ts)) by (apply Forall2_app; [now apply below_f2|assumption]).
    cbn [tl]. rewrite Ha by assumption.
    rewrite (bidx_ones _ (p :: ps ++ x)).
    2:{ cbn [length]. rewrite !app_length, repeat_length. lia. }
    cbn [expand_front at_].
    replace (last _ 0) with 0.
    2:{ symmetry. generalize (length (1 :: repeat 1 (S i) ++ ts)). induction n as [|[|n] IH]; [reflexivity|reflexivity|exact IH]. }
    cbn [nth]. rewrite Nat2Z.inj_succ, <- Z.add_1_r, inject_Z_plus. ring.
Qed.
End OneMode.
Lemma d1p_one eo ev w0 nfock : 0 < nfock -> exists ds, getD1p eo ev [w0] nfock = Ok (Some ds) /\ length ds = nfock /\
  forall k, k < nfock -> shape (nth k ds (Tensor [] (fun _ => 0%Q))) = repeat 1 (S k) ++ [length ev; length eo] /\
    forall ps a i, length ps = S k -> below 1 ps -> a < length ev -> i < length eo ->
      (at_ (nth k ds (Tensor [] (fun _ => 0%Q))) (ps ++ [a; i]) == nth i eo 0 - nth a ev 0 - photon_energy [w0] ps)%Q.
Proof.
  intro H. unfold getD1p.
  destruct (order_inv (Pmix w0 [length ev; length eo] (D1p0 eo ev [w0]))
    (fun i prev => tsub (new_first prev) (expand_front [w0] (i + 2))) (Tensor [] (fun _ => 0%Q))
    (mix_step w0 [length ev; length eo] _) (D1p0 eo ev [w0]) nfock) as (ds & E & L & F).
  - split; [reflexivity|]. intros [|p [|q r]] x Lp Fp Fx; try discriminate. inversion Fp; subst.
    replace p with 0 by lia. cbn [app]. cbn. ring.
  - exact H.
  - exists ds. split; [exact E|]. split; [exact L|]. intros k Hk. destruct (F k Hk) as [S1 A1]. split; [exact S1|].
    intros ps a i Lp Bp Ha Hi. rewrite A1 by (try assumption; repeat constructor; assumption).
    cbn. assert (PE : (photon_energy [w0] ps == inject_Z (Z.of_nat (S k)) * w0)%Q).
    { clear - Lp Bp. revert k Lp. unfold photon_energy. induction Bp as [|p ps Hp Bp IH]; intros k Lp; [discriminate|].
      injection Lp as Lp. cbn [map qsum]. replace p with 0 by lia. cbn [nth]. destruct ps as [|q ps].
      - cbn in Lp. subst k. cbn. ring.
      - destruct k as [|k]; [discriminate|]. rewrite (IH k) by exact Lp.
        rewrite !Nat2Z.inj_succ, <- !Z.add_1_r, !inject_Z_plus. ring. }
    rewrite PE, Nat2Z.inj_succ, <- Z.add_1_r, inject_Z_plus. ring.
Qed.
Lemma d2p_one eo ev w0 nfock : 0 < nfock -> exists ds, getD2p eo ev [w0] nfock = Ok (Some ds) /\ length ds = nfock /\
  forall k, k < nfock ->
    shape (nth k ds (Tensor [] (fun _ => 0%Q))) = repeat 1 (S k) ++ [length ev; length ev; length eo; length eo] /\
    forall ps a b i j, length ps = S k -> below 1 ps -> a < length ev -> b < length ev -> i < length eo -> j < length eo ->
      (at_ (nth k ds (Tensor [] (fun _ => 0%Q))) (ps ++ [a; b; i; j])
         == nth i eo 0 + nth j eo 0 - nth a ev 0 - nth b ev 0 - photon_energy [w0] ps)%Q.
Proof.
  intro H. unfold getD2p. set (ts := [length ev; length ev; length eo; length eo]).
  destruct (order_inv (Pmix w0 ts (D2p0 eo ev [w0]))
    (fun i prev => tsub (new_first prev) (expand_front [w0] (i + 4))) (Tensor [] (fun _ => 0%Q))
    (mix_step w0 ts _) (D2p0 eo ev [w0]) nfock) as (ds & E & L & F).
  - split; [reflexivity|]. intros [|p [|q r]] x Lp Fp Fx; try discriminate. inversion Fp; subst.
    replace p with 0 by lia. cbn [app]. cbn. ring.
  - exact H.
  - exists ds. split; [exact E|]. split; [exact L|]. intros k Hk. destruct (F k Hk) as [S1 A1]. split; [exact S1|].
    intros ps a b i j Lp Bp Ha Hb Hi Hj. rewrite A1 by (try assumption; repeat constructor; assumption).
    cbn. assert (PE : (photon_energy [w0] ps == inject_Z (Z.of_nat (S k)) * w0)%Q).
    { clear - Lp Bp. revert k Lp. unfold photon_energy. induction Bp as [|p ps Hp Bp IH]; intros k Lp; [discriminate|].
      injection Lp as Lp. cbn [map qsum]. replace p with 0 by lia. cbn [nth]. destruct ps as [|q ps].
      - cbn in Lp. subst k. cbn. ring.
      - destruct k as [|k]; [discriminate|]. rewrite (IH k) by exact Lp.
        rewrite !Nat2Z.inj_succ, <- !Z.add_1_r, !inject_Z_plus. ring. }
    rewrite PE, Nat2Z.inj_succ, <- Z.add_1_r, inject_Z_plus. ring.
Qed.

(** several modes *)
Lemma bdim_none a b : a <> b -> a <> 1 -> b <> 1 -> bdim a b = None.
Proof. intros H1 H2 H3. unfold bdim. apply Nat.eqb_neq in H1, H2, H3. now rewrite H1, H2, H3. Qed.
Lemma d1p_raises eo ev w nfock : 2 <= length w -> 2 <= nfock -> length eo <> length w -> length eo <> 1 ->
  getD1p eo ev w nfock = Err ValueError.
Proof.
  intros Hw Hn N1 N2. destruct nfock as [|[|n]]; try lia. unfold getD1p, order_loop. cbn [chain].
  unfold tsub. cbn [shape new_first D1p0 expand_front plus repeat app bdims].
  rewrite (bdim_none (length eo) (length w)) by lia. rewrite !bdim_1r. reflexivity.
Qed.
Lemma d2p_raises eo ev w nfock : 2 <= length w -> 2 <= nfock -> length eo <> length w -> length eo <> 1 ->
  getD2p eo ev w nfock = Err ValueError.
Proof.
  intros Hw Hn N1 N2. destruct nfock as [|[|n]]; try lia. unfold getD2p, order_loop. cbn [chain].
  unfold tsub. cbn [shape new_first D2p0 expand_front plus repeat app bdims].
  rewrite (bdim_none (length eo) (length w)) by lia. rewrite !bdim_1r. reflexivity.
Qed.
Lemma d1p_wrong eo ev w : 2 <= length w -> length eo = length w -> 2 <= length ev ->
  exists t, getD1p eo ev w 2 = Ok (Some [D1p0 eo ev w; t]) /\ shape t = [1; length w; length ev; length eo] /\
    forall p q a i, (at_ t [p; q; a; i] == nth i eo 0 - nth a ev 0 - nth q w 0 - nth i w 0)%Q.
Proof.
  intros Hw E Hv. unfold getD1p, order_loop. cbn [chain].
  unfold tsub. cbn [shape new_first D1p0 expand_front plus repeat app bdims].
  rewrite E, !bdim_1r.
  replace (bdim (length w) (length w)) with (Some (length w)) by (unfold bdim; now rewrite Nat.eqb_refl).
  cbn [rbind rmap]. eexists. split; [reflexivity|]. split; [reflexivity|].
  intros p q a i. cbn [at_ bidx Nat.eqb tl nth]. cbn [last].
  replace (length w =? 1) with false by (symmetry; apply Nat.eqb_neq; lia).
  replace (length ev =? 1) with false by (symmetry; apply Nat.eqb_neq; lia). reflexivity.
Qed.
Lemma d1p_wrong_value : exists eo ev w ds p q a i, getD1p eo ev w 2 = Ok (Some ds) /\
  p < length w /\ q < length w /\ a < length ev /\ i < length eo /\
  ~ (at_ (nth 1 ds (Tensor [] (fun _ => 0%Q))) [p; q; a; i] == nth i eo 0 - nth a ev 0 - photon_energy w [p; q])%Q.
Proof.
  destruct (d1p_wrong [-2; -1]%Q [1; 2]%Q [1; 3]%Q) as (t & E & S & A); try (cbn; lia).
  exists [-2; -1]%Q, [1; 2]%Q, [1; 3]%Q. eexists. exists 0, 0, 0, 1. split; [exact E|].
  repeat (split; [cbn; lia|]). cbn [nth]. rewrite A. vm_compute. discriminate.
Qed.

(** * Amplitude vector *)
Lemma flat_length {A} (f : nat -> list A) k : (forall x, length (f x) = k) -> forall n s, length (flat_map f (seq s n)) = n * k.
Proof. intros L. induction n as [|n IH]; intro s; [reflexivity|]. cbn. rewrite app_length, L, IH. reflexivity. Qed.
Lemma flat_nth {A} (f : nat -> list A) k d j : (forall x, length (f x) = k) -> forall n s i, i < n -> j < k ->
  nth (i * k + j) (flat_map f (seq s n)) d = nth j (f (s + i)) d.
Proof.
  intro L. induction n as [|n IH]; intros s i Hi Hj; [lia|]. cbn [seq flat_map]. destruct i as [|i].
  - rewrite app_nth1 by (rewrite L; lia). now rewrite Nat.add_0_r.
  - rewrite app_nth2 by (rewrite L; nia). rewrite L. replace (S i * k + j - k) with (i * k + j) by nia.
    rewrite IH by lia. do 2 f_equal. lia.
Qed.
Lemma ravel_length r c m : length (ravel r c m) = r * c.
Proof. unfold ravel. apply flat_length. intro x. now rewrite map_length, seq_length. Qed.
Lemma nth_map_seq (f : nat -> Q) n j : j < n -> nth j (map f (seq 0 n)) 0%Q = f j.
Proof.
  intro H. rewrite (nth_indep _ _ (f 0)) by (now rewrite map_length, seq_length).
  rewrite map_nth, seq_nth by exact H. reflexivity.
Qed.
Lemma ravel_nth r c m i j : i < r -> j < c -> nth (i * c + j) (ravel r c m) 0%Q = m i j.
Proof.
  intros Hi Hj. unfold ravel. rewrite (flat_nth _ c) by (try assumption; intro x; now rewrite map_length, seq_length).
  now apply nth_map_seq.
Qed.
Lemma tri_S n : tri (S n) = tri n + S n.
Proof.
  unfold tri. replace (S n * (S n + 1)) with (n * (n + 1) + (S n) * 2) by nia. rewrite Nat.div_add by lia. reflexivity.
Qed.
Lemma pack_S n m : pack_tril (S n) m = pack_tril n m ++ map (m n) (seq 0 (S n)).
Proof. unfold pack_tril. rewrite (seq_S n 0) at 1. rewrite flat_map_app. cbn [flat_map]. rewrite app_nil_r. reflexivity. Qed.
Lemma pack_length n m : length (pack_tril n m) = tri n.
Proof. induction n as [|n IH]; [reflexivity|]. rewrite pack_S, app_length, IH, map_length, seq_length, tri_S. reflexivity. Qed.
Lemma pack_nth n m i j : j <= i -> i < n -> nth (tri i + j) (pack_tril n m) 0%Q = m i j.
Proof.
  intros Hj. induction n as [|n IH]; intro Hi; [lia|]. rewrite pack_S.
  assert (M : forall a b, a <= b -> tri a <= tri b).
  { intros a b H. induction H; [lia|]. rewrite tri_S. lia. }
  destruct (Nat.eq_dec i n) as [->|N].
  - rewrite app_nth2 by (rewrite pack_length; lia). rewrite pack_length, Nat.add_comm, Nat.add_sub. apply nth_map_seq. lia.
  - rewrite app_nth1.
    + apply IH. lia.
    + rewrite pack_length. specialize (M (S i) n). rewrite tri_S in M. lia.
Qed.
Lemma unpack_ok n m i j : (forall p q, m p q = m q p) -> i < n -> j < n -> unpack_tril (pack_tril n m) i j = m i j.
Proof.
  intros S Hi Hj. unfold unpack_tril. rewrite pack_nth by lia.
  destruct (Nat.le_gt_cases i j).
  - rewrite Nat.max_r, Nat.min_l by lia. apply S.
  - rewrite Nat.max_l, Nat.min_r by lia. reflexivity.
Qed.

Lemma vec_length u a : length (amplitudes2vector u a) = nov a + tri (nov a) + length (flat (sn a)) + length (flat (u1n a))
  + (if u then length (flat (u2n a)) else 0).
Proof.
  unfold amplitudes2vector. rewrite !app_length, ravel_length, pack_length. unfold nov.
  destruct u; cbn [length]; lia.
Qed.
Lemma round_trip u a : pair_symmetric a -> exists b, vector2amplitudes u (amplitudes2vector u a) a = Ok b /\
  nr b = nr a /\ nc b = nc a /\
  (forall x i, x < nr a -> i < nc a -> t1 b x i = t1 a x i) /\
  (forall x y i j, x < nr a -> y < nr a -> i < nc a -> j < nc a -> t2 b x y i j = t2 a x y i j) /\
  sn b = sn a /\ u1n b = u1n a /\ u2n b = u2n a.
Proof.
  intro Sy. unfold vector2amplitudes. rewrite <- vec_length, Nat.ltb_irrefl. eexists. split; [reflexivity|].
  cbn [nr nc t1 t2 sn u1n u2n]. repeat split.
  - intros x i Hx Hi. unfold amplitudes2vector. rewrite app_nth1 by (rewrite ravel_length; nia). now apply ravel_nth.
  - intros x y i j Hx Hy Hi Hj. unfold amplitudes2vector.
    rewrite skipn_app, ravel_length. unfold nov. rewrite Nat.sub_diag. rewrite skipn_all2 by (rewrite ravel_length; lia). cbn [skipn app].
    rewrite firstn_app, pack_length. unfold nov. rewrite Nat.sub_diag. cbn [firstn]. rewrite app_nil_r.
    rewrite firstn_all2 by (rewrite pack_length; reflexivity).
    rewrite unpack_ok.
    + unfold t2_matrix. rewrite !Nat.div_add_l, !Nat.div_small, !Nat.add_0_r by lia.
      rewrite !(Nat.add_comm (_ * nc a)), !Nat.mod_add, !Nat.mod_small by lia. reflexivity.
    + intros p q. unfold t2_matrix. apply Sy.
    + nia.
    + nia.
Qed.
Lemma cut_concat l r : cut (map (@length Q) l) (concat l ++ r) = l.
Proof.
  induction l as [|x l IH]; [reflexivity|]. cbn [map cut concat]. rewrite <- app_assoc.
  rewrite firstn_app, firstn_all, Nat.sub_diag. cbn [firstn]. rewrite app_nil_r.
  rewrite skipn_app, skipn_all, Nat.sub_diag. cbn [skipn app]. now rewrite IH.
Qed.
Lemma photon_part u a : cut (map (@length Q) (photonic u a)) (skipn (nov a + tri (nov a)) (amplitudes2vector u a)) = photonic u a.
Proof.
  unfold amplitudes2vector. rewrite app_assoc, skipn_app.
  rewrite skipn_all2 by (rewrite app_length, ravel_length, pack_length; unfold nov; lia).
  rewrite app_length, ravel_length, pack_length. unfold nov at 1 2. rewrite Nat.sub_diag. cbn [skipn app].
  rewrite <- (app_nil_r (_ ++ _)).
  replace (flat (sn a) ++ flat (u1n a) ++ (if u then flat (u2n a) else [])) with (concat (photonic u a)).
  - apply cut_concat.
  - unfold photonic. rewrite !concat_app. unfold pieces, flat.
    destruct (sn a), (u1n a), u, (u2n a); reflexivity.
Qed.
Lemma extrapolated u v a b : vector2amplitudes u v a = Ok b ->
  (forall x i, t1 b x i = nth (x * nc a + i) v 0%Q) /\ sn b = sn a /\ u1n b = u1n a /\ u2n b = u2n a.
Proof. unfold vector2amplitudes. destruct (_ <? _); [discriminate|]. intro H; injection H as <-. repeat split. Qed.
Lemma extrapolated_t2 u v a b x y i j : vector2amplitudes u v a = Ok b ->
  x < nr a -> y < nr a -> i < nc a -> j < nc a ->
  t2 b x y i j = nth (nov a + (tri (Nat.max (x * nc a + i) (y * nc a + j)) + Nat.min (x * nc a + i) (y * nc a + j))) v 0%Q.
Proof.
  unfold vector2amplitudes. destruct (_ <? _) eqn:E; [discriminate|]. intros H; injection H as <-. intros Hx Hy Hi Hj.
  cbn [t2]. unfold unpack_tril. apply Nat.ltb_ge in E.
  set (p := x * nc a + i). set (q := y * nc a + j).
  assert (Hp : p < nov a) by (unfold p, nov; nia). assert (Hq : q < nov a) by (unfold q, nov; nia).
  assert (T : tri (Nat.max p q) + Nat.min p q < tri (nov a)).
  { assert (M : forall a b, a <= b -> tri a <= tri b).
    { intros a' b' H. induction H; [lia|]. rewrite tri_S. lia. }
    specialize (M (S (Nat.max p q)) (nov a)). rewrite tri_S in M. lia. }
  generalize dependent (tri (Nat.max p q) + Nat.min p q). intros k Hk.
  rewrite <- (firstn_skipn (tri (nov a)) (skipn (nov a) v)) at 1.
  assert (G : forall (l : list Q) n k, k < n -> nth k (firstn n l) 0%Q = nth k l 0%Q).
  { induction l as [|z l IH]; intros [|n] [|k'] H; cbn; try lia; try reflexivity. apply IH. lia. }
  rewrite firstn_skipn, G by exact Hk.
  clear. revert v. induction (nov a) as [|n IH]; intro v; [reflexivity|]. destruct v as [|z v]; [destruct k; reflexivity|].
  cbn [skipn plus nth]. apply IH.
Qed.
Lemma stale : exists u v a b, vector2amplitudes u v a = Ok b /\
  photonic u b <> cut (map (@length Q) (photonic u a)) (skipn (nov a + tri (nov a)) v).
Proof.
  exists false, [1; 1; 7]%Q, (Amps 1 1 (fun _ _ => 0%Q) (fun _ _ _ _ => 0%Q) (Some [[0%Q]]) None None).
  eexists. split; [reflexivity|]. vm_compute. discriminate.
Qed.

(** * Driver *)
Lemma mix_same d x : (mix d x x == x)%Q.
Proof. unfold mix. destruct (qltb d 1); [ring|reflexivity]. Qed.
Lemma mix_step_size d x y : (d < 1)%Q -> (mix d x y - x == (1 - d) * (y - x))%Q.
Proof.
  intros H. unfold mix, qltb. destruct (Qlt_le_dec d 1) as [h|h]; [ring|].
  exfalso. exact (Qlt_not_le _ _ H h).
Qed.
Lemma mix_undamped d x y : (1 <= d)%Q -> mix d x y = y.
Proof.
  intros H. unfold mix, qltb. destruct (Qlt_le_dec d 1) as [h|h]; [|reflexivity].
  exfalso. exact (Qlt_not_le _ _ h H).
Qed.
Lemma diis_applied u a istep start de sde f : (start <= istep)%nat -> (qabs de < sde)%Q ->
  run_diis u a istep start de sde (Some f) = vector2amplitudes u (f (amplitudes2vector u a)) a.
Proof.
  intros H1 H2. unfold run_diis, qltb. apply Nat.leb_le in H1. rewrite H1.
  destruct (Qlt_le_dec (qabs de) sde) as [h|h]; [reflexivity|]. exfalso. exact (Qlt_not_le _ _ H2 h).
Qed.
Lemma diis_skipped u a istep start de sde up : up = None \/ (istep < start)%nat \/ (sde <= qabs de)%Q ->
  run_diis u a istep start de sde up = Ok a.
Proof.
  intros H. unfold run_diis. destruct up as [f|]; [|reflexivity].
  destruct H as [H|[H|H]]; [discriminate| |].
  - apply Nat.leb_gt in H. rewrite H. reflexivity.
  - unfold qltb. destruct (Qlt_le_dec (qabs de) sde) as [h|h]; [exfalso; exact (Qlt_not_le _ _ h H)|].
    rewrite Bool.andb_false_r. reflexivity.
Qed.
Lemma mix_between d x y : (0 <= d)%Q -> (x <= y)%Q -> (x <= mix d x y <= y)%Q.
Proof.
  intros H0 H. unfold mix, qltb. destruct (Qlt_le_dec d 1) as [L|L]; [|lra].
  assert (0 <= d * (y - x))%Q by (apply Qmult_le_0_compat; lra).
  assert (0 <= (1 - d) * (y - x))%Q by (apply Qmult_le_0_compat; lra). lra.
Qed.
Lemma mix_not_monotone : exists d d' x y, (d <= d')%Q /\ (x < y)%Q /\ (mix d x y < mix d' x y)%Q.
Proof. exists (1#2), 1%Q, 0%Q, 1%Q. split; [vm_compute; discriminate|]. split; reflexivity. Qed.

Lemma cc_loop_spec E resid et tt fuel : forall istep eold,
  let '(n, conv, e) := cc_loop E resid et tt fuel istep eold in
  istep <= n <= istep + fuel /\
  let prev k := if k =? istep then eold else E (k - 1) in
  (forall k, istep <= k -> S k < n -> meets E resid et tt k (prev k) = false) /\
  (conv = true -> istep < n /\ meets E resid et tt (n - 1) (prev (n - 1)) = true) /\
  (conv = false -> n = istep + fuel /\ forall k, istep <= k < n -> meets E resid et tt k (prev k) = false) /\
  e = (if n =? istep then eold else E (n - 1)).
Proof.
  induction fuel as [|fuel IH]; intros istep eold; cbn [cc_loop].
  - split; [lia|]. cbv zeta. repeat split; intros; try lia; try discriminate. now rewrite Nat.eqb_refl.
  - fold (meets E resid et tt istep eold). destruct (meets E resid et tt istep eold) eqn:M.
    + split; [lia|]. cbv zeta. repeat split; intros; try lia; try discriminate.
      * replace (S istep - 1) with istep by lia. now rewrite Nat.eqb_refl.
      * replace (S istep =? istep) with false by (symmetry; apply Nat.eqb_neq; lia). f_equal. lia.
    + specialize (IH (S istep) (E istep)). destruct (cc_loop E resid et tt fuel (S istep) (E istep)) as [[n conv] e].
      destruct IH as (B & A1 & A2 & A3 & A4). cbv zeta in *.
      assert (PR : forall k, istep < k -> (if k =? S istep then E istep else E (k - 1)) = (if k =? istep then eold else E (k - 1))).
      { intros k Hk. replace (k =? istep) with false by (symmetry; apply Nat.eqb_neq; lia).
        destruct (Nat.eqb_spec k (S istep)) as [->|]; [f_equal; lia|reflexivity]. }
      split; [lia|]. repeat split; intros.
      * destruct (Nat.eq_dec k istep) as [->|N]; [now rewrite Nat.eqb_refl|]. rewrite <- PR by lia. apply A1; lia.
      * destruct (A2 H). lia.
      * destruct (A2 H) as [H1 H2]. rewrite PR in H2 by lia. exact H2.
      * destruct (A3 H). lia.
      * destruct (A3 H) as [_ H2]. destruct (Nat.eq_dec k istep) as [->|N]; [now rewrite Nat.eqb_refl|].
        rewrite <- PR by lia. apply H2. lia.
      * rewrite A4. replace (n =? istep) with false by (symmetry; apply Nat.eqb_neq; lia).
        destruct (Nat.eqb_spec n (S istep)) as [->|]; [f_equal; lia|reflexivity].
Qed.
Lemma no_photon_energy {A} c E resid (amp : nat -> A) ret r : ccsd_nfock c E resid amp ret = Ok r ->
  e_total r = (ehf c + e_corr r)%Q /\ returned r = None /\ attr_converged r = false.
Proof.
  unfold ccsd_nfock, cc_kernel. destruct (_ && _); [discriminate|]. destruct (_ && _); [discriminate|].
  destruct (cc_loop _ _ _ _ _ _ _) as [[n cv] e]. intro H; injection H as <-. repeat split.
Qed.
Lemma photons_raise {A} c E resid (amp : nat -> A) ret : 0 < nfock1 c -> 0 < nfock2 c -> 0 < max_cycle c ->
  ccsd_nfock c E resid amp ret = Err NameError.
Proof.
  intros H1 H2 H3. unfold ccsd_nfock, cc_kernel.
  replace (nfock1 c =? 0) with false by (symmetry; apply Nat.eqb_neq; lia). cbn [andb].
  replace (0 <? nfock1 c) with true by (symmetry; apply Nat.ltb_lt; lia).
  replace (0 <? max_cycle c) with true by (symmetry; apply Nat.ltb_lt; lia). reflexivity.
Qed.
Lemma default_electronic {A} c E resid (amp : nat -> A) ret : nfock1 c = 0 -> 0 < nfock2 c ->
  ccsd_nfock c E resid amp ret = Err TypeError.
Proof.
  intros H1 H2. unfold ccsd_nfock, cc_kernel. rewrite H1.
  replace (0 <? nfock2 c) with true by (symmetry; apply Nat.ltb_lt; lia). reflexivity.
Qed.
Lemma electronic_ok {A} c E resid (amp : nat -> A) ret : nfock1 c = 0 -> nfock2 c = 0 ->
  exists r, ccsd_nfock c E resid amp ret = Ok r /\
    e_corr r = snd (cc_loop E resid (eth c) (tth c) (max_cycle c) 0 0%Q).
Proof.
  intros H1 H2. unfold ccsd_nfock, cc_kernel. rewrite H1, H2. cbn [Nat.eqb Nat.ltb Nat.leb andb].
  destruct (cc_loop _ _ _ _ _ _ _) as [[n cv] e]. eexists. split; reflexivity.
Qed.
Lemma converged_attr : exists c E resid (amp : nat -> unit) r, ccsd_nfock c E resid amp false = Ok r /\
  snd (fst (cc_loop E resid (eth c) (tth c) (max_cycle c) 0 0%Q)) = true /\ attr_converged r = false.
Proof.
  exists (CC 0 0 5 (1#10) (1#10) 0), (fun _ => 0%Q), (fun _ => 0%Q), (fun _ => tt). eexists. repeat split.
Qed.
