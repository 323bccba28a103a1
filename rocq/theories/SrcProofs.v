(** Proofs about the layer profiles and the sources. *)
From Coq Require Import Reals ZArith List Bool Lra Lia FinFun.
From Verif Require Import SrcModel SrcSpec.
Import ListNotations.
Local Open Scope R_scope.

(** ** Layers *)
Lemma cdiv_ok x y : y <> 0 -> cdiv x y = Some (x / y).
Proof. intro h; unfold cdiv; destruct (Req_EM_T y 0); [contradiction | reflexivity]. Qed.
Lemma cdiv_zero x : cdiv x 0 = None.
Proof. unfold cdiv; destruct (Req_EM_T 0 0); [reflexivity | lra]. Qed.
Lemma cpow_pos x y : 0 < x -> cpow x y = Some (Rpower x y).
Proof. intro h; unfold cpow; destruct (Rlt_dec 0 x); [reflexivity | contradiction]. Qed.
Lemma cpow_zero y : 0 < y -> cpow 0 y = Some 0.
Proof.
  intro h; unfold cpow; destruct (Rlt_dec 0 0); [lra|].
  destruct (Req_EM_T 0 0); [|lra]. destruct (Rlt_dec 0 y); [reflexivity | lra].
Qed.

Lemma sep l : layer_ok l -> IZR (pml_l l) + / 2 < IZR (size l - pml_r l - 1).
Proof.
  intros (_ & _ & _ & h & _).
  assert (h1 : (pml_l l + 1 <= size l - pml_r l - 1)%Z) by lia.
  apply IZR_le in h1. rewrite plus_IZR in h1. lra.
Qed.

Lemma graded_le0 top o d : d <= 0 -> graded top o d = 0.
Proof. intro h; unfold graded; destruct (Rlt_dec 0 d); lra. Qed.
Lemma graded_pos top o d : 0 < d -> graded top o d = top * Rpower d o.
Proof. intro h; unfold graded; destruct (Rlt_dec 0 d); lra. Qed.

Lemma peak_eq beps s o : sigma_max PI beps s o = peak s o (sqrt beps).
Proof. reflexivity. Qed.

Lemma sigma_graded beps l a : layer_ok l ->
  sigma PI beps l a = Some (graded (peak (sig_l l) (order_l l) (sqrt beps)) (order_l l) (depth_l l a)
                          + graded (peak (sig_r l) (order_r l) (sqrt beps)) (order_r l) (depth_r l a)).
Proof.
  intro h. pose proof (sep l h) as hs. destruct h as (hp & h1 & h2 & h3 & o1 & o2 & s1 & s2).
  apply IZR_lt in h1. apply IZR_lt in h2. unfold sigma. rewrite hp.
  assert (i1 : 0 < / IZR (pml_l l)) by (apply Rinv_0_lt_compat; exact h1).
  assert (i2 : 0 < / IZR (pml_r l)) by (apply Rinv_0_lt_compat; exact h2).
  destruct (Rlt_dec a (IZR (pml_l l) + / 2)) as [ha | ha].
  - rewrite cdiv_ok by lra. cbn [obind].
    assert (hd : - (a - (IZR (pml_l l) + / 2)) / IZR (pml_l l) = depth_l l a) by (unfold depth_l, Rdiv; ring).
    rewrite hd. assert (hd0 : 0 < depth_l l a) by (unfold depth_l, Rdiv; apply Rmult_lt_0_compat; lra).
    rewrite cpow_pos by exact hd0. cbn [obind]. rewrite peak_eq.
    rewrite (graded_pos _ _ (depth_l l a)) by exact hd0.
    rewrite (graded_le0 _ _ (depth_r l a)).
    + f_equal. ring.
    + assert (0 <= (IZR (size l - pml_r l - 1) - a) * / IZR (pml_r l)) by (apply Rmult_le_pos; lra).
      unfold depth_r, Rdiv. lra.
  - assert (hl : depth_l l a <= 0).
    { assert (0 <= (a - (IZR (pml_l l) + / 2)) * / IZR (pml_l l)) by (apply Rmult_le_pos; lra).
      unfold depth_l, Rdiv. lra. }
    rewrite (graded_le0 _ _ (depth_l l a)) by exact hl.
    destruct (Rlt_dec a (IZR (size l - pml_r l - 1))) as [hb | hb].
    + rewrite graded_le0; [f_equal; ring|].
      assert (0 <= (IZR (size l - pml_r l - 1) - a) * / IZR (pml_r l)) by (apply Rmult_le_pos; lra).
      unfold depth_r, Rdiv. lra.
    + rewrite cdiv_ok by lra. cbn [obind]. fold (depth_r l a).
      destruct (Rle_lt_or_eq_dec (IZR (size l - pml_r l - 1)) a) as [hc | hc]; [lra| |].
      * assert (hd0 : 0 < depth_r l a) by (unfold depth_r, Rdiv; apply Rmult_lt_0_compat; lra).
        rewrite cpow_pos by exact hd0. cbn [obind]. rewrite graded_pos by exact hd0.
        rewrite peak_eq. f_equal. ring.
      * assert (hd0 : depth_r l a = 0) by (unfold depth_r; rewrite hc; unfold Rdiv; ring).
        rewrite hd0. rewrite cpow_zero by lra. cbn [obind]. rewrite graded_le0 by lra. f_equal. ring.
Qed.

Lemma peak_nonneg s o n : 0 <= s -> 0 < o -> 0 < n -> 0 <= peak s o n.
Proof.
  intros. unfold peak, Rdiv. pose proof PI_RGT_0. apply Rmult_le_pos.
  - apply Rmult_le_pos; lra.
  - apply Rlt_le, Rinv_0_lt_compat. apply Rmult_lt_0_compat; lra.
Qed.
Lemma Rpower_pos x y : 0 < Rpower x y.
Proof. unfold Rpower. apply exp_pos. Qed.
Lemma graded_nonneg top o d : 0 <= top -> 0 <= graded top o d.
Proof.
  intro h. unfold graded. destruct (Rlt_dec 0 d); [|lra].
  apply Rmult_le_pos; [exact h | left; apply Rpower_pos].
Qed.
Lemma graded_mono top o d d' : 0 <= top -> 0 < o -> d <= d' -> graded top o d <= graded top o d'.
Proof.
  intros ht ho hd. unfold graded. destruct (Rlt_dec 0 d) as [h|h]; destruct (Rlt_dec 0 d') as [h'|h']; try lra.
  - apply Rmult_le_compat_l; [exact ht|]. apply Rle_Rpower_l; lra.
  - apply Rmult_le_pos; [exact ht | left; apply Rpower_pos].
Qed.

Lemma sigma_interior beps l a : layer_ok l ->
  IZR (pml_l l) + / 2 <= a <= IZR (size l - pml_r l - 1) -> sigma PI beps l a = Some 0.
Proof.
  intros h ha. rewrite (sigma_graded beps l a h). destruct h as (hp & h1 & h2 & h3 & o1 & o2 & s1 & s2).
  apply IZR_lt in h1. apply IZR_lt in h2.
  assert (i1 : 0 < / IZR (pml_l l)) by (apply Rinv_0_lt_compat; exact h1).
  assert (i2 : 0 < / IZR (pml_r l)) by (apply Rinv_0_lt_compat; exact h2).
  rewrite !graded_le0; [f_equal; ring| |].
  - assert (0 <= (IZR (size l - pml_r l - 1) - a) * / IZR (pml_r l)) by (apply Rmult_le_pos; lra).
    unfold depth_r, Rdiv. lra.
  - assert (0 <= (a - (IZR (pml_l l) + / 2)) * / IZR (pml_l l)) by (apply Rmult_le_pos; lra).
    unfold depth_l, Rdiv. lra.
Qed.

Lemma sigma_mono_l beps l a b : layer_ok l -> 0 < beps -> a <= b <= IZR (pml_l l) + / 2 ->
  exists va vb, sigma PI beps l a = Some va /\ sigma PI beps l b = Some vb /\ 0 <= vb <= va.
Proof.
  intros h hb hab. pose proof (sep l h) as hs.
  rewrite (sigma_graded beps l a h), (sigma_graded beps l b h).
  destruct h as (hp & h1 & h2 & h3 & o1 & o2 & s1 & s2).
  apply IZR_lt in h1. apply IZR_lt in h2.
  assert (i1 : 0 < / IZR (pml_l l)) by (apply Rinv_0_lt_compat; exact h1).
  assert (i2 : 0 < / IZR (pml_r l)) by (apply Rinv_0_lt_compat; exact h2).
  assert (0 < sqrt beps) by (apply sqrt_lt_R0; exact hb).
  assert (z : forall x, x <= IZR (pml_l l) + / 2 -> depth_r l x <= 0).
  { intros x hx. assert (0 <= (IZR (size l - pml_r l - 1) - x) * / IZR (pml_r l)) by (apply Rmult_le_pos; lra).
    unfold depth_r, Rdiv. lra. }
  rewrite !(graded_le0 _ _ (depth_r l _)) by (apply z; lra).
  do 2 eexists. repeat split; try reflexivity.
  - rewrite Rplus_0_r. apply graded_nonneg, peak_nonneg; auto.
  - rewrite !Rplus_0_r. apply graded_mono; auto.
    + apply peak_nonneg; auto.
    + unfold depth_l, Rdiv. apply Rmult_le_compat_r; lra.
Qed.
Lemma sigma_mono_r beps l a b : layer_ok l -> 0 < beps -> IZR (size l - pml_r l - 1) <= a <= b ->
  exists va vb, sigma PI beps l a = Some va /\ sigma PI beps l b = Some vb /\ 0 <= va <= vb.
Proof.
  intros h hb hab. pose proof (sep l h) as hs.
  rewrite (sigma_graded beps l a h), (sigma_graded beps l b h).
  destruct h as (hp & h1 & h2 & h3 & o1 & o2 & s1 & s2).
  apply IZR_lt in h1. apply IZR_lt in h2.
  assert (i1 : 0 < / IZR (pml_l l)) by (apply Rinv_0_lt_compat; exact h1).
  assert (i2 : 0 < / IZR (pml_r l)) by (apply Rinv_0_lt_compat; exact h2).
  assert (0 < sqrt beps) by (apply sqrt_lt_R0; exact hb).
  assert (z : forall x, IZR (size l - pml_r l - 1) <= x -> depth_l l x <= 0).
  { intros x hx. assert (0 <= (x - (IZR (pml_l l) + / 2)) * / IZR (pml_l l)) by (apply Rmult_le_pos; lra).
    unfold depth_l, Rdiv. lra. }
  rewrite !(graded_le0 _ _ (depth_l l _)) by (apply z; lra).
  do 2 eexists. repeat split; try reflexivity.
  - rewrite Rplus_0_l. apply graded_nonneg, peak_nonneg; auto.
  - rewrite !Rplus_0_l. apply graded_mono; auto.
    + apply peak_nonneg; auto.
    + unfold depth_r, Rdiv. apply Rmult_le_compat_r; lra.
Qed.

(** the same layer on both sides: the profile is symmetric *)
Lemma sigma_mirror beps l a : layer_ok l ->
  pml_l l = pml_r l -> order_l l = order_r l -> sig_l l = sig_r l ->
  sigma PI beps l (IZR (size l) - / 2 - a) = sigma PI beps l a.
Proof.
  intros h e1 e2 e3. rewrite !(sigma_graded beps l _ h). rewrite e2, e3. f_equal. rewrite Rplus_comm.
  assert (d1 : depth_r l (IZR (size l) - / 2 - a) = depth_l l a).
  { unfold depth_r, depth_l. rewrite e1. f_equal. rewrite !minus_IZR. lra. }
  assert (d2 : depth_l l (IZR (size l) - / 2 - a) = depth_r l a).
  { unfold depth_r, depth_l. rewrite e1. f_equal. rewrite !minus_IZR. lra. }
  rewrite d1, d2. reflexivity.
Qed.

(** the value at the last cells *)
Lemma sigma_ends beps l : layer_ok l ->
  sigma PI beps l (/ 2) = Some (peak (sig_l l) (order_l l) (sqrt beps)) /\
  sigma PI beps l (IZR (size l - 1)) = Some (peak (sig_r l) (order_r l) (sqrt beps)).
Proof.
  intro h. pose proof (sep l h) as hs. rewrite !(sigma_graded beps l _ h).
  destruct h as (hp & h1 & h2 & h3 & o1 & o2 & s1 & s2).
  apply IZR_lt in h1. apply IZR_lt in h2. rewrite !minus_IZR in hs.
  assert (i1 : 0 < / IZR (pml_l l)) by (apply Rinv_0_lt_compat; exact h1).
  assert (i2 : 0 < / IZR (pml_r l)) by (apply Rinv_0_lt_compat; exact h2).
  assert (Rpower1 : forall o, Rpower 1 o = 1) by (intro o; unfold Rpower; rewrite ln_1, Rmult_0_r; apply exp_0).
  split; f_equal.
  - assert (d : depth_l l (/ 2) = 1) by (unfold depth_l; field; lra). rewrite d, graded_pos, Rpower1 by lra.
    rewrite graded_le0; [ring|].
    assert (0 <= (IZR (size l) - IZR (pml_r l) - 1 - / 2) * / IZR (pml_r l)) by (apply Rmult_le_pos; lra).
    unfold depth_r, Rdiv. rewrite !minus_IZR. lra.
  - assert (d : depth_r l (IZR (size l - 1)) = 1) by (unfold depth_r; rewrite !minus_IZR; field; lra).
    rewrite d, (graded_pos _ _ 1), Rpower1 by lra.
    rewrite graded_le0; [ring|].
    assert (0 <= (IZR (size l) - 1 - (IZR (pml_l l) + / 2)) * / IZR (pml_l l)) by (apply Rmult_le_pos; lra).
    unfold depth_l, Rdiv. rewrite !minus_IZR. lra.
Qed.

Definition no_layer : layer := Layer false 1 1 (7 / 2) (7 / 2) 0 10 100.
Lemma sigma_zero_layer beps : sigma PI beps no_layer 0 = None.
Proof.
  unfold sigma, no_layer; cbn [periodic pml_l order_l sig_l]. destruct (Rlt_dec 0 (0 + / 2)); [|lra].
  rewrite cdiv_zero. reflexivity.
Qed.
Definition no_layer_r : layer := Layer false 1 1 (7 / 2) (7 / 2) 10 0 100.
Lemma sigma_zero_layer_r beps : sigma PI beps no_layer_r 99 = None.
Proof.
  unfold sigma, no_layer_r; cbn [periodic pml_l pml_r order_l sig_l size].
  replace (100 - 0 - 1)%Z with 99%Z by reflexivity.
  destruct (Rlt_dec 99 (10 + / 2)); [lra|]. destruct (Rlt_dec 99 99); [lra|].
  rewrite cdiv_zero. reflexivity.
Qed.

Lemma coefficient_bounds beps eo dt k l a : layer_ok l -> 0 < beps -> 0 < eo -> 0 < dt -> 0 < k ->
  exists s x y, sigma PI beps l a = Some s /\ coefficient PI beps eo dt k l a = Some (x, y) /\
    -1 < x <= 1 /\ 0 < y <= dt / k /\ (x < 1 <-> 0 < s).
Proof.
  intros h hb he hd hk. unfold coefficient. rewrite (sigma_graded beps l a h). cbn [obind].
  set (s := _ + _).
  assert (hs : 0 <= s).
  { destruct h as (hp & h1 & h2 & h3 & o1 & o2 & s1 & s2). assert (0 < sqrt beps) by (apply sqrt_lt_R0; exact hb).
    unfold s. apply Rplus_le_le_0_compat; apply graded_nonneg, peak_nonneg; auto. }
  clearbody s.
  assert (h0 : 0 < 2 * eo * k) by (repeat apply Rmult_lt_0_compat; lra).
  assert (h1 : 0 <= dt * s) by (apply Rmult_le_pos; lra).
  unfold co_minus, co_drive. rewrite !cdiv_ok by lra. cbn [obind].
  exists s; do 2 eexists. split; [reflexivity|]. split; [reflexivity|].
  assert (hi : 0 < / (2 * eo * k + dt * s)) by (apply Rinv_0_lt_compat; lra).
  assert (e : (2 * eo * k - dt * s) / (2 * eo * k + dt * s) = 1 - 2 * (dt * s) * / (2 * eo * k + dt * s)) by (field; lra).
  assert (e' : (2 * eo * k - dt * s) / (2 * eo * k + dt * s) = -1 + 2 * (2 * eo * k) * / (2 * eo * k + dt * s)) by (field; lra).
  assert (p1 : 0 < (2 * eo * k) * / (2 * eo * k + dt * s)) by (apply Rmult_lt_0_compat; lra).
  assert (p2 : 0 <= (dt * s) * / (2 * eo * k + dt * s)) by (apply Rmult_le_pos; lra).
  split; [split; [rewrite e'; lra | rewrite e; lra]|]. split; [split|].
  - unfold Rdiv. apply Rmult_lt_0_compat; [|exact hi]. repeat apply Rmult_lt_0_compat; lra.
  - apply Rmult_le_reg_r with ((2 * eo * k + dt * s) * k); [apply Rmult_lt_0_compat; lra|].
    replace (2 * eo * dt / (2 * eo * k + dt * s) * ((2 * eo * k + dt * s) * k)) with (2 * eo * dt * k) by (field; lra).
    replace (dt / k * ((2 * eo * k + dt * s) * k)) with (2 * eo * dt * k + dt * (dt * s)) by (field; lra).
    assert (0 <= dt * (dt * s)) by (apply Rmult_le_pos; lra). lra.
  - rewrite e. split; intro hh.
    + destruct (Rle_lt_or_eq_dec 0 s hs) as [|e0]; [assumption|]. subst s.
      rewrite Rmult_0_r, Rmult_0_r, Rmult_0_l in hh. lra.
    + assert (0 < (dt * s) * / (2 * eo * k + dt * s)) by (repeat apply Rmult_lt_0_compat; lra). lra.
Qed.
Lemma coefficient_zero_layer beps eo dt k : coefficient PI beps eo dt k no_layer 0 = None.
Proof. unfold coefficient. rewrite sigma_zero_layer. reflexivity. Qed.

(** ** Convolutional layers *)
Lemma pow01 q n : 0 <= q <= 1 -> 0 <= q ^ n <= 1.
Proof.
  intro h. split; [apply pow_le; lra|]. rewrite <- (pow1 n). apply pow_incr; lra.
Qed.
Lemma cp_facts c q : cpml_ok c -> 0 <= q <= 1 -> 0 <= cp_sigma c q /\ 1 <= cp_kappa c q <= kappaC c.
Proof.
  intros (hu & hm & hma & hs & ha & hk & hd & he) hq. pose proof (pow01 q (m_pml c) hq) as hp.
  split; [unfold cp_sigma; apply Rmult_le_pos; lra|]. unfold cp_kappa. split.
  - assert (0 <= (kappaC c - 1) * q ^ m_pml c) by (apply Rmult_le_pos; lra). lra.
  - assert ((kappaC c - 1) * q ^ m_pml c <= (kappaC c - 1) * 1) by (apply Rmult_le_compat_l; lra). lra.
Qed.
Lemma cp_bounds c q q' : cpml_ok c -> 0 <= q <= 1 -> q' = 1 - q ->
  0 < cp_b c q q' < 1 /\ exists v, cp_a c q q' = Some v /\ -1 < v <= 0.
Proof.
  intros hc hq hq'. destruct (cp_facts c q hc hq) as (h1 & h2 & h3).
  destruct hc as (hu & hm & hma & hs & ha & hk & hd & he).
  assert (ha' : 0 <= cp_alpha c q').
  { unfold cp_alpha. apply Rmult_le_pos; [lra|]. apply pow_le. lra. }
  assert (hpos : 0 < cp_sigma c q + cp_alpha c q').
  { destruct (Rle_lt_or_eq_dec 0 q) as [hq0 | hq0]; [lra| |].
    - assert (0 < cp_sigma c q); [|lra]. unfold cp_sigma. apply Rmult_lt_0_compat; [lra | apply pow_lt; exact hq0].
    - assert (0 < cp_alpha c q'); [|lra]. unfold cp_alpha. apply Rmult_lt_0_compat; [lra|]. apply pow_lt. lra. }
  set (x := cp_sigma c q) in *. set (y := cp_alpha c q') in *. set (kp := cp_kappa c q) in *.
  assert (ik : 0 < / kp) by (apply Rinv_0_lt_compat; lra).
  assert (hk1 : 0 <= kp * y) by (apply Rmult_le_pos; lra).
  assert (hden : 0 < x + kp * y).
  { destruct (Rle_lt_or_eq_dec 0 y ha') as [hy | hy].
    - assert (0 < kp * y) by (apply Rmult_lt_0_compat; lra). lra.
    - rewrite <- hy in *. lra. }
  assert (hexp : 0 < x / kp + y).
  { replace (x / kp + y) with ((x + kp * y) * / kp) by (field; lra). apply Rmult_lt_0_compat; lra. }
  assert (hb : 0 < cp_b c q q' < 1).
  { unfold cp_b. fold x y kp. split; [apply exp_pos|]. rewrite <- exp_0. apply exp_increasing.
    assert (0 < (x / kp + y) * dt_nm c * / eps0 c).
    { apply Rmult_lt_0_compat; [apply Rmult_lt_0_compat; lra|]. apply Rinv_0_lt_compat; lra. }
    unfold Rdiv. unfold Rdiv in H. lra. }
  split; [exact hb|]. unfold cp_a. fold x y kp. rewrite cdiv_ok by lra. cbn [obind]. rewrite cdiv_ok by lra.
  eexists; split; [reflexivity|]. set (b := cp_b c q q') in *. clearbody b.
  replace (x * (b - 1) / (x + kp * y) / kp) with (- ((1 - b) * (x * / (x + kp * y) * / kp))) by (field; lra).
  assert (f1 : 0 <= x * / (x + kp * y) <= 1).
  { split; [apply Rmult_le_pos; [lra | left; apply Rinv_0_lt_compat; lra]|].
    apply Rmult_le_reg_r with (x + kp * y); [lra|].
    replace (x * / (x + kp * y) * (x + kp * y)) with x by (field; lra). lra. }
  assert (f2 : / kp <= 1) by (rewrite <- Rinv_1; apply Rinv_le_contravar; lra).
  assert (f3 : 0 <= x * / (x + kp * y) * / kp <= 1).
  { split; [apply Rmult_le_pos; lra|].
    apply Rle_trans with (1 * / kp); [apply Rmult_le_compat_r; lra | lra]. }
  assert (f4 : 0 <= (1 - b) * (x * / (x + kp * y) * / kp) <= 1 - b).
  { split; [apply Rmult_le_pos; lra|].
    apply Rle_trans with ((1 - b) * 1); [apply Rmult_le_compat_l; lra | lra]. }
  lra.
Qed.

Lemma in_unit x n : 0 < n -> 0 <= x <= n -> 0 <= x / n <= 1.
Proof.
  intros hn hx. unfold Rdiv. assert (0 < / n) by (apply Rinv_0_lt_compat; lra). split.
  - apply Rmult_le_pos; lra.
  - apply Rmult_le_reg_r with n; [lra|]. rewrite Rmult_assoc, Rinv_l by lra. lra.
Qed.

(** positions inside a layer, as sampled at whole and half cells *)
Lemma cpml_layer c a bl br : cpml_ok c -> (0 < bl)%Z -> (0 < br)%Z -> (bl + br + 2 <= isize c)%Z ->
  (0 <= a <= IZR bl \/ IZR (isize c - br - 1) <= a <= IZR (isize c - 1)) ->
  0 < cpmlbx c a bl br < 1 /\ (exists v, cpmlax c a bl br = Some v /\ -1 < v <= 0) /\
  1 <= kappa_x c a bl br <= kappaC c.
Proof.
  intros hc h1 h2 h3 ha. pose proof hc as (hu & _).
  assert (hs : (bl + 1 <= isize c - br - 1)%Z) by lia. apply IZR_le in hs. rewrite plus_IZR in hs.
  apply IZR_lt in h1. apply IZR_lt in h2. unfold cpmlbx, cpmlax, kappa_x. rewrite hu.
  destruct (Rlt_dec a (IZR bl + / 2)) as [ha' | ha'].
  - destruct ha as [ha | ha]; [|lra].
    assert (hq : 0 <= (IZR bl - a) / IZR bl <= 1) by (apply in_unit; lra).
    assert (hq' : a / IZR bl = 1 - (IZR bl - a) / IZR bl) by (field; lra).
    destruct (cp_bounds c _ _ hc hq hq') as (hb & hv). destruct (cp_facts c _ hc hq) as (_ & hk).
    split; [exact hb|]. split; [exact hv | exact hk].
  - destruct (Rlt_dec a (IZR (isize c - br - 1))) as [hb | hb]; [lra|].
    destruct ha as [ha | ha]; [lra|].
    assert (eq : IZR (isize c - 1) = IZR (isize c - br - 1) + IZR br) by (rewrite !minus_IZR; lra).
    assert (hq : 0 <= (a - IZR (isize c - br - 1)) / IZR br <= 1) by (apply in_unit; lra).
    assert (hq' : (IZR (isize c - 1) - a) / IZR br = 1 - (a - IZR (isize c - br - 1)) / IZR br)
      by (rewrite eq; field; lra).
    destruct (cp_bounds c _ _ hc hq hq') as (hb' & hv). destruct (cp_facts c _ hc hq) as (_ & hk).
    split; [exact hb'|]. split; [exact hv | exact hk].
Qed.
Lemma cpml_interior c a bl br : cpml_ok c ->
  IZR bl + / 2 <= a < IZR (isize c - br - 1) ->
  cpmlbx c a bl br = 1 /\ cpmlax c a bl br = Some 0 /\ kappa_x c a bl br = 1.
Proof.
  intros (hu & _) ha. unfold cpmlbx, cpmlax, kappa_x. rewrite hu.
  destruct (Rlt_dec a (IZR bl + / 2)); [lra|].
  destruct (Rlt_dec a (IZR (isize c - br - 1))); [auto | lra].
Qed.

(** the default parameters (parameter.c:320-325) with a box of 40 cells in x *)
Definition c40 : cpml := Cpml 3 1 1 (/ 20) 5 false 40 1 1.
Lemma c40_ok : cpml_ok c40.
Proof. unfold cpml_ok, c40; cbn; repeat split; try lra; lia. Qed.
(** in a box of 20 cells in y, the last cell of the layer of 5 cells *)
Lemma cpml_y : cpmlbx c40 (IZR (20 - 1)) 5 5 = 1 /\ cpmlax c40 (IZR (20 - 1)) 5 5 = Some 0.
Proof.
  destruct (cpml_interior c40 (IZR (20 - 1)) 5 5 c40_ok) as (h1 & h2 & _); [|auto].
  cbn [isize c40]. replace (20 - 1)%Z with 19%Z by reflexivity. replace (40 - 5 - 1)%Z with 34%Z by reflexivity. lra.
Qed.

(** ** Amplitudes *)
Lemma gauss_phasor w fr ph to td t :
  Gauss_amp w fr ph to td t ^ 2 + iGauss_amp w fr ph to td t ^ 2 =
  (if in_window (to - 3 * td) (to + 3 * td) t then gauss_env td to t ^ 2 else 0).
Proof.
  unfold Gauss_amp, iGauss_amp. destruct (in_window _ _ _); [|ring].
  generalize (w * fr * IZR t + ph); intro x. pose proof (sin2_cos2 x) as h. unfold Rsqr in h.
  generalize dependent (gauss_env td to t); intro e.
  replace ((sin x * e) ^ 2 + (- cos x * e) ^ 2) with ((sin x * sin x + cos x * cos x) * e ^ 2) by ring.
  rewrite h. ring.
Qed.
Lemma lorentz_phasor w fr ph to td t : td <> 0%Z ->
  Lorentz_amp w fr ph to td t ^ 2 + iLorentz_amp w fr ph to td t ^ 2 =
  (if (to <=? t)%Z && (t <? to + 8 * td)%Z then lorentz_env td to t ^ 2 else 0).
Proof.
  intro htd. unfold Lorentz_amp, iLorentz_amp.
  assert (e : (td =? 0)%Z = false) by (apply Z.eqb_neq; exact htd). rewrite e.
  destruct (_ && _); [|ring].
  generalize (w * fr * IZR (t - to) + ph); intro x. pose proof (sin2_cos2 x) as h. unfold Rsqr in h.
  generalize (lorentz_env td to t); intro v.
  replace ((sin x * v) ^ 2 + (- cos x * v) ^ 2) with ((sin x * sin x + cos x * cos x) * v ^ 2) by ring.
  rewrite h. ring.
Qed.
Lemma lorentz_cw w fr ph to t : iLorentz_amp w fr ph to 0 t = 0.
Proof.
  unfold iLorentz_amp. destruct (to <=? t)%Z eqn:e1; [|reflexivity]. destruct (t <? to + 8 * 0)%Z eqn:e2; [|reflexivity].
  apply Z.leb_le in e1. apply Z.ltb_lt in e2. lia.
Qed.
Lemma igauss_shift w fr ph to td t : iGauss_amp w fr ph to td t = Gauss_amp w fr (ph - PI / 2) to td t.
Proof.
  unfold Gauss_amp, iGauss_amp. destruct (in_window _ _ _); [|reflexivity]. f_equal.
  replace (w * fr * IZR t + (ph - PI / 2)) with ((w * fr * IZR t + ph) - PI / 2) by ring.
  rewrite sin_minus, sin_PI2, cos_PI2. ring.
Qed.
Lemma gauss_neg w fr ph to td t : Gauss_amp w fr (ph + PI) to td t = - Gauss_amp w fr ph to td t.
Proof.
  unfold Gauss_amp. destruct (in_window _ _ _); [|ring].
  rewrite <- Rplus_assoc, neg_sin. ring.
Qed.

(** ** Zero-frequency content *)
Lemma sum_from_app f a n m : sum_from f a (n + m) = sum_from f a n + sum_from f (a + Z.of_nat n) m.
Proof.
  revert a. induction n as [|n IH]; intro a; [cbn; rewrite Z.add_0_r; ring|].
  cbn [plus sum_from]. rewrite IH. replace (a + 1 + Z.of_nat n)%Z with (a + Z.of_nat (S n))%Z by lia. ring.
Qed.
Lemma sum_from_ext f g a n : (forall t, (a <= t < a + Z.of_nat n)%Z -> f t = g t) -> sum_from f a n = sum_from g a n.
Proof.
  revert a. induction n as [|n IH]; intros a h; [reflexivity|]. cbn [sum_from].
  rewrite (h a) by lia. rewrite (IH (a + 1)%Z); [reflexivity|]. intros t ht. apply h. lia.
Qed.
(** an odd function about c sums to zero over a window centred at c *)
Lemma sum_odd f c n : (forall d, f (c + d)%Z = - f (c - d)%Z) -> sum_from f (c - Z.of_nat n) (2 * n + 1) = 0.
Proof.
  intro h. induction n as [|n IH].
  - cbn. pose proof (h 0%Z) as h0. rewrite Z.add_0_r, Z.sub_0_r in *. lra.
  - replace (2 * S n + 1)%nat with (1 + ((2 * n + 1) + 1))%nat by lia.
    rewrite (sum_from_app f _ 1), (sum_from_app f _ (2 * n + 1) 1). cbn [sum_from].
    replace (c - Z.of_nat (S n) + Z.of_nat 1)%Z with (c - Z.of_nat n)%Z by lia. rewrite IH.
    replace (c - Z.of_nat n + Z.of_nat (2 * n + 1))%Z with (c + Z.of_nat (S n))%Z by lia.
    rewrite h. ring.
Qed.
Lemma gauss_odd w fr to td d :
  Gauss_amp w fr (Gaussian_phase w fr to) to td (to + d) = - Gauss_amp w fr (Gaussian_phase w fr to) to td (to - d).
Proof.
  unfold Gauss_amp, Gaussian_phase.
  assert (e : in_window (to - 3 * td) (to + 3 * td) (to + d) = in_window (to - 3 * td) (to + 3 * td) (to - d)).
  { unfold in_window.
    destruct (to - 3 * td <? to + d)%Z eqn:e1; destruct (to + d <? to + 3 * td)%Z eqn:e2;
    destruct (to - 3 * td <? to - d)%Z eqn:e3; destruct (to - d <? to + 3 * td)%Z eqn:e4; cbn; try reflexivity;
    rewrite ?Z.ltb_lt, ?Z.ltb_ge in *; lia. }
  rewrite e. destruct (in_window _ _ (to - d)); [|ring].
  assert (ge : gauss_env td to (to + d) = gauss_env td to (to - d)).
  { unfold gauss_env. f_equal. replace (to + d - to)%Z with d by lia. replace (to - d - to)%Z with (- d)%Z by lia.
    rewrite opp_IZR. unfold Rdiv. ring. }
  rewrite ge.
  replace (w * fr * IZR (to + d) + - (w * fr) * IZR to) with (w * fr * IZR d) by (rewrite plus_IZR; ring).
  replace (w * fr * IZR (to - d) + - (w * fr) * IZR to) with (- (w * fr * IZR d)) by (rewrite minus_IZR; ring).
  rewrite sin_neg. ring.
Qed.
Lemma gauss_dc w fr to td n :
  sum_from (Gauss_amp w fr (Gaussian_phase w fr to) to td) (to - Z.of_nat n) (2 * n + 1) = 0.
Proof. apply sum_odd. intro d. apply gauss_odd. Qed.

Lemma sum_from_pos f a n : (0 < n)%nat -> (forall t, (a <= t < a + Z.of_nat n)%Z -> 0 < f t) -> 0 < sum_from f a n.
Proof.
  revert a. induction n as [|n IH]; intros a hn h; [lia|]. cbn [sum_from].
  assert (h0 : 0 < f a) by (apply h; lia). destruct n as [|n]; [cbn; lra|].
  assert (0 < sum_from f (a + 1) (S n)); [|lra]. apply IH; [lia|]. intros t ht. apply h. lia.
Qed.
(** the Lorentzian source with its own phase helper: every term is positive as
    long as the oscillation is slow on the time of the decay *)
Lemma lorentz_dc w fr to td : (0 < td)%Z -> 0 < w * fr -> w * fr * IZR (8 * td) <= 3 / 2 ->
  0 < sum_from (Lorentz_amp w fr (Lorentzian_phase w fr td) to td) to (Z.to_nat (8 * td)).
Proof.
  intros ht hw hs. apply sum_from_pos; [lia|]. intros t h. rewrite Z2Nat.id in h by lia.
  unfold Lorentz_amp. assert (e : (td =? 0)%Z = false) by (apply Z.eqb_neq; lia). rewrite e.
  assert (e1 : (to <=? t)%Z = true) by (apply Z.leb_le; lia).
  assert (e2 : (t <? to + 8 * td)%Z = true) by (apply Z.ltb_lt; lia). rewrite e1, e2. cbn [andb].
  apply Rmult_lt_0_compat; [|apply exp_pos].
  unfold Lorentzian_phase. set (om := w * fr) in *. set (ga := 1 / IZR td).
  assert (htd : 0 < IZR td) by (apply IZR_lt; exact ht).
  assert (hg : 0 < ga) by (unfold ga, Rdiv; apply Rmult_lt_0_compat; [lra | apply Rinv_0_lt_compat; lra]).
  set (r := sqrt (om * om + ga * ga)).
  assert (hr : ga < r).
  { unfold r. rewrite <- (sqrt_square ga) at 1 by lra. apply sqrt_lt_1_alt. split.
    - apply Rmult_le_pos; lra.
    - assert (0 < om * om) by (apply Rmult_lt_0_compat; lra). lra. }
  assert (hq : 0 < ga / r < 1).
  { split; [unfold Rdiv; apply Rmult_lt_0_compat; [lra | apply Rinv_0_lt_compat; lra]|].
    apply Rmult_lt_reg_r with r; [lra|]. unfold Rdiv. rewrite Rmult_assoc, Rinv_l by lra. lra. }
  assert (ha : 0 < asin (ga / r) < PI / 2).
  { pose proof (asin_bound_lt (ga / r)) as hb. assert (hb' : - (PI / 2) < asin (ga / r) < PI / 2) by (apply hb; lra).
    split; [|lra]. destruct (Rlt_dec 0 (asin (ga / r))) as [|hn]; [assumption|exfalso].
    pose proof (sin_asin (ga / r)) as hsa. rewrite <- (Ropp_involutive (asin (ga / r))), sin_neg in hsa.
    pose proof PI_RGT_0. assert (0 <= sin (- asin (ga / r))) by (apply sin_ge_0; lra). lra. }
  pose proof PI2_3_2. assert (hd : 0 <= IZR (t - to) <= IZR (8 * td)) by (split; apply IZR_le; lia).
  assert (0 <= om * IZR (t - to) <= om * IZR (8 * td)).
  { split; [apply Rmult_le_pos; lra | apply Rmult_le_compat_l; lra]. }
  apply sin_gt_0; lra.
Qed.

(** ** Deposits *)
Lemma sum_cons {A} (f : A -> R) a l : sum_over f (a :: l) = f a + sum_over f l.
Proof. reflexivity. Qed.
Definition at_loc (l : loc) (d : comp) (x y z : Z) : bool :=
  let '(c, i, j, k) := l in comp_eqb c d && ((i =? x) && (j =? y) && (k =? z))%Z.
Lemma add_at_val c i j k v f d x y z :
  add_at c i j k v f d x y z = f d x y z + (if at_loc (c, i, j, k) d x y z then v else 0).
Proof. unfold add_at, at_loc. destruct (_ && _); ring. Qed.
Lemma adds_val l f d x y z :
  adds l f d x y z = f d x y z + sum_over (fun a => if at_loc (fst a) d x y z then snd a else 0) l.
Proof.
  revert f. induction l as [|[[[[c i] j] k] v] l IH]; intro f; [cbn; ring|].
  change (adds (((c, i, j, k), v) :: l) f) with (adds l (add_at c i j k v f)).
  rewrite IH, add_at_val, sum_cons. cbn [fst snd]. ring.
Qed.

Lemma sum_over_ext {A} (f g : A -> R) l : (forall x, In x l -> f x = g x) -> sum_over f l = sum_over g l.
Proof. induction l as [|a l IH]; intro h; [reflexivity|].
  rewrite !sum_cons, (h a), IH; [reflexivity | intros x hx; apply h; right; exact hx | left; reflexivity]. Qed.
Lemma sum_over_plus {A} (f g : A -> R) l : sum_over (fun x => f x + g x) l = sum_over f l + sum_over g l.
Proof. induction l as [|a l IH]; [cbn; ring|]. rewrite !sum_cons, IH. ring. Qed.
Lemma sum_over_0 {A} (l : list A) : sum_over (fun _ => 0) l = 0.
Proof. induction l as [|a l IH]; cbn; [ring|]. rewrite Rplus_0_l. exact IH. Qed.
Lemma sum_over_at (a : Z) v l : NoDup l -> sum_over (fun x => if (a =? x)%Z then v else 0) l =
  if existsb (Z.eqb a) l then v else 0.
Proof.
  induction 1 as [|b l hb hl IH]; [reflexivity|]. rewrite sum_cons, IH. cbn [existsb].
  destruct (a =? b)%Z eqn:e; cbn [orb]; [|ring].
  apply Z.eqb_eq in e. subst b. destruct (existsb (Z.eqb a) l) eqn:e'; [|ring].
  apply existsb_exists in e'. destruct e' as (y & h1 & h2). apply Z.eqb_eq in h2. subst y. contradiction.
Qed.

Lemma box_plus g h xs ys zs : box_total (fun x y z => g x y z + h x y z) xs ys zs = box_total g xs ys zs + box_total h xs ys zs.
Proof.
  unfold box_total. rewrite <- sum_over_plus. apply sum_over_ext; intros x _.
  rewrite <- sum_over_plus. apply sum_over_ext; intros y _. apply sum_over_plus.
Qed.
Lemma box_ext g h xs ys zs : (forall x y z, g x y z = h x y z) -> box_total g xs ys zs = box_total h xs ys zs.
Proof. intro e. unfold box_total. repeat (apply sum_over_ext; intros ? _). apply e. Qed.
Lemma box_0 xs ys zs : box_total (fun _ _ _ => 0) xs ys zs = 0.
Proof.
  unfold box_total. rewrite (sum_over_ext _ (fun _ => 0)); [apply sum_over_0|]. intros x _.
  rewrite (sum_over_ext _ (fun _ => 0)); [apply sum_over_0|]. intros y _. apply sum_over_0.
Qed.
Lemma box_at i j k v xs ys zs : NoDup xs -> NoDup ys -> NoDup zs -> In i xs -> In j ys -> In k zs ->
  box_total (fun x y z => if ((i =? x) && (j =? y) && (k =? z))%Z then v else 0) xs ys zs = v.
Proof.
  intros nx ny nz hi hj hk. unfold box_total.
  assert (mem : forall a l, In a l -> existsb (Z.eqb a) l = true).
  { intros a l h. apply existsb_exists. exists a. split; [exact h | apply Z.eqb_refl]. }
  rewrite (sum_over_ext _ (fun x => if (i =? x)%Z then v else 0)).
  { rewrite sum_over_at by exact nx. rewrite mem by exact hi. reflexivity. }
  intros x _. destruct (i =? x)%Z; cbn [andb].
  - rewrite (sum_over_ext _ (fun y => if (j =? y)%Z then v else 0)).
    { rewrite sum_over_at by exact ny. rewrite mem by exact hj. reflexivity. }
    intros y _. destruct (j =? y)%Z; cbn [andb]; [|apply sum_over_0].
    rewrite sum_over_at by exact nz. rewrite mem by exact hk. reflexivity.
  - rewrite (sum_over_ext _ (fun _ => 0)); [apply sum_over_0|]. intros y _. apply sum_over_0.
Qed.
Lemma comp_eqb_refl c : comp_eqb c c = true. Proof. destruct c; reflexivity. Qed.
Lemma comp_eqb_eq c d : comp_eqb c d = true -> c = d. Proof. destruct c, d; cbn; congruence. Qed.

(** deposits of one component, all inside the box *)
Definition inside (xs ys zs : list Z) (l : loc) : Prop := let '(_, i, j, k) := l in In i xs /\ In j ys /\ In k zs.
Definition comp_of (l : loc) : comp := let '(c, _, _, _) := l in c.
Lemma box_adds l f d xs ys zs : NoDup xs -> NoDup ys -> NoDup zs ->
  (forall a, In a l -> comp_of (fst a) = d /\ inside xs ys zs (fst a)) ->
  box_total (adds l f d) xs ys zs = box_total (f d) xs ys zs + sum_over snd l.
Proof.
  intros nx ny nz. revert f. induction l as [|[[[[c i] j] k] v] l IH]; intros f h; [cbn; ring|].
  change (adds (((c, i, j, k), v) :: l) f) with (adds l (add_at c i j k v f)).
  rewrite IH by (intros a ha; apply h; right; exact ha).
  destruct (h _ (or_introl eq_refl)) as (e & h1 & h2 & h3). cbn in e. subst d.
  rewrite (box_ext _ (fun x y z => f c x y z + (if ((i =? x) && (j =? y) && (k =? z))%Z then v else 0))).
  - rewrite box_plus, box_at by assumption. rewrite sum_cons. cbn [snd]. ring.
  - intros x y z. rewrite add_at_val. unfold at_loc. rewrite comp_eqb_refl. reflexivity.
Qed.
Lemma adds_other l f d : (forall a, In a l -> comp_of (fst a) <> d) -> forall x y z, adds l f d x y z = f d x y z.
Proof.
  intros h x y z. rewrite adds_val. rewrite (sum_over_ext _ (fun _ => 0)); [rewrite sum_over_0; ring|].
  intros [[[[c i] j] k] v] ha. apply h in ha. cbn in ha. cbn.
  destruct (comp_eqb c d) eqn:e; [|reflexivity]. apply comp_eqb_eq in e. contradiction.
Qed.

Lemma cells_comp c i j k l : In l (cells c i j k) -> comp_of l = c.
Proof. destruct c; cbn; intuition (subst; reflexivity). Qed.
Lemma cells_inside c i j k xs ys zs :
  (forall x, i - 1 <= x <= i -> In x xs)%Z -> (forall x, j - 1 <= x <= j -> In x ys)%Z ->
  (forall x, k - 1 <= x <= k -> In x zs)%Z -> forall l, In l (cells c i j k) -> inside xs ys zs l.
Proof.
  intros hx hy hz l. destruct c; cbn; intuition (subst; cbn; repeat split; (apply hx || apply hy || apply hz); lia).
Qed.
Lemma dipole_sum c i j k a : sum_over snd (dipole_assign c i j k a) = a.
Proof. destruct c; cbn; field. Qed.

Lemma signed_amp w fr ph to td t neg :
  Gauss_amp w fr (signed_phase PI ph neg) to td t = (if neg then -1 else 1) * Gauss_amp w fr ph to td t.
Proof. destruct neg; unfold signed_phase; [rewrite gauss_neg|]; ring. Qed.

Lemma dipole_total w fr ph to td t c neg i j k f xs ys zs : NoDup xs -> NoDup ys -> NoDup zs ->
  (forall x, i - 1 <= x <= i -> In x xs)%Z -> (forall x, j - 1 <= x <= j -> In x ys)%Z ->
  (forall x, k - 1 <= x <= k -> In x zs)%Z ->
  box_total (Gaussian_dipole_source w PI fr ph to td t c neg i j k f c) xs ys zs =
  box_total (f c) xs ys zs + (if neg then -1 else 1) * Gauss_amp w fr ph to td t /\
  (forall d x y z, d <> c -> Gaussian_dipole_source w PI fr ph to td t c neg i j k f d x y z = f d x y z).
Proof.
  intros nx ny nz hx hy hz. unfold Gaussian_dipole_source. split.
  - rewrite box_adds; auto.
    + rewrite dipole_sum, signed_amp. reflexivity.
    + intros a ha. unfold dipole_assign in ha. apply in_map_iff in ha. destruct ha as (l & e & hl). subst a. cbn [fst].
      split; [eapply cells_comp; exact hl | eapply cells_inside; eauto].
  - intros d x y z hd. apply adds_other. intros a ha. unfold dipole_assign in ha. apply in_map_iff in ha.
    destruct ha as (l & e & hl). subst a. cbn [fst]. apply cells_comp in hl. congruence.
Qed.

(** ** The plane wave *)
Lemma adds_app l1 l2 f : adds (l1 ++ l2) f = adds l2 (adds l1 f).
Proof. unfold adds. apply fold_left_app. Qed.
Lemma fold_adds {A} (g : A -> list (loc * R)) (l : list A) f :
  fold_left (fun f a => adds (g a) f) l f = adds (flat_map g l) f.
Proof. revert f. induction l as [|a l IH]; intro f; [reflexivity|]. cbn [fold_left flat_map]. rewrite IH, adds_app. reflexivity. Qed.
Lemma fold_ext {A B} (g h : A -> B -> A) l a : (forall a b, g a b = h a b) -> fold_left g l a = fold_left h l a.
Proof. intro e. revert a. induction l as [|b l IH]; intro a; [reflexivity|]. cbn. rewrite e. apply IH. Qed.
Lemma sum_over_app {A} (f : A -> R) l1 l2 : sum_over f (l1 ++ l2) = sum_over f l1 + sum_over f l2.
Proof. induction l1 as [|a l IH]; [cbn [app]; unfold sum_over at 2; cbn; ring|]. cbn [app]. rewrite !sum_cons, IH. ring. Qed.
Lemma sum_over_flat {A B} (f : B -> R) (g : A -> list B) l : sum_over f (flat_map g l) = sum_over (fun a => sum_over f (g a)) l.
Proof. induction l as [|a l IH]; [reflexivity|]. cbn [flat_map]. rewrite sum_over_app, IH. reflexivity. Qed.
Lemma sum_over_map {A B} (f : B -> R) (g : A -> B) l : sum_over f (map g l) = sum_over (fun a => f (g a)) l.
Proof. induction l as [|a l IH]; [reflexivity|]. cbn [map]. rewrite !sum_cons, IH. reflexivity. Qed.
Lemma upto_nodup n : NoDup (upto n).
Proof. unfold upto. apply FinFun.Injective_map_NoDup; [intros x y; lia | apply seq_NoDup]. Qed.
Lemma upto_mem n x : existsb (Z.eqb x) (upto n) = ((0 <=? x) && (x <=? Z.of_nat n))%Z.
Proof.
  destruct ((0 <=? x) && (x <=? Z.of_nat n))%Z eqn:e.
  - apply andb_true_iff in e. destruct e as (e1 & e2). apply Z.leb_le in e1. apply Z.leb_le in e2.
    apply existsb_exists. exists x. split; [|apply Z.eqb_refl]. unfold upto. apply in_map_iff.
    exists (Z.to_nat x). split; [lia|]. apply in_seq. lia.
  - destruct (existsb (Z.eqb x) (upto n)) eqn:e'; [|reflexivity].
    apply existsb_exists in e'. destruct e' as (y & h1 & h2). apply Z.eqb_eq in h2. subst y.
    unfold upto in h1. apply in_map_iff in h1. destruct h1 as (m & h1 & h2). apply in_seq in h2.
    apply andb_false_iff in e. rewrite !Z.leb_gt in e. lia.
Qed.
(** a sum over the nodes that only sees the node (x, y) *)
Lemma nodes_at n m (F : Z -> Z -> R) x y :
  sum_over (fun ij => if ((fst ij =? x) && (snd ij =? y))%Z then F (fst ij) (snd ij) else 0) (nodes n m) =
  if ((0 <=? x) && (x <=? Z.of_nat n) && ((0 <=? y) && (y <=? Z.of_nat m)))%Z then F x y else 0.
Proof.
  unfold nodes. rewrite sum_over_flat.
  rewrite (sum_over_ext _ (fun i => if (x =? i)%Z then (if ((0 <=? y) && (y <=? Z.of_nat m))%Z then F x y else 0) else 0)).
  - rewrite sum_over_at by apply upto_nodup. rewrite upto_mem. destruct ((0 <=? x) && (x <=? Z.of_nat n))%Z; reflexivity.
  - intros i _. rewrite sum_over_map. cbn [fst snd]. rewrite (Z.eqb_sym i x). destruct (x =? i)%Z eqn:e.
    + apply Z.eqb_eq in e. subst i. cbn [andb].
      rewrite (sum_over_ext _ (fun j => if (y =? j)%Z then F x y else 0)).
      * rewrite sum_over_at by apply upto_nodup. rewrite upto_mem. reflexivity.
      * intros j _. rewrite (Z.eqb_sym j y). destruct (y =? j)%Z eqn:e'; [|reflexivity]. apply Z.eqb_eq in e'. subst j. reflexivity.
    + cbn [andb]. apply sum_over_0.
Qed.

Lemma planewave_adds w z0 wx wy fr lx ly to td t n m k f :
  Gaussian_planewave w PI z0 wx wy fr lx ly to td t (CEx, false) (CHy, false) n m k f =
  adds (flat_map (fun ij => beam_assign CEx z0 (fst ij) (snd ij) k (1 * pw_amp w wx wy fr lx ly to td t (fst ij) (snd ij))
                 ++ beam_assign CHy z0 (fst ij) (snd ij) k (1 * pw_amp w wx wy fr lx ly to td t (fst ij) (snd ij))) (nodes n m)) f.
Proof.
  rewrite <- fold_adds. unfold Gaussian_planewave. apply fold_ext. intros g [i j]. rewrite adds_app. reflexivity.
Qed.
Lemma sum_over_map_filter {A B} (f : B -> R) (g : A -> B) p l :
  sum_over f (map g (filter p l)) = sum_over (fun a => if p a then f (g a) else 0) l.
Proof.
  induction l as [|a l IH]; [reflexivity|]. cbn [filter]. destruct (p a) eqn:e.
  - cbn [map]. change (f (g a) + sum_over f (map g (filter p l)) = (if p a then f (g a) else 0) + sum_over (fun a => if p a then f (g a) else 0) l).
    rewrite e, IH. reflexivity.
  - change (sum_over f (map g (filter p l)) = (if p a then f (g a) else 0) + sum_over (fun a => if p a then f (g a) else 0) l).
    rewrite e, IH. ring.
Qed.
Lemma sum_over_scale {A} (f : A -> R) v l : sum_over (fun x => f x * v) l = sum_over f l * v.
Proof. induction l as [|a l IH]; [cbn; ring|]. rewrite !sum_cons, IH. ring. Qed.

Lemma planewave_Ex w z0 wx wy fr lx ly to td t n m k f x y :
  (0 <= x <= Z.of_nat n)%Z -> (0 <= y <= Z.of_nat m)%Z -> (0 <= k)%Z ->
  Gaussian_planewave w PI z0 wx wy fr lx ly to td t (CEx, false) (CHy, false) n m k f CEx x y k =
  f CEx x y k + (pw_amp w wx wy fr lx ly to td t x y
                 + (if (x <? Z.of_nat n)%Z then pw_amp w wx wy fr lx ly to td t (x + 1) y else 0)) / 2.
Proof.
  intros hx hy hk. rewrite planewave_adds, adds_val. f_equal. rewrite sum_over_flat.
  set (A := pw_amp w wx wy fr lx ly to td t).
  rewrite (sum_over_ext _ (fun ij => (if ((fst ij =? x) && (snd ij =? y))%Z then A (fst ij) (snd ij) else 0) * / 2
                          + (if ((fst ij =? x + 1) && (snd ij =? y))%Z then A (fst ij) (snd ij) else 0) * / 2)).
  - rewrite sum_over_plus.
    rewrite !sum_over_scale, !nodes_at.
    replace ((0 <=? x) && (x <=? Z.of_nat n) && ((0 <=? y) && (y <=? Z.of_nat m)))%Z with true
      by (symmetry; rewrite !andb_true_iff, !Z.leb_le; lia).
    replace ((0 <=? x + 1) && (x + 1 <=? Z.of_nat n) && ((0 <=? y) && (y <=? Z.of_nat m)))%Z with (x <? Z.of_nat n)%Z.
    + field.
    + destruct (x <? Z.of_nat n)%Z eqn:e; symmetry.
      * apply Z.ltb_lt in e. rewrite !andb_true_iff, !Z.leb_le. lia.
      * apply Z.ltb_ge in e. rewrite !andb_false_iff, !Z.leb_gt. lia.
  - intros [i j] _. cbn [fst snd]. rewrite sum_over_app. unfold beam_assign. rewrite !sum_over_map_filter.
    cbn [cells sum_over fold_right fst snd at_loc comp_eqb andb nonneg is_E imp share].
    rewrite !Z.eqb_refl, !andb_true_r.
    destruct (i =? x)%Z eqn:e1; destruct (j =? y)%Z eqn:e2; cbn [andb];
    rewrite ?Z.eqb_eq, ?Z.eqb_neq in *; subst;
    repeat match goal with |- context [(?a =? ?b)%Z] => destruct (Z.eqb_spec a b); try lia end; cbn [andb];
    repeat match goal with |- context [if (?b : bool) then _ else _] => destruct b eqn:? end;
    repeat match goal with h : _ && _ = false |- _ => apply andb_false_iff in h; rewrite ?andb_false_iff, ?Z.leb_gt in h end;
    subst; try lia; unfold imp, share; cbn [is_E]; try field; try ring.
Qed.
Lemma planewave_Hy w z0 wx wy fr lx ly to td t n m k f x y z :
  (0 <= x <= Z.of_nat n)%Z -> (0 <= y <= Z.of_nat m)%Z -> (1 <= k)%Z -> (z = k \/ z = k - 1)%Z ->
  Gaussian_planewave w PI z0 wx wy fr lx ly to td t (CEx, false) (CHy, false) n m k f CHy x y z =
  f CHy x y z + z0 * (pw_amp w wx wy fr lx ly to td t x y
                 + (if (x <? Z.of_nat n)%Z then pw_amp w wx wy fr lx ly to td t (x + 1) y else 0)) / 4.
Proof.
  intros hx hy hk hz. rewrite planewave_adds, adds_val. f_equal. rewrite sum_over_flat.
  set (A := pw_amp w wx wy fr lx ly to td t).
  rewrite (sum_over_ext _ (fun ij => (if ((fst ij =? x) && (snd ij =? y))%Z then A (fst ij) (snd ij) else 0) * (z0 * / 4)
                          + (if ((fst ij =? x + 1) && (snd ij =? y))%Z then A (fst ij) (snd ij) else 0) * (z0 * / 4))).
  - rewrite sum_over_plus.
    rewrite !sum_over_scale, !nodes_at.
    replace ((0 <=? x) && (x <=? Z.of_nat n) && ((0 <=? y) && (y <=? Z.of_nat m)))%Z with true
      by (symmetry; rewrite !andb_true_iff, !Z.leb_le; lia).
    replace ((0 <=? x + 1) && (x + 1 <=? Z.of_nat n) && ((0 <=? y) && (y <=? Z.of_nat m)))%Z with (x <? Z.of_nat n)%Z.
    + field.
    + destruct (x <? Z.of_nat n)%Z eqn:e; symmetry.
      * apply Z.ltb_lt in e. rewrite !andb_true_iff, !Z.leb_le. lia.
      * apply Z.ltb_ge in e. rewrite !andb_false_iff, !Z.leb_gt. lia.
  - intros [i j] _. cbn [fst snd]. rewrite sum_over_app. unfold beam_assign. rewrite !sum_over_map_filter.
    cbn [cells sum_over fold_right fst snd at_loc comp_eqb andb nonneg is_E imp share].
    destruct hz as [-> | ->]; rewrite !Z.eqb_refl, !andb_true_r;
    destruct (i =? x)%Z eqn:e1; destruct (j =? y)%Z eqn:e2; cbn [andb];
    rewrite ?Z.eqb_eq, ?Z.eqb_neq in *; subst;
    repeat match goal with |- context [(?a =? ?b)%Z] => destruct (Z.eqb_spec a b); try lia end; cbn [andb];
    repeat match goal with |- context [if (?b : bool) then _ else _] => destruct b eqn:? end;
    repeat match goal with h : _ && _ = false |- _ => apply andb_false_iff in h; rewrite ?andb_false_iff, ?Z.leb_gt in h end;
    subst; try lia; unfold imp, share; cbn [is_E]; try field; try ring.
Qed.
(** no other component is touched *)
Lemma planewave_other w z0 wx wy fr lx ly to td t n m k f d : d <> CEx -> d <> CHy ->
  forall x y z, Gaussian_planewave w PI z0 wx wy fr lx ly to td t (CEx, false) (CHy, false) n m k f d x y z = f d x y z.
Proof.
  intros h1 h2 x y z. rewrite planewave_adds. apply adds_other. intros a ha. apply in_flat_map in ha.
  destruct ha as ([i j] & _ & ha). apply in_app_or in ha. unfold beam_assign in ha.
  destruct ha as [ha | ha]; apply in_map_iff in ha; destruct ha as (l & e & hl); subst a; cbn [fst];
  apply filter_In in hl; destruct hl as (hl & _); apply cells_comp in hl; congruence.
Qed.

Lemma bloch_ok wx wy lx ly i j : lx <> 0%Z -> same_angle (pw_phase PI wx wy lx ly (i + lx) j) (pw_phase PI wx wy lx ly i j + 2 * PI * wx).
Proof.
  intro h. exists 0%Z. unfold pw_phase. rewrite plus_IZR.
  assert (IZR lx <> 0) by (apply not_0_IZR; exact h).
  replace (wx * (IZR i + IZR lx) / IZR lx) with (wx * IZR i / IZR lx + wx) by (field; assumption). ring.
Qed.
Lemma bloch_bad : ~ same_angle (pw_phase PI (/ 4) 0 20 20 (0 + 40) 0) (pw_phase PI (/ 4) 0 20 20 0 0 + 2 * PI * / 4).
Proof.
  intros (m & h). unfold pw_phase in h. replace (0 + 40)%Z with 40%Z in h by reflexivity.
  pose proof PI_RGT_0. assert (e : PI * (1 / 2 - 2 * IZR m) = 0) by lra.
  apply Rmult_integral in e. destruct e as [e | e]; [lra|].
  assert (e' : IZR 1 = IZR (4 * m)) by (rewrite mult_IZR; lra). apply eq_IZR in e'. lia.
Qed.

(** ** Imaginary parts *)
Lemma ibeam_ok w z0 fr amp ph to td t c neg i j k f : c <> CHy \/ neg = true ->
  iGaussian_beam w PI z0 fr amp ph to td t c neg i j k f = Gaussian_beam w PI z0 fr amp (ph - PI / 2) to td t c neg i j k f.
Proof.
  intro h. unfold iGaussian_beam, Gaussian_beam. f_equal. rewrite igauss_shift.
  replace (signed_phase PI ph neg - PI / 2) with (signed_phase PI (ph - PI / 2) neg)
    by (unfold signed_phase; destruct neg; ring).
  unfold ibeam_assign, beam_assign. apply map_ext. intro l.
  assert (e : comp_eqb c CHy && negb neg = false).
  { destruct h as [h | h]; [destruct (comp_eqb c CHy) eqn:e; [apply comp_eqb_eq in e; contradiction | reflexivity]|].
    rewrite h. apply andb_false_r. }
  rewrite e. reflexivity.
Qed.
Lemma ibeam_bad : iGaussian_beam 0 PI 2 1 1 0 0 1 0 CHy false 1 1 1 (fun _ _ _ _ => 0) CHy 1%Z 1%Z 1%Z <>
  Gaussian_beam 0 PI 2 1 1 (0 - PI / 2) 0 1 0 CHy false 1 1 1 (fun _ _ _ _ => 0) CHy 1%Z 1%Z 1%Z.
Proof.
  unfold iGaussian_beam, Gaussian_beam. rewrite !adds_val.
  unfold ibeam_assign, beam_assign. rewrite !sum_over_map_filter. cbn.
  unfold imp, share. cbn [is_E]. unfold signed_phase, Gauss_amp, iGauss_amp. cbn.
  unfold gauss_env. replace (0 - 0)%Z with 0%Z by reflexivity.
  replace (-1 * (0 / 1) ^ 2) with 0 by field. rewrite exp_0.
  replace (0 * 1 * 0 + 0) with 0 by ring. rewrite cos_0.
  replace (0 * 1 * 0 + (0 - PI / 2)) with (- (PI / 2)) by ring. rewrite sin_neg, sin_PI2. lra.
Qed.
Lemma external_H z0 ext n m k f x y z : external_planewave z0 ext CEx CHy n m k f CHy x y z = f CHy x y z.
Proof.
  unfold external_planewave. cbn [comp_eqb].
  rewrite (fold_ext _ (fun f ij => adds (filter (fun a => nonneg (fst a))
    [((CEx, fst ij, snd ij, k), ext / 2); ((CEx, (fst ij - 1)%Z, snd ij, k), ext / 2)]) f)) by (intros g [i j]; reflexivity).
  rewrite fold_adds. apply adds_other. intros a ha. apply in_flat_map in ha. destruct ha as ([i j] & _ & ha).
  apply filter_In in ha. destruct ha as (ha & _). cbn in ha. destruct ha as [<- | [<- | []]]; discriminate.
Qed.

(** ** Random dipoles *)
Lemma set_nth_app {A} (pre post : list A) x x' : set_nth (length pre) x' (pre ++ x :: post) = pre ++ x' :: post.
Proof.
  unfold set_nth. rewrite firstn_app, firstn_all, Nat.sub_diag. cbn [firstn]. rewrite app_nil_r. f_equal.
  replace (pre ++ x :: post) with ((pre ++ [x]) ++ post) by (rewrite <- app_assoc; reflexivity).
  replace (S (length pre)) with (length (pre ++ [x])) by (rewrite app_length; cbn; lia).
  rewrite skipn_app, skipn_all, Nat.sub_diag. reflexivity.
Qed.
Lemma nth_error_mid {A} (pre post : list A) x : nth_error (pre ++ x :: post) (length pre) = Some x.
Proof. rewrite nth_error_app2, Nat.sub_diag by lia. reflexivity. Qed.

Definition renew_all (t : Z) (ds : list draw) (xs : list slot) : list slot := map (fun dx => renew t (fst dx) (snd dx)) (combine ds xs).
Lemma renew_eq t th ph ep tw x : renew t (th, ph, ep, tw) x = (if (t =? s_tau x)%Z then Slot th ph ep (t + tw) else x).
Proof. reflexivity. Qed.

(** later updates, from the second dipole on *)
Lemma one_step_rest t ds pre post : length post = length ds ->
  one_step t ds (IState (length pre) t true (pre ++ post)) =
  Some (combine (seq (length pre) (length ds)) (renew_all t ds post),
        IState (length pre + length ds) t true (pre ++ renew_all t ds post)).
Proof.
  revert pre post. induction ds as [|d ds IH]; intros pre post hl.
  - destruct post; [|discriminate]. cbn. rewrite Nat.add_0_r. reflexivity.
  - destruct post as [|x post]; [discriminate|]. cbn [one_step]. unfold dipole_slot. cbn [store_t one_round num slots].
    rewrite Z.eqb_refl, orb_true_r. cbn [num slots one_round pred]. rewrite nth_error_mid.
    destruct d as [[[th ph] ep] tw]. cbv zeta. rewrite <- renew_eq, set_nth_app.
    replace (pre ++ renew t (th, ph, ep, tw) x :: post) with ((pre ++ [renew t (th, ph, ep, tw) x]) ++ post)
      by (rewrite <- app_assoc; reflexivity).
    replace (S (length pre)) with (length (pre ++ [renew t (th, ph, ep, tw) x])) by (rewrite app_length; cbn; lia).
    rewrite IH by (cbn in hl; lia). rewrite app_length. cbn [length seq combine map fst snd].
    unfold renew_all. cbn [combine map fst snd]. rewrite Nat.add_1_r, <- app_assoc. cbn [app].
    replace (S (length pre) + length ds)%nat with (length pre + S (length ds))%nat by lia. reflexivity.
Qed.
(** a later update *)
Lemma one_step_later t t' b ds xs : t' <> (-100)%Z -> t' <> t -> length xs = length ds -> ds <> [] ->
  one_step t ds (IState (length xs) t' b xs) =
  Some (combine (seq 0 (length ds)) (renew_all t ds xs), IState (length ds) t true (renew_all t ds xs)).
Proof.
  intros h1 h2 hl hn. destruct ds as [|d ds]; [contradiction|]. destruct xs as [|x xs]; [discriminate|].
  cbn [one_step]. unfold dipole_slot. cbn [store_t one_round num slots].
  assert (e : ((t' =? -100) || (t' =? t))%Z = false) by (apply orb_false_iff; rewrite !Z.eqb_neq; auto). rewrite e.
  cbn [num slots one_round pred nth_error]. destruct d as [[[th ph] ep] tw]. cbv zeta. rewrite <- renew_eq.
  change (set_nth 0 (renew t (th, ph, ep, tw) x) (x :: xs)) with ([renew t (th, ph, ep, tw) x] ++ xs).
  change 1%nat with (length [renew t (th, ph, ep, tw) x]) at 1.
  rewrite one_step_rest by (cbn in hl; lia). cbn [length seq combine map fst snd app].
  unfold renew_all. cbn [combine map fst snd]. reflexivity.
Qed.
(** the first update *)
Lemma one_step_first t ds pre st : st = (-100)%Z \/ st = t ->
  one_step t ds (IState (length pre) st false pre) =
  Some (combine (seq (length pre) (length ds)) (renew_all t ds (repeat (Slot 0 0 0 t) (length ds))),
        IState (length pre + length ds) (match ds with [] => st | _ => t end) false
          (pre ++ renew_all t ds (repeat (Slot 0 0 0 t) (length ds)))).
Proof.
  revert pre st. induction ds as [|d ds IH]; intros pre st hst.
  - cbn. rewrite Nat.add_0_r, app_nil_r. reflexivity.
  - cbn [one_step]. unfold dipole_slot. cbn [store_t one_round num slots].
    assert (e : ((st =? -100) || (st =? t))%Z = true) by (apply orb_true_iff; rewrite !Z.eqb_eq; exact hst). rewrite e.
    cbn [num slots one_round pred]. rewrite firstn_all, nth_error_mid.
    destruct d as [[[th ph] ep] tw]. cbv zeta. rewrite <- renew_eq, set_nth_app.
    set (x := renew t (th, ph, ep, tw) (Slot 0 0 0 t)).
    replace (S (length pre)) with (length (pre ++ [x])) by (rewrite app_length; cbn; lia).
    rewrite IH by (right; reflexivity). rewrite app_length. cbn [length seq combine map fst snd repeat].
    unfold renew_all. cbn [combine map fst snd]. fold x. rewrite Nat.add_1_r, <- app_assoc. cbn [app].
    replace (S (length pre) + length ds)%nat with (length pre + S (length ds))%nat by lia.
    destruct ds; reflexivity.
Qed.
Lemma renew_all_length t ds xs : length xs = length ds -> length (renew_all t ds xs) = length ds.
Proof. intro h. unfold renew_all. rewrite map_length, combine_length. lia. Qed.

(** the states of all dipoles, update after update *)
Fixpoint run_all (t : Z) (dss : list (list draw)) (xs : list slot) : list (list slot) :=
  match dss with [] => [] | ds :: r => let xs' := renew_all t ds xs in xs' :: run_all (t + 1) r xs' end.
Lemma steps_later n t dss b xs : (0 < n)%nat -> (0 < t)%Z -> length xs = n -> (forall ds, In ds dss -> length ds = n) ->
  exists s, steps t dss (IState n (t - 1) b xs) = Some (map (combine (seq 0 n)) (run_all t dss xs), s).
Proof.
  intros hn. revert t b xs. induction dss as [|ds dss IH]; intros t b xs ht hl h.
  - eexists. reflexivity.
  - cbn [steps]. assert (e : length ds = n) by (apply h; left; reflexivity).
    replace (IState n (t - 1) b xs) with (IState (length xs) (t - 1) b xs) by (rewrite hl; reflexivity).
    rewrite one_step_later; [|lia|lia|lia|intro; subst ds; cbn in e; lia].
    rewrite e.
    destruct (IH (t + 1)%Z true (renew_all t ds xs)) as (s & hs); [lia | rewrite renew_all_length; lia | intros; apply h; right; assumption|].
    replace (t + 1 - 1)%Z with t in * by lia.
    rewrite hs. eexists. reflexivity.
Qed.
Lemma steps_start n t dss : (0 < n)%nat -> (0 <= t)%Z -> (forall ds, In ds dss -> length ds = n) ->
  exists s, steps t dss istart = Some (map (combine (seq 0 n)) (run_all t dss (repeat (Slot 0 0 0 t) n)), s).
Proof.
  intros hn ht h. destruct dss as [|ds dss]; [eexists; reflexivity|]. cbn [steps].
  assert (e : length ds = n) by (apply h; left; reflexivity).
  unfold istart. change 0%nat with (length (@nil slot)) at 1. rewrite one_step_first by (left; reflexivity).
  rewrite e. destruct ds as [|d ds]; [cbn in e; lia|]. cbn [length plus app].
  destruct (steps_later n (t + 1) dss false (renew_all t (d :: ds) (repeat (Slot 0 0 0 t) n))) as (s & hs);
    [exact hn | lia | rewrite renew_all_length; [exact e | rewrite repeat_length; lia] | intros; apply h; right; assumption|].
  replace (t + 1 - 1)%Z with t in hs by lia. rewrite hs. eexists. reflexivity.
Qed.
(** dipole by dipole *)
Lemma nth_renew_all t ds xs c d0 x0 : (c < length ds)%nat -> length xs = length ds ->
  nth c (renew_all t ds xs) x0 = renew t (nth c ds d0) (nth c xs x0).
Proof.
  revert xs c. induction ds as [|d ds IH]; intros xs c hc hl; [cbn in hc; lia|].
  destruct xs as [|x xs]; [discriminate|]. destruct c as [|c]; [reflexivity|]. cbn. apply IH; cbn in *; lia.
Qed.
Lemma run_all_life n dss t xs c d0 x0 : (c < n)%nat -> length xs = n -> (forall ds, In ds dss -> length ds = n) ->
  map (fun l => nth c l x0) (run_all t dss xs) = life t (nth c xs x0) (map (fun ds => nth c ds d0) dss).
Proof.
  intros hc. revert t xs. induction dss as [|ds dss IH]; intros t xs hl h; [reflexivity|].
  assert (e : length ds = n) by (apply h; left; reflexivity). cbn [run_all map life].
  rewrite (nth_renew_all t ds xs c d0 x0) by lia. f_equal.
  rewrite IH; [|rewrite renew_all_length; lia | intros; apply h; right; assumption].
  rewrite (nth_renew_all t ds xs c d0 x0) by lia. reflexivity.
Qed.
Lemma run_all_length n dss t xs : length xs = n -> (forall ds, In ds dss -> length ds = n) ->
  forall l, In l (run_all t dss xs) -> length l = n.
Proof.
  revert t xs. induction dss as [|ds dss IH]; intros t xs hl h l; [intros []|].
  assert (e : length ds = n) by (apply h; left; reflexivity). cbn [run_all]. intros [hl' | hl'].
  - subst l. rewrite renew_all_length; lia.
  - eapply IH; [| |exact hl']; [rewrite renew_all_length; lia | intros; apply h; right; assumption].
Qed.

Lemma dipoles_independent n t dss d0 : (0 < n)%nat -> (0 <= t)%Z -> (forall ds, In ds dss -> length ds = n) ->
  exists xss s, steps t dss istart = Some (map (combine (seq 0 n)) xss, s) /\
    (forall xs, In xs xss -> length xs = n) /\
    forall c, (c < n)%nat ->
      map (fun xs => nth c xs (Slot 0 0 0 t)) xss = life t (Slot 0 0 0 t) (map (fun ds => nth c ds d0) dss).
Proof.
  intros hn ht h. destruct (steps_start n t dss hn ht h) as (s & hs).
  exists (run_all t dss (repeat (Slot 0 0 0 t) n)), s. split; [exact hs|]. split.
  - eapply run_all_length; [apply repeat_length | exact h].
  - intros c hc. rewrite (run_all_life n dss t _ c d0 (Slot 0 0 0 t)); [|exact hc|apply repeat_length|exact h].
    rewrite nth_repeat. reflexivity.
Qed.
(** with waiting times of at least one the next renewal always lies ahead *)
Lemma life_ahead t x ds : (t <= s_tau x)%Z -> (forall d, In d ds -> 1 <= snd d)%Z ->
  forall u y, nth_error (life t x ds) u = Some y -> (t + Z.of_nat u < s_tau y)%Z.
Proof.
  revert t x. induction ds as [|d ds IH]; intros t x hx hd u y; [destruct u; discriminate|].
  cbn [life]. assert (h1 : (t < s_tau (renew t d x))%Z).
  { destruct d as [[[th ph] ep] tw]. rewrite renew_eq. destruct (Z.eqb_spec t (s_tau x)); [|lia].
    cbn [s_tau]. pose proof (hd _ (or_introl eq_refl)) as hh. cbn in hh. lia. }
  destruct u as [|u]; cbn [nth_error]; [intro e; injection e as <-; cbn; lia|].
  intro e. apply IH in e; [lia | lia | intros; apply hd; right; assumption].
Qed.
(** a waiting time of zero: no further renewal *)
Lemma life_past t x ds : (s_tau x < t)%Z -> life t x ds = repeat x (length ds).
Proof.
  revert t. induction ds as [|d ds IH]; intros t h; [reflexivity|]. cbn [life length repeat].
  assert (e : renew t d x = x).
  { destruct d as [[[th ph] ep] tw]. rewrite renew_eq. destruct (Z.eqb_spec t (s_tau x)); [lia | reflexivity]. }
  rewrite e, IH by lia. reflexivity.
Qed.
Lemma life_stuck t th ph ep ds : life t (Slot 0 0 0 t) ((th, ph, ep, 0%Z) :: ds) = repeat (Slot th ph ep t) (S (length ds)).
Proof.
  cbn [life]. rewrite renew_eq. cbn [s_tau]. rewrite Z.eqb_refl. rewrite Z.add_0_r. cbn [repeat]. f_equal.
  apply life_past. cbn. lia.
Qed.
Lemma current_norm a x : -1 <= s_theta x <= 1 ->
  let '(jx, jy, jz) := dipole_current a x in jx ^ 2 + jy ^ 2 + jz ^ 2 = a ^ 2.
Proof.
  intro h. unfold dipole_current.
  assert (h0 : 0 <= 1 - s_theta x * s_theta x) by nra.
  pose proof (sqrt_sqrt _ h0) as hs. pose proof (sin2_cos2 (s_phi x)) as hc. unfold Rsqr in hc.
  set (q := sqrt _) in *. set (c := cos _) in *. set (s := sin _) in *.
  replace ((a * q * c) ^ 2 + (a * q * s) ^ 2 + (a * s_theta x) ^ 2)
    with (a ^ 2 * ((q * q) * (s * s + c * c) + s_theta x * s_theta x)) by ring.
  rewrite hs, hc. ring.
Qed.
Lemma planewave_all w z0 wx wy fr lx ly to td t n m k f x y :
  (0 <= x <= Z.of_nat n)%Z -> (0 <= y <= Z.of_nat m)%Z -> (1 <= k)%Z ->
  let F := Gaussian_planewave w PI z0 wx wy fr lx ly to td t (CEx, false) (CHy, false) n m k f in
  let A := pw_amp w wx wy fr lx ly to td t in
  let mean := (A x y + (if (x <? Z.of_nat n)%Z then A (x + 1)%Z y else 0)) / 2 in
  F CEx x y k = f CEx x y k + mean /\
  F CHy x y k = f CHy x y k + z0 * mean / 2 /\ F CHy x y (k - 1)%Z = f CHy x y (k - 1)%Z + z0 * mean / 2 /\
  (forall d a b e, d <> CEx -> d <> CHy -> F d a b e = f d a b e).
Proof.
  intros hx hy hk F A mean. unfold F. split; [|split; [|split]].
  - rewrite planewave_Ex by lia. reflexivity.
  - rewrite planewave_Hy by (auto || lia). unfold mean, A. f_equal. field.
  - rewrite planewave_Hy by (auto || lia). unfold mean, A. f_equal. field.
  - intros d a b e h1 h2. apply planewave_other; assumption.
Qed.

(** ** Witnesses *)
Lemma bloch_refuted : exists wx wy lx ly isize i j, lx <> 0%Z /\
  ~ same_angle (pw_phase PI wx wy lx ly (i + isize) j) (pw_phase PI wx wy lx ly i j + 2 * PI * wx).
Proof. exists (/ 4), 0, 20%Z, 20%Z, 40%Z, 0%Z, 0%Z. split; [lia | exact bloch_bad]. Qed.
Lemma lorentz_cw_bad : exists w fr ph to t, Lorentz_amp w fr ph to 0 t ^ 2 + iLorentz_amp w fr ph to 0 t ^ 2 <> 1.
Proof.
  exists 1, 1, 0, 0%Z, 0%Z. rewrite lorentz_cw. unfold Lorentz_amp. cbn [Z.eqb].
  replace (1 * 1 * IZR (0 - 0) + 0) with 0 by (cbn; ring). rewrite sin_0. lra.
Qed.
Lemma lorentz_dc_bad : exists w fr to td,
  sum_from (Lorentz_amp w fr (Lorentzian_phase w fr td) to td) to (Z.to_nat (8 * td)) <> 0.
Proof.
  exists 1, (/ 10), 0%Z, 1%Z. assert (h : 0 < sum_from (Lorentz_amp 1 (/ 10) (Lorentzian_phase 1 (/ 10) 1) 0 1) 0 (Z.to_nat (8 * 1))).
  { apply lorentz_dc; [lia | lra | cbn; lra]. }
  lra.
Qed.
Lemma external_bad : exists z0 ext n m k f x y,
  external_planewave z0 ext CEx CHy n m k f CEx x y k <> f CEx x y k /\
  forall x' y' z', external_planewave z0 ext CEx CHy n m k f CHy x' y' z' = f CHy x' y' z'.
Proof.
  exists 1, 1, 0%nat, 0%nat, 1%Z, (fun _ _ _ _ => 0), 0%Z, 0%Z. split; [|intros; apply external_H].
  cbn. lra.
Qed.
Lemma life_stuck_bad : exists t x ds, (t <= s_tau x)%Z /\ (forall d, In d ds -> 0 <= snd d)%Z /\
  ~ forall u y, nth_error (life t x ds) u = Some y -> (t + Z.of_nat u < s_tau y)%Z.
Proof.
  exists 0%Z, (Slot 0 0 0 0), [(0, 0, 0, 0%Z)]. split; [cbn; lia|]. split; [intros d [<- | []]; cbn; lia|].
  intro h. specialize (h 0%nat (Slot 0 0 0 0) eq_refl). cbn in h. lia.
Qed.

(** ** Each cell that a point source writes *)
Ltac by_cells := match goal with c : comp |- _ => destruct c end;
  cbn [yee next_to cells sum_over fold_right fst snd at_loc comp_eqb andb nonneg is_E imp share]; intros;
  repeat match goal with |- context [(?a =? ?b)%Z] => destruct (Z.eqb_spec a b); cbn [andb] end;
  repeat match goal with |- context [(?a <=? ?b)%Z] => destruct (Z.leb_spec a b); cbn [andb] end;
  try (exfalso; lia); try ring.
Lemma cells_near c i j k x y z v : next_to i j k (yee c x y z) ->
  sum_over (fun l => if at_loc l c x y z then v else 0) (cells c i j k) = v.
Proof. by_cells. Qed.
Lemma cells_far c i j k x y z v : ~ next_to i j k (yee c x y z) ->
  sum_over (fun l => if at_loc l c x y z then v else 0) (cells c i j k) = 0.
Proof. by_cells. Qed.
Lemma at_nonneg (l : list loc) c x y z v :
  sum_over (fun a => if nonneg a then (if at_loc a c x y z then v else 0) else 0) l =
  if ((0 <=? x) && (0 <=? y) && (0 <=? z))%Z then sum_over (fun a => if at_loc a c x y z then v else 0) l else 0.
Proof.
  transitivity (sum_over (fun a => if at_loc a c x y z then (if ((0 <=? x) && (0 <=? y) && (0 <=? z))%Z then v else 0) else 0) l).
  - apply sum_over_ext. intros [[[d i] j] k] _. cbn [nonneg at_loc].
    destruct (comp_eqb d c); cbn [andb]; [|destruct (_ && _ && _); reflexivity].
    destruct (Z.eqb_spec i x); destruct (Z.eqb_spec j y); destruct (Z.eqb_spec k z); cbn [andb]; subst;
    try reflexivity; destruct (_ && _ && _); reflexivity.
  - destruct (_ && _ && _); [reflexivity|]. rewrite (sum_over_ext _ (fun _ => 0)); [apply sum_over_0|].
    intros a _. destruct (at_loc _ _ _ _ _); reflexivity.
Qed.
Lemma dipole_cell w fr ph to td t c neg i j k f x y z :
  let F := Gaussian_dipole_source w PI fr ph to td t c neg i j k f in
  let A := (if neg then -1 else 1) * Gauss_amp w fr ph to td t in
  (next_to i j k (yee c x y z) -> F c x y z = f c x y z + A / (if is_E c then 2 else 4)) /\
  (~ next_to i j k (yee c x y z) -> F c x y z = f c x y z).
Proof.
  cbn zeta. unfold Gaussian_dipole_source, dipole_assign. rewrite adds_val, sum_over_map. cbn [fst snd].
  rewrite signed_amp. split; intro h.
  - rewrite cells_near by exact h. unfold share. destruct (is_E c); field.
  - rewrite cells_far by exact h. ring.
Qed.
Lemma beam_cell w z0 fr amp ph to td t c neg i j k f x y z :
  let F := Gaussian_beam w PI z0 fr amp ph to td t c neg i j k f in
  let A := (if neg then -1 else 1) * Gauss_amp w fr ph to td t in
  (next_to i j k (yee c x y z) -> (0 <= x)%Z -> (0 <= y)%Z -> (0 <= z)%Z ->
     F c x y z = f c x y z + amp * A * (if is_E c then / 2 else z0 / 4)) /\
  (~ (next_to i j k (yee c x y z) /\ (0 <= x /\ 0 <= y /\ 0 <= z)%Z) -> F c x y z = f c x y z).
Proof.
  cbn zeta. unfold Gaussian_beam, beam_assign. rewrite adds_val, sum_over_map_filter. cbn [fst snd].
  rewrite signed_amp, at_nonneg. split.
  - intros h hx hy hz. rewrite cells_near by exact h.
    replace ((0 <=? x) && (0 <=? y) && (0 <=? z))%Z with true by (symmetry; rewrite !andb_true_iff, !Z.leb_le; auto).
    unfold imp, share. destruct (is_E c); field.
  - intro h. destruct ((0 <=? x) && (0 <=? y) && (0 <=? z))%Z eqn:e; [|ring].
    rewrite !andb_true_iff, !Z.leb_le in e. rewrite cells_far by tauto. ring.
Qed.
Lemma bloch_ok_y wx wy lx ly i j : ly <> 0%Z -> same_angle (pw_phase PI wx wy lx ly i (j + ly)) (pw_phase PI wx wy lx ly i j + 2 * PI * wy).
Proof.
  intro h. exists 0%Z. unfold pw_phase. rewrite plus_IZR.
  assert (IZR ly <> 0) by (apply not_0_IZR; exact h).
  replace (wy * (IZR j + IZR ly) / IZR ly) with (wy * IZR j / IZR ly + wy) by (field; assumption). ring.
Qed.
