(** Proofs about the non-uniform grid. *)
From Coq Require Import QArith Qround Qabs Qfield ZArith List Bool Permutation Lia Lqa.
From Verif Require Import GrdModel GrdSpec.
Import ListNotations.
Local Open Scope Q_scope.

(** ** Rounding *)
Lemma round_Z x n : x == inject_Z n -> round x = n.
Proof.
  intro e. unfold round. rewrite (Qfloor_comp _ (inject_Z n + (1 # 2))) by (rewrite e; ring).
  assert (h1 : (n <= Qfloor (inject_Z n + (1 # 2)))%Z).
  { rewrite <- (Qfloor_Z n) at 1. apply Qfloor_resp_le. lra. }
  assert (h2 : inject_Z (Qfloor (inject_Z n + (1 # 2))) < inject_Z (n + 1)).
  { eapply Qle_lt_trans; [apply Qfloor_le|]. rewrite inject_Z_plus. change (inject_Z 1) with 1. lra. }
  rewrite <- Zlt_Qlt in h2. lia.
Qed.
Lemma round_near x : inject_Z (round x) - (1 # 2) <= x /\ x < inject_Z (round x) + (1 # 2).
Proof.
  unfold round. pose proof (Qfloor_le ((1 # 2) + x)). pose proof (Qlt_floor ((1 # 2) + x)) as h.
  rewrite inject_Z_plus in h. change (inject_Z 1) with 1 in h. split; lra.
Qed.
Lemma round_mono x y : x <= y -> (round x <= round y)%Z.
Proof. intro h. unfold round. apply Qfloor_resp_le. lra. Qed.
Lemma round_comp x y : x == y -> round x = round y.
Proof. intro h. unfold round. apply Qfloor_comp. rewrite h. reflexivity. Qed.
Lemma floor_add x n : Qfloor (x + inject_Z n) = (Qfloor x + n)%Z.
Proof.
  pose proof (Qfloor_le x) as h1. pose proof (Qlt_floor x) as h2.
  pose proof (Qfloor_le (x + inject_Z n)) as h3. pose proof (Qlt_floor (x + inject_Z n)) as h4.
  rewrite inject_Z_plus in h2, h4. change (inject_Z 1) with 1 in *.
  assert (Qfloor (x + inject_Z n) < Qfloor x + n + 1)%Z by (rewrite Zlt_Qlt, !inject_Z_plus; change (inject_Z 1) with 1; lra).
  assert (Qfloor x + n < Qfloor (x + inject_Z n) + 1)%Z by (rewrite Zlt_Qlt, !inject_Z_plus; change (inject_Z 1) with 1; lra).
  lia.
Qed.
Lemma trunc_Z x n : x == inject_Z n -> trunc x = n.
Proof.
  unfold Qeq, trunc. cbn. intro e. rewrite Z.mul_1_r in e. rewrite e. apply Z.quot_mul. discriminate.
Qed.
Lemma qle_true x y : Qle_bool x y = true <-> x <= y.
Proof. apply Qle_bool_iff. Qed.
Lemma qle_false x y : Qle_bool x y = false <-> y < x.
Proof.
  split.
  - intro h. apply Qnot_le_lt. intro h2. apply qle_true in h2. congruence.
  - intro h. destruct (Qle_bool x y) eqn:e; [|reflexivity]. apply qle_true in e. lra.
Qed.
Lemma inj_pos n : (0 < n)%Z -> 0 < inject_Z n.
Proof. intro h. change 0 with (inject_Z 0). rewrite <- Zlt_Qlt. exact h. Qed.
Lemma inj_le a b : (a <= b)%Z -> inject_Z a <= inject_Z b.
Proof. intro h. rewrite <- Zle_Qle. exact h. Qed.
Lemma inj_lt a b : (a < b)%Z -> inject_Z a < inject_Z b.
Proof. intro h. rewrite <- Zlt_Qlt. exact h. Qed.
Lemma inj_sub a b : inject_Z (a - b) == inject_Z a - inject_Z b.
Proof. unfold Z.sub. rewrite inject_Z_plus, inject_Z_opp. reflexivity. Qed.
Lemma pos_of_mul a b : 0 < b -> 0 <= a * b -> 0 <= a.
Proof. intros h h1. apply Qmult_le_r with b; [exact h|]. lra. Qed.
Lemma pos_of_mul' a b : 0 < b -> 0 < a * b -> 0 < a.
Proof. intros h h1. apply Qmult_lt_r with b; [exact h|]. lra. Qed.

Section Grid.
Variable lz : Z.
Hypothesis hlz : (0 < lz)%Z.
Let hq : 0 < inject_Z lz := inj_pos lz hlz.

(** what alignment gives *)
Lemma layer_facts bz L n1 n2 : (0 < lattice_nz L)%Z -> (0 <= n1)%Z -> (0 < n2)%Z ->
  (nz_start L - bz) * inject_Z lz == inject_Z n1 -> (nz_end L - nz_start L) * inject_Z (lattice_nz L) == inject_Z n2 ->
  bz <= nz_start L /\ nz_start L < nz_end L /\ forall bg, next_base lz bz bg L = (bg + n1 + n2)%Z.
Proof.
  intros hn h1 h2 e1 e2. pose proof (inj_pos _ hn) as hn'. pose proof (inj_le _ _ h1) as h1'. pose proof (inj_pos _ h2) as h2'.
  split; [|split].
  - assert (0 <= nz_start L - bz) by (apply pos_of_mul with (inject_Z lz); [exact hq | rewrite e1; exact h1']). lra.
  - assert (0 < nz_end L - nz_start L) by (apply pos_of_mul' with (inject_Z (lattice_nz L)); [exact hn' | rewrite e2; exact h2']). lra.
  - intro bg. unfold next_base. apply trunc_Z. rewrite e1, e2, !inject_Z_plus. ring.
Qed.
Lemma at_start bz bg L r n1 : bz <= nz_start L -> (nz_start L - bz) * inject_Z lz == inject_Z n1 ->
  z_to_i_from lz bz bg (L :: r) (nz_start L) = (bg + n1)%Z.
Proof.
  intros h e. cbn [z_to_i_from]. assert (hb : Qle_bool (nz_start L) (nz_start L) = true) by (apply qle_true; lra).
  rewrite hb. rewrite (round_Z _ _ e). lia.
Qed.
Lemma at_end bz bg L r n1 n2 : nz_start L < nz_end L -> (nz_start L - bz) * inject_Z lz == inject_Z n1 ->
  (nz_end L - nz_start L) * inject_Z (lattice_nz L) == inject_Z n2 ->
  z_to_i_from lz bz bg (L :: r) (nz_end L) = (bg + n1 + n2)%Z.
Proof.
  intros h e1 e2. cbn [z_to_i_from]. apply qle_false in h. rewrite h.
  assert (hb : Qle_bool (nz_end L) (nz_end L) = true) by (apply qle_true; lra). rewrite hb.
  rewrite (round_Z _ (n1 + n2)) by (rewrite e1, e2, inject_Z_plus; reflexivity). lia.
Qed.
Lemma z_to_i_comp l bz bg z z' : z == z' -> z_to_i_from lz bz bg l z = z_to_i_from lz bz bg l z'.
Proof.
  intro e. revert bz bg. induction l as [|L r IH]; intros bz bg; cbn [z_to_i_from].
  - f_equal. apply round_comp. rewrite e. reflexivity.
  - assert (h1 : forall x, Qle_bool z x = Qle_bool z' x).
    { intro x. destruct (Qle_bool z x) eqn:e1, (Qle_bool z' x) eqn:e2; try reflexivity;
      rewrite ?qle_true, ?qle_false in *; lra. }
    rewrite !h1. destruct (Qle_bool z' (nz_start L)); [f_equal; apply round_comp; rewrite e; reflexivity|].
    destruct (Qle_bool z' (nz_end L)); [f_equal; apply round_comp; rewrite e; reflexivity|]. apply IH.
Qed.
Lemma at_base l bz bg z : aligned lz bz l -> z == bz -> z_to_i_from lz bz bg l z = bg.
Proof.
  intros ha e. assert (hr : round ((z - bz) * inject_Z lz) = 0%Z) by (apply round_Z; rewrite e; change (inject_Z 0) with 0; ring).
  destruct l as [|L r]; cbn [z_to_i_from]; [rewrite hr; lia|].
  destruct ha as (hn & (n1 & n2 & h1 & h2 & e1 & e2) & _). destruct (layer_facts bz L n1 n2 hn h1 h2 e1 e2) as (hb & _ & _).
  assert (ht : Qle_bool z (nz_start L) = true) by (apply qle_true; lra). rewrite ht, hr. lia.
Qed.
(** above a layer the rest of the list decides *)
Lemma above L r bz bg z : aligned lz bz (L :: r) -> nz_end L <= z ->
  z_to_i_from lz bz bg (L :: r) z = z_to_i_from lz (nz_end L) (next_base lz bz bg L) r z.
Proof.
  intros (hn & (n1 & n2 & h1 & h2 & e1 & e2) & hr) hz. destruct (layer_facts bz L n1 n2 hn h1 h2 e1 e2) as (hb & hse & hnb).
  destruct (Qlt_le_dec (nz_end L) z) as [hlt | hle].
  - cbn [z_to_i_from]. assert (f1 : Qle_bool z (nz_start L) = false) by (apply qle_false; lra).
    assert (f2 : Qle_bool z (nz_end L) = false) by (apply qle_false; lra). rewrite f1, f2. reflexivity.
  - assert (e : z == nz_end L) by lra. rewrite (z_to_i_comp (L :: r) bz bg z (nz_end L)) by exact e.
    rewrite (at_end bz bg L r n1 n2) by assumption. rewrite hnb. symmetry. apply at_base; [exact hr | exact e].
Qed.

(** the inverse *)
Definition good (g : Q -> Z) (bz : Q) (bg : Z) (l : list layer) : Prop :=
  forall z, bz <= z -> g z = z_to_i_from lz bz bg l z.
Lemma good_next g bz bg L r : aligned lz bz (L :: r) -> good g bz bg (L :: r) -> good g (nz_end L) (next_base lz bz bg L) r.
Proof.
  intros ha hg z hz. rewrite hg.
  - apply above; assumption.
  - destruct ha as (hn & (n1 & n2 & h1 & h2 & e1 & e2) & hr). destruct (layer_facts bz L n1 n2 hn h1 h2 e1 e2) as (hb & hse & _). lra.
Qed.
Lemma below_z bz bg i : (bg <= i)%Z -> bz <= inject_Z (i - bg) / inject_Z lz + bz.
Proof.
  intro h. assert (0 <= inject_Z (i - bg) / inject_Z lz).
  { apply Qle_shift_div_l; [exact hq|]. rewrite Qmult_0_l. change 0 with (inject_Z 0). apply inj_le. lia. }
  lra.
Qed.
Lemma lift l : forall bz bg g i, aligned lz bz l -> good g bz bg l -> (bg <= i)%Z -> bz <= i_to_z_from lz g bz bg l i.
Proof.
  induction l as [|L r IH]; intros bz bg g i ha hg hi; cbn [i_to_z_from]; [apply below_z; exact hi|].
  pose proof ha as (hn & (n1 & n2 & h1 & h2 & e1 & e2) & hr). destruct (layer_facts bz L n1 n2 hn h1 h2 e1 e2) as (hb & hse & hnb).
  assert (gs : g (nz_start L) = (bg + n1)%Z) by (rewrite hg by lra; apply at_start; assumption).
  assert (ge : g (nz_end L) = (bg + n1 + n2)%Z) by (rewrite hg by lra; apply at_end; assumption).
  rewrite gs, ge. destruct (i <=? bg + n1)%Z eqn:b1; [apply below_z; exact hi|]. apply Z.leb_gt in b1.
  destruct (i <=? bg + n1 + n2)%Z eqn:b2.
  - assert (0 <= inject_Z (i - (bg + n1)) / inject_Z (lattice_nz L)).
    { apply Qle_shift_div_l; [apply inj_pos; exact hn|]. rewrite Qmult_0_l. change 0 with (inject_Z 0). apply inj_le. lia. }
    pose proof (below_z bz bg (bg + n1)). lra || (assert (bg <= bg + n1)%Z by lia; specialize (H0 H1); lra).
  - apply Z.leb_gt in b2. assert (nz_end L <= i_to_z_from lz g (nz_end L) (next_base lz bz bg L) r i).
    { apply IH; [exact hr | apply good_next; assumption | rewrite hnb; lia]. }
    lra.
Qed.
Lemma back l : forall bz bg g i, aligned lz bz l -> good g bz bg l -> (bg <= i)%Z ->
  z_to_i_from lz bz bg l (i_to_z_from lz g bz bg l i) = i.
Proof.
  induction l as [|L r IH]; intros bz bg g i ha hg hi.
  - cbn [i_to_z_from z_to_i_from]. rewrite (round_Z _ (i - bg)); [lia|]. field. lra.
  - pose proof ha as (hn & (n1 & n2 & h1 & h2 & e1 & e2) & hr). destruct (layer_facts bz L n1 n2 hn h1 h2 e1 e2) as (hb & hse & hnb).
    assert (gs : g (nz_start L) = (bg + n1)%Z) by (rewrite hg by lra; apply at_start; assumption).
    assert (ge : g (nz_end L) = (bg + n1 + n2)%Z) by (rewrite hg by lra; apply at_end; assumption).
    cbn [i_to_z_from]. rewrite gs, ge. pose proof (inj_pos _ hn) as hn'.
    assert (es : nz_start L == inject_Z n1 / inject_Z lz + bz) by (rewrite <- e1; field; lra).
    assert (ee : nz_end L == inject_Z n2 / inject_Z (lattice_nz L) + nz_start L) by (rewrite <- e2; field; lra).
    destruct (i <=? bg + n1)%Z eqn:b1; [apply Z.leb_le in b1 | apply Z.leb_gt in b1; destruct (i <=? bg + n1 + n2)%Z eqn:b2; [apply Z.leb_le in b2 | apply Z.leb_gt in b2]].
    + cbn [z_to_i_from]. assert (ht : Qle_bool (inject_Z (i - bg) / inject_Z lz + bz) (nz_start L) = true).
      { apply qle_true. rewrite es. assert (inject_Z (i - bg) / inject_Z lz <= inject_Z n1 / inject_Z lz); [|lra].
        apply Qmult_le_compat_r; [apply inj_le; lia | apply Qlt_le_weak, Qinv_lt_0_compat; exact hq]. }
      rewrite ht. rewrite (round_Z _ (i - bg)); [lia|]. field. lra.
    + set (z := inject_Z (bg + n1 - bg) / inject_Z lz + _ + bz).
      assert (ez : z == nz_start L + inject_Z (i - (bg + n1)) / inject_Z (lattice_nz L)).
      { unfold z. replace (bg + n1 - bg)%Z with n1 by lia. rewrite es. ring. }
      assert (hlo : nz_start L < z).
      { rewrite ez. assert (0 < inject_Z (i - (bg + n1)) / inject_Z (lattice_nz L)); [|lra].
        apply Qlt_shift_div_l; [exact hn'|]. rewrite Qmult_0_l. apply inj_pos. lia. }
      assert (hhi : z <= nz_end L).
      { rewrite ez, ee. assert (inject_Z (i - (bg + n1)) / inject_Z (lattice_nz L) <= inject_Z n2 / inject_Z (lattice_nz L)); [|lra].
        apply Qmult_le_compat_r; [apply inj_le; lia | apply Qlt_le_weak, Qinv_lt_0_compat; exact hn']. }
      cbn [z_to_i_from]. apply qle_false in hlo. apply qle_true in hhi. rewrite hlo, hhi.
      rewrite (round_Z _ (i - bg)); [lia|]. rewrite e1, ez, !inj_sub, inject_Z_plus. field. lra.
    + rewrite above; [apply IH; [exact hr | apply good_next; assumption | rewrite hnb; lia] | exact ha |].
      apply lift; [exact hr | apply good_next; assumption | rewrite hnb; lia].
Qed.

(** spacing *)
Lemma i_to_z_above L r bz bg g i : aligned lz bz (L :: r) -> good g bz bg (L :: r) -> (next_base lz bz bg L <= i)%Z ->
  i_to_z_from lz g bz bg (L :: r) i == i_to_z_from lz g (nz_end L) (next_base lz bz bg L) r i.
Proof.
  intros ha hg hi. pose proof ha as (hn & (n1 & n2 & h1 & h2 & e1 & e2) & hr). destruct (layer_facts bz L n1 n2 hn h1 h2 e1 e2) as (hb & hse & hnb).
  assert (gs : g (nz_start L) = (bg + n1)%Z) by (rewrite hg by lra; apply at_start; assumption).
  assert (ge : g (nz_end L) = (bg + n1 + n2)%Z) by (rewrite hg by lra; apply at_end; assumption).
  rewrite hnb in hi. cbn [i_to_z_from]. rewrite gs, ge.
  destruct (i <=? bg + n1)%Z eqn:b1; [apply Z.leb_le in b1; lia|]. destruct (i <=? bg + n1 + n2)%Z eqn:b2; [|reflexivity].
  apply Z.leb_le in b2. assert (i = bg + n1 + n2)%Z as -> by lia. pose proof (inj_pos _ hn) as hn'.
  assert (ev : i_to_z_from lz g (nz_end L) (next_base lz bz bg L) r (bg + n1 + n2) == nz_end L).
  { destruct r as [|L' r']; cbn [i_to_z_from]; rewrite hnb.
    - replace (bg + n1 + n2 - (bg + n1 + n2))%Z with 0%Z by lia. change (inject_Z 0) with 0. field. lra.
    - destruct hr as (hn2 & (m1 & m2 & k1 & k2 & f1 & f2) & hr'). destruct (layer_facts _ L' m1 m2 hn2 k1 k2 f1 f2) as (hb' & hse' & hnb').
      assert (gs' : g (nz_start L') = (bg + n1 + n2 + m1)%Z).
      { rewrite hg by lra. rewrite above by (auto; lra). rewrite hnb. apply at_start; assumption. }
      rewrite gs'. assert (bt : (bg + n1 + n2 <=? bg + n1 + n2 + m1)%Z = true) by (apply Z.leb_le; lia). rewrite bt.
      replace (bg + n1 + n2 - (bg + n1 + n2))%Z with 0%Z by lia. change (inject_Z 0) with 0. field. lra. }
  rewrite ev. replace (bg + n1 - bg)%Z with n1 by lia. replace (bg + n1 + n2 - (bg + n1))%Z with n2 by lia.
  rewrite <- e1, <- e2. field. split; lra.
Qed.
Definition local_lattice (g : Q -> Z) (l : list layer) (i t : Z) : Z :=
  fold_left (fun t L => if in_layer_i g i L then lattice_nz L else t) l t.
Lemma lattice_below l : forall bz bg g i t, aligned lz bz l -> good g bz bg l -> (i <= bg)%Z -> local_lattice g l i t = t.
Proof.
  induction l as [|L r IH]; intros bz bg g i t ha hg hi; [reflexivity|].
  pose proof ha as (hn & (n1 & n2 & h1 & h2 & e1 & e2) & hr). destruct (layer_facts bz L n1 n2 hn h1 h2 e1 e2) as (hb & hse & hnb).
  assert (gs : g (nz_start L) = (bg + n1)%Z) by (rewrite hg by lra; apply at_start; assumption).
  unfold local_lattice in *. cbn [fold_left]. assert (hf : in_layer_i g i L = false).
  { unfold in_layer_i. rewrite gs. apply andb_false_iff. left. apply Z.ltb_ge. lia. }
  rewrite hf. apply (IH (nz_end L) (next_base lz bz bg L)); [exact hr | apply good_next; assumption | rewrite hnb; lia].
Qed.
Lemma step l : forall bz bg g i, aligned lz bz l -> good g bz bg l -> (bg < i)%Z ->
  i_to_z_from lz g bz bg l i - i_to_z_from lz g bz bg l (i - 1) == 1 / inject_Z (local_lattice g l i lz) /\
  (0 < local_lattice g l i lz)%Z.
Proof.
  induction l as [|L r IH]; intros bz bg g i ha hg hi.
  - cbn. split; [|exact hlz]. rewrite !inj_sub. change (inject_Z 1) with 1. field. lra.
  - pose proof ha as (hn & (n1 & n2 & h1 & h2 & e1 & e2) & hr). destruct (layer_facts bz L n1 n2 hn h1 h2 e1 e2) as (hb & hse & hnb).
    assert (gs : g (nz_start L) = (bg + n1)%Z) by (rewrite hg by lra; apply at_start; assumption).
    assert (ge : g (nz_end L) = (bg + n1 + n2)%Z) by (rewrite hg by lra; apply at_end; assumption).
    pose proof (inj_pos _ hn) as hn'.
    destruct (Z.le_gt_cases i (bg + n1 + n2)) as [hin | hout].
    + assert (hl : local_lattice g (L :: r) i lz = if (bg + n1 <? i)%Z then lattice_nz L else lz).
      { unfold local_lattice. cbn [fold_left]. unfold in_layer_i at 2. rewrite gs, ge.
        assert (bt : (i <=? bg + n1 + n2)%Z = true) by (apply Z.leb_le; exact hin). rewrite bt, andb_true_r.
        apply (lattice_below r (nz_end L) (next_base lz bz bg L)); [exact hr | apply good_next; assumption | rewrite hnb; lia]. }
      rewrite hl. cbn [i_to_z_from]. rewrite gs, ge.
      destruct (bg + n1 <? i)%Z eqn:b1; [apply Z.ltb_lt in b1 | apply Z.ltb_ge in b1].
      * split; [|exact hn]. assert (f1 : (i <=? bg + n1)%Z = false) by (apply Z.leb_gt; exact b1).
        assert (f2 : (i <=? bg + n1 + n2)%Z = true) by (apply Z.leb_le; exact hin). rewrite f1, f2.
        destruct (i - 1 <=? bg + n1)%Z eqn:b2.
        -- apply Z.leb_le in b2. assert (i = bg + n1 + 1)%Z as -> by lia.
           replace (bg + n1 + 1 - 1 - bg)%Z with n1 by lia. replace (bg + n1 - bg)%Z with n1 by lia.
           replace (bg + n1 + 1 - (bg + n1))%Z with 1%Z by lia. change (inject_Z 1) with 1. field. split; lra.
        -- assert (f3 : (i - 1 <=? bg + n1 + n2)%Z = true) by (apply Z.leb_le; lia). rewrite f3.
           rewrite !inj_sub, !inject_Z_plus. change (inject_Z 1) with 1. field. split; lra.
      * split; [|exact hlz]. assert (f1 : (i <=? bg + n1)%Z = true) by (apply Z.leb_le; exact b1).
        assert (f2 : (i - 1 <=? bg + n1)%Z = true) by (apply Z.leb_le; lia). rewrite f1, f2.
        rewrite !inj_sub. change (inject_Z 1) with 1. field. lra.
    + assert (hl : local_lattice g (L :: r) i lz = local_lattice g r i lz).
      { unfold local_lattice. cbn [fold_left]. assert (hf : in_layer_i g i L = false); [|rewrite hf; reflexivity].
        unfold in_layer_i. rewrite ge. apply andb_false_iff. right. apply Z.leb_gt. lia. }
      rewrite hl, !i_to_z_above by (try assumption; rewrite hnb; lia).
      apply IH; [exact hr | apply good_next; assumption | rewrite hnb; lia].
Qed.

(** rounding to the nearest grid point *)
Definition lattice_at (l : list layer) (z : Q) (t : Z) : Z := fold_left (fun t L => if in_layer_z z L then lattice_nz L else t) l t.
Lemma lattice_at_below l : forall bz z t, aligned lz bz l -> z <= bz -> lattice_at l z t = t.
Proof.
  induction l as [|L r IH]; intros bz z t ha hz; [reflexivity|].
  pose proof ha as (hn & (n1 & n2 & h1 & h2 & e1 & e2) & hr). destruct (layer_facts bz L n1 n2 hn h1 h2 e1 e2) as (hb & hse & hnb).
  unfold lattice_at in *. cbn [fold_left]. assert (hf : in_layer_z z L = false).
  { unfold in_layer_z. assert (Qle_bool z (nz_start L) = true) by (apply qle_true; lra). rewrite H. reflexivity. }
  rewrite hf. apply (IH (nz_end L)); [exact hr | lra].
Qed.
Lemma near x n t : (0 < n)%Z -> t == inject_Z (round (x * inject_Z n)) / inject_Z n -> Qabs (t - x) <= (1 # 2) / inject_Z n.
Proof.
  intros hn e. pose proof (inj_pos _ hn) as hn'. destruct (round_near (x * inject_Z n)) as (h1 & h2).
  assert (ex : x == x * inject_Z n / inject_Z n) by (field; lra).
  assert (ed : t - x == (inject_Z (round (x * inject_Z n)) - x * inject_Z n) / inject_Z n) by (rewrite e; field; lra).
  rewrite ed. apply Qabs_Qle_condition. split.
  - apply Qle_shift_div_l; [exact hn'|]. assert ((1 # 2) / inject_Z n * inject_Z n == 1 # 2) by (field; lra). lra.
  - apply Qle_shift_div_r; [exact hn'|]. assert ((1 # 2) / inject_Z n * inject_Z n == 1 # 2) by (field; lra). lra.
Qed.
Lemma nearest l : forall bz bg g z, aligned lz bz l -> good g bz bg l -> bz <= z ->
  Qabs (i_to_z_from lz g bz bg l (z_to_i_from lz bz bg l z) - z) <= (1 # 2) / inject_Z (lattice_at l z lz).
Proof.
  induction l as [|L r IH]; intros bz bg g z ha hg hz.
  - cbn [z_to_i_from i_to_z_from lattice_at fold_left]. set (t := inject_Z _ / _ + bz).
    assert (e : t - z == (t - bz) - (z - bz)) by ring. rewrite e. apply near; [exact hlz|]. unfold t.
    replace (round ((z - bz) * inject_Z lz) + bg - bg)%Z with (round ((z - bz) * inject_Z lz)) by lia. ring.
  - pose proof ha as (hn & (n1 & n2 & h1 & h2 & e1 & e2) & hr). destruct (layer_facts bz L n1 n2 hn h1 h2 e1 e2) as (hb & hse & hnb).
    assert (gs : g (nz_start L) = (bg + n1)%Z) by (rewrite hg by lra; apply at_start; assumption).
    assert (ge : g (nz_end L) = (bg + n1 + n2)%Z) by (rewrite hg by lra; apply at_end; assumption).
    pose proof (inj_pos _ hn) as hn'.
    destruct (Qlt_le_dec (nz_end L) z) as [hout | hin].
    + rewrite above by (try assumption; lra).
      assert (hi : (next_base lz bz bg L <= z_to_i_from lz (nz_end L) (next_base lz bz bg L) r z)%Z).
      { clear IH hg gs ge. destruct r as [|L' r']; cbn [z_to_i_from].
        - assert (0 <= round ((z - nz_end L) * inject_Z lz))%Z; [|lia]. rewrite <- (round_Z 0 0) by reflexivity. apply round_mono.
          apply Qmult_le_0_compat; lra.
        - pose proof hr as (hn3 & (m1 & m2 & k1 & k2 & f1 & f2) & hr'). destruct (layer_facts _ L' m1 m2 hn3 k1 k2 f1 f2) as (hb' & hse' & hnb').
          assert (p0 : forall x, 0 <= x -> (0 <= round x)%Z) by (intros x hx; rewrite <- (round_Z 0 0) by reflexivity; apply round_mono; exact hx).
          destruct (Qle_bool z (nz_start L')) eqn:q1.
          + assert (0 <= round ((z - nz_end L) * inject_Z lz))%Z by (apply p0; apply Qmult_le_0_compat; lra). lia.
          + apply qle_false in q1. destruct (Qle_bool z (nz_end L')) eqn:q2.
            * assert (0 <= round ((nz_start L' - nz_end L) * inject_Z lz + (z - nz_start L') * inject_Z (lattice_nz L')))%Z; [|lia].
              apply p0. pose proof (inj_pos _ hn3). 
              assert (0 <= (nz_start L' - nz_end L) * inject_Z lz) by (apply Qmult_le_0_compat; lra).
              assert (0 <= (z - nz_start L') * inject_Z (lattice_nz L')) by (apply Qmult_le_0_compat; lra). lra.
            * apply qle_false in q2. rewrite hnb' . clear -hr' hn3 hlz q2 k1 k2 hq.
              set (b := (next_base lz bz bg L + m1 + m2)%Z). assert (hb0 : (next_base lz bz bg L <= b)%Z) by (unfold b; lia).
              enough (h : (b <= z_to_i_from lz (nz_end L') b r' z)%Z) by lia. clearbody b. clear hb0 k1 k2 m1 m2 hn3.
              revert hr' q2. generalize (nz_end L') as c. clear L'. intros c ha hz. revert b c ha hz.
              induction r' as [|M r IH]; intros b c ha hz; cbn [z_to_i_from].
              { assert (0 <= round ((z - c) * inject_Z lz))%Z; [|lia]. rewrite <- (round_Z 0 0) by reflexivity. apply round_mono. apply Qmult_le_0_compat; lra. }
              pose proof ha as (hn & (n1 & n2 & h1 & h2 & e1 & e2) & hr). destruct (layer_facts _ M n1 n2 hn h1 h2 e1 e2) as (hb & hse & hnb).
              assert (p0 : forall x, 0 <= x -> (0 <= round x)%Z) by (intros x hx; rewrite <- (round_Z 0 0) by reflexivity; apply round_mono; exact hx).
              destruct (Qle_bool z (nz_start M)) eqn:q1.
              { assert (0 <= round ((z - c) * inject_Z lz))%Z by (apply p0; apply Qmult_le_0_compat; lra). lia. }
              apply qle_false in q1. destruct (Qle_bool z (nz_end M)) eqn:q2.
              { assert (0 <= round ((nz_start M - c) * inject_Z lz + (z - nz_start M) * inject_Z (lattice_nz M)))%Z; [|lia].
                apply p0. pose proof (inj_pos _ hn).
                assert (0 <= (nz_start M - c) * inject_Z lz) by (apply Qmult_le_0_compat; lra).
                assert (0 <= (z - nz_start M) * inject_Z (lattice_nz M)) by (apply Qmult_le_0_compat; lra). lra. }
              apply qle_false in q2. rewrite hnb. specialize (IH (b + n1 + n2)%Z (nz_end M) hr q2). lia. }
      rewrite i_to_z_above by assumption.
      assert (hl : lattice_at (L :: r) z lz = lattice_at r z lz).
      { unfold lattice_at. cbn [fold_left]. assert (hf : in_layer_z z L = false); [|rewrite hf; reflexivity].
        unfold in_layer_z. apply andb_false_iff. right. apply qle_false. exact hout. }
      rewrite hl. apply IH; [exact hr | apply good_next; assumption | lra].
    + assert (hl : lattice_at (L :: r) z lz = if Qle_bool z (nz_start L) then lz else lattice_nz L).
      { unfold lattice_at. cbn [fold_left]. unfold in_layer_z at 2. assert (bt : Qle_bool z (nz_end L) = true) by (apply qle_true; exact hin).
        rewrite bt, andb_true_r. destruct (Qle_bool z (nz_start L)); cbn [negb]; apply (lattice_at_below r (nz_end L)); assumption. }
      rewrite hl. cbn [z_to_i_from]. destruct (Qle_bool z (nz_start L)) eqn:q1.
      * apply qle_true in q1. cbn [i_to_z_from]. rewrite gs.
        assert (hr1 : (round ((z - bz) * inject_Z lz) <= n1)%Z).
        { rewrite <- (round_Z _ _ e1). apply round_mono. apply Qmult_le_compat_r; lra. }
        assert (bt : (round ((z - bz) * inject_Z lz) + bg <=? bg + n1)%Z = true) by (apply Z.leb_le; lia). rewrite bt.
        set (t := inject_Z _ / _ + bz). assert (e : t - z == (t - bz) - (z - bz)) by ring. rewrite e. apply near; [exact hlz|]. unfold t.
        replace (round ((z - bz) * inject_Z lz) + bg - bg)%Z with (round ((z - bz) * inject_Z lz)) by lia. ring.
      * apply qle_false in q1. assert (bt : Qle_bool z (nz_end L) = true) by (apply qle_true; exact hin). rewrite bt.
        assert (er : round ((nz_start L - bz) * inject_Z lz + (z - nz_start L) * inject_Z (lattice_nz L)) = (n1 + round ((z - nz_start L) * inject_Z (lattice_nz L)))%Z).
        { rewrite (round_comp _ ((z - nz_start L) * inject_Z (lattice_nz L) + inject_Z n1)) by (rewrite e1; ring).
          unfold round. rewrite (Qfloor_comp _ ((1 # 2) + (z - nz_start L) * inject_Z (lattice_nz L) + inject_Z n1)) by ring.
          rewrite floor_add. lia. }
        rewrite er. set (k := round ((z - nz_start L) * inject_Z (lattice_nz L))) in *.
        assert (hk0 : (0 <= k)%Z) by (unfold k; rewrite <- (round_Z 0 0) by reflexivity; apply round_mono; apply Qmult_le_0_compat; lra).
        assert (hk1 : (k <= n2)%Z) by (unfold k; rewrite <- (round_Z _ _ e2); apply round_mono; apply Qmult_le_compat_r; lra).
        set (t := i_to_z_from _ _ _ _ _ _).
        assert (et : t - nz_start L == inject_Z k / inject_Z (lattice_nz L)).
        { unfold t. cbn [i_to_z_from]. rewrite gs, ge. destruct (n1 + k + bg <=? bg + n1)%Z eqn:b1.
          - apply Z.leb_le in b1. assert (k = 0)%Z as -> by lia. replace (n1 + 0 + bg - bg)%Z with n1 by lia.
            rewrite <- e1. change (inject_Z 0) with 0. field. split; lra.
          - assert (b2 : (n1 + k + bg <=? bg + n1 + n2)%Z = true) by (apply Z.leb_le; lia). rewrite b2.
            replace (bg + n1 - bg)%Z with n1 by lia. replace (n1 + k + bg - (bg + n1))%Z with k by lia. rewrite <- e1. field. split; lra. }
        assert (e : t - z == (t - nz_start L) - (z - nz_start L)) by ring. rewrite e. apply near; [exact hn | exact et].
Qed.
End Grid.

Lemma good_top lz zsize l : good lz (non_uniform_z_to_i lz zsize l) (bottom zsize) 0 l.
Proof. intros z _. reflexivity. Qed.
Lemma round_trip lz zsize l i : (0 < lz)%Z -> aligned lz (bottom zsize) l -> (0 <= i)%Z ->
  non_uniform_z_to_i lz zsize l (non_uniform_i_to_z lz zsize l i) = i.
Proof. intros h ha hi. apply (back lz h l); [exact ha | apply good_top | exact hi]. Qed.
Lemma spacing lz zsize l i : (0 < lz)%Z -> aligned lz (bottom zsize) l -> (0 < i)%Z ->
  (0 < ngrid_lattice_nz_i lz zsize l i)%Z /\
  non_uniform_i_to_z lz zsize l i - non_uniform_i_to_z lz zsize l (i - 1) == 1 / inject_Z (ngrid_lattice_nz_i lz zsize l i).
Proof.
  intros h ha hi. destruct (step lz h l (bottom zsize) 0 (non_uniform_z_to_i lz zsize l) i ha (good_top _ _ _) hi). split; assumption.
Qed.
Lemma increasing lz zsize l i j : (0 < lz)%Z -> aligned lz (bottom zsize) l -> (0 <= i)%Z -> (i < j)%Z ->
  non_uniform_i_to_z lz zsize l i < non_uniform_i_to_z lz zsize l j.
Proof.
  intros h ha hi hij. assert (exists n, j = i + 1 + Z.of_nat n)%Z as (n & ->) by (exists (Z.to_nat (j - i - 1)); lia). clear hij.
  assert (hs : forall k, (0 <= k)%Z -> non_uniform_i_to_z lz zsize l k < non_uniform_i_to_z lz zsize l (k + 1)).
  { intros k hk. destruct (spacing lz zsize l (k + 1) h ha) as (h1 & h2); [lia|]. replace (k + 1 - 1)%Z with k in h2 by lia.
    assert (0 < 1 / inject_Z (ngrid_lattice_nz_i lz zsize l (k + 1))).
    { apply Qlt_shift_div_l; [apply inj_pos; exact h1 | rewrite Qmult_0_l; reflexivity]. }
    lra. }
  induction n as [|n IH].
  - replace (i + 1 + Z.of_nat 0)%Z with (i + 1)%Z by lia. apply hs. exact hi.
  - eapply Qlt_trans; [exact IH|]. replace (i + 1 + Z.of_nat (S n))%Z with (i + 1 + Z.of_nat n + 1)%Z by lia. apply hs. lia.
Qed.
Lemma nearest_top lz zsize l z : (0 < lz)%Z -> aligned lz (bottom zsize) l -> bottom zsize <= z ->
  Qabs (non_uniform_i_to_z lz zsize l (non_uniform_z_to_i lz zsize l z) - z) <= (1 # 2) / inject_Z (ngrid_lattice_nz_z lz l z).
Proof. intros h ha hz. apply (nearest lz h l); [exact ha | apply good_top | exact hz]. Qed.

Definition odd_layer : list layer := [Layer 0 (7 # 10) 1].
Lemma odd_ordered : ordered (bottom 10) odd_layer.
Proof. cbn. repeat split; cbv; discriminate. Qed.
Lemma odd_trip : non_uniform_z_to_i 1 10 odd_layer (non_uniform_i_to_z 1 10 odd_layer 6) <> 6%Z.
Proof. vm_compute. discriminate. Qed.
Lemma odd_mono : (7 # 10) < (8 # 10) /\ (non_uniform_z_to_i 1 10 odd_layer (8 # 10) < non_uniform_z_to_i 1 10 odd_layer (7 # 10))%Z.
Proof. split; vm_compute; reflexivity. Qed.

(** ** Sorting *)
Lemma qlt_true x y : qlt_bool x y = true <-> x < y.
Proof. unfold qlt_bool. rewrite negb_true_iff. apply qle_false. Qed.
Lemma qlt_false x y : qlt_bool x y = false <-> y <= x.
Proof. unfold qlt_bool. rewrite negb_false_iff. apply qle_true. Qed.
Lemma inside_iff n i : inside n i = true <-> (0 <= i < n)%Z.
Proof. unfold inside. rewrite andb_true_iff, Z.leb_le, Z.ltb_lt. reflexivity. Qed.

Section Sort.
Variable n : Z.
Lemma up_ok a pv right q : (q <= right)%Z -> (right < n)%Z -> pv <= start a q ->
  forall fuel i, (0 <= i <= q)%Z -> (q - i < Z.of_nat fuel)%Z ->
  exists u, up fuel n a pv right i = Done u /\ (i <= u <= q)%Z /\ pv <= start a u /\ forall p, (i <= p < u)%Z -> start a p < pv.
Proof.
  intros h1 h2 hq. induction fuel as [|f IH]; intros i hi hf; [lia|].
  cbn [up]. assert (hin : inside n i = true) by (apply inside_iff; lia). rewrite hin.
  destruct (qlt_bool (start a i) pv) eqn:e1.
  - apply qlt_true in e1. assert (i <> q) by (intro; subst; lra).
    assert (e2 : (i <? right)%Z = true) by (apply Z.ltb_lt; lia). rewrite e2. cbn [andb].
    destruct (IH (i + 1)%Z) as (u & hu & h3 & h4 & h5); [lia | lia |].
    exists u. split; [exact hu|]. split; [lia|]. split; [exact h4|]. intros p hp.
    destruct (Z.eq_dec p i) as [-> | hne]; [exact e1 | apply h5; lia].
  - apply qlt_false in e1. cbn [andb]. exists i. split; [reflexivity|]. split; [lia|]. split; [exact e1|]. intros p hp. lia.
Qed.
Lemma down_ok a pv q : (0 <= q)%Z -> start a q <= pv ->
  forall fuel j, (q <= j < n)%Z -> (j - q < Z.of_nat fuel)%Z ->
  exists d, down fuel n a pv j = Done d /\ (q <= d <= j)%Z /\ start a d <= pv /\ forall p, (d < p <= j)%Z -> pv < start a p.
Proof.
  intros h1 hq. induction fuel as [|f IH]; intros j hj hf; [lia|].
  cbn [down]. assert (hin : inside n j = true) by (apply inside_iff; lia). rewrite hin.
  destruct (qlt_bool pv (start a j)) eqn:e1.
  - apply qlt_true in e1. assert (j <> q) by (intro; subst; lra).
    destruct (IH (j - 1)%Z) as (d & hd & h3 & h4 & h5); [lia | lia |].
    exists d. split; [exact hd|]. split; [lia|]. split; [exact h4|]. intros p hp.
    destruct (Z.eq_dec p j) as [-> | hne]; [exact e1 | apply h5; lia].
  - apply qlt_false in e1. exists j. split; [reflexivity|]. split; [lia|]. split; [exact e1|]. intros p hp. lia.
Qed.

(** a rearrangement of the entries from [l] to [r] *)
Definition rearr (l r : Z) (a b : array) : Prop :=
  exists f g : Z -> Z, (forall p, (l <= p <= r)%Z -> (l <= f p <= r)%Z) /\ (forall p, f (g p) = p) /\ (forall p, g (f p) = p) /\
    (forall p, ~ (l <= p <= r)%Z -> f p = p) /\ forall p, b p = a (f p).
Lemma rearr_refl l r a : rearr l r a a.
Proof. exists (fun p => p), (fun p => p). repeat split; auto; lia. Qed.
Lemma rearr_trans l r a b c : rearr l r a b -> rearr l r b c -> rearr l r a c.
Proof.
  intros (f & g & h1 & h2 & h3 & h4 & h5) (f' & g' & k1 & k2 & k3 & k4 & k5).
  exists (fun p => f (f' p)), (fun p => g' (g p)). repeat split.
  - apply h1, k1; exact H.
  - apply h1, k1; exact H.
  - intro p. rewrite k2. apply h2.
  - intro p. rewrite h3. apply k3.
  - intros p hp. rewrite k4 by exact hp. apply h4. exact hp.
  - intro p. rewrite k5. apply h5.
Qed.
Lemma rearr_wide l r l' r' a b : (l' <= l)%Z -> (r <= r')%Z -> rearr l r a b -> rearr l' r' a b.
Proof.
  intros hl hr (f & g & h1 & h2 & h3 & h4 & h5). exists f, g. split; [|split; [|split; [|split]]]; auto.
  - intros p hp. destruct (Z_le_gt_dec l p) as [c1|c1]; [destruct (Z_le_gt_dec p r) as [c2|c2]|].
    + specialize (h1 p (conj c1 c2)). lia.
    + rewrite h4 by lia. lia.
    + rewrite h4 by lia. lia.
  - intros p hp. apply h4. lia.
Qed.
Lemma rearr_swap l r a i j : (l <= i <= r)%Z -> (l <= j <= r)%Z -> rearr l r a (swap a i j).
Proof.
  intros hi hj. set (f := fun p => if (p =? i)%Z then j else if (p =? j)%Z then i else p).
  assert (ff : forall p, f (f p) = p).
  { intro p. unfold f. destruct (Z.eqb_spec p i) as [->|n1].
    - destruct (Z.eqb_spec j i) as [->|n2]; [reflexivity|]. rewrite Z.eqb_refl. reflexivity.
    - destruct (Z.eqb_spec p j) as [->|n2]; [rewrite Z.eqb_refl; reflexivity|].
      destruct (Z.eqb_spec p i); [lia|]. destruct (Z.eqb_spec p j); [lia|]. reflexivity. }
  exists f, f. split; [|split; [|split; [|split]]]; auto.
  - intros p hp. unfold f. destruct (p =? i)%Z; [lia|]. destruct (p =? j)%Z; lia.
  - intros p hp. unfold f. destruct (Z.eqb_spec p i); [lia|]. destruct (Z.eqb_spec p j); lia.
  - intro p. unfold swap, f. destruct (p =? i)%Z; [reflexivity|]. destruct (p =? j)%Z; reflexivity.
Qed.
Lemma rearr_bound (P : layer -> Prop) l r a b : rearr l r a b -> (forall p, (l <= p <= r)%Z -> P (a p)) -> forall p, (l <= p <= r)%Z -> P (b p).
Proof. intros (f & g & h1 & _ & _ & _ & h5) h p hp. rewrite h5. apply h. apply h1. exact hp. Qed.
Lemma rearr_out l r a b p : rearr l r a b -> ~ (l <= p <= r)%Z -> b p = a p.
Proof. intros (f & g & _ & _ & _ & h4 & h5) hp. rewrite h5, h4 by exact hp. reflexivity. Qed.

(** the state of the partition: before the first exchange there is a middle entry,
    afterwards the ends are guarded by exchanged entries *)
Definition state (a : array) (pv : Q) (left right i j : Z) : Prop :=
  (left <= i)%Z /\ (j <= right)%Z /\ (i <= j + 1)%Z /\
  (forall p, (left <= p < i)%Z -> start a p <= pv) /\ (forall p, (j < p <= right)%Z -> pv <= start a p) /\
  ((exists m, (left <= m < right)%Z /\ start a m == pv /\ i = left /\ j = right) \/ ((left < i)%Z /\ (j < right)%Z)).
Lemma partition_ok pv left right : (0 <= left)%Z -> (left < right)%Z -> (right < n)%Z ->
  forall fuel a i j, state a pv left right i j -> (j - i + 2 <= Z.of_nat fuel)%Z -> (0 < fuel)%nat ->
  exists b u d, partition fuel n a pv right i j = Done (b, u, d) /\ rearr left right a b /\
    (left <= u <= right)%Z /\ (left <= d < right)%Z /\ (d <= u <= d + 1)%Z /\
    (forall p, (left <= p < u)%Z -> start b p <= pv) /\ (forall p, (d < p <= right)%Z -> pv <= start b p) /\
    ((u = d)%Z -> start b u == pv).
Proof.
  intros h0 h1 h2. induction fuel as [|f IH]; intros a i j hs hf hf0; [lia|].
  cbn [partition]. destruct hs as (s1 & s2 & s3 & s4 & s5 & s6).
  assert (hu : exists u, up (Z.to_nat (n + 2)) n a pv right i = Done u /\ (i <= u)%Z /\ (u <= j + 1)%Z /\ (u <= right)%Z /\ pv <= start a u /\
            (forall p, (i <= p < u)%Z -> start a p < pv) /\ (i = left -> j = right -> u < right)%Z).
  { destruct s6 as [(m & m1 & m2 & -> & ->) | (m1 & m2)].
    - destruct (up_ok a pv right m) with (fuel := Z.to_nat (n + 2)) (i := left) as (u & e & e1 & e2 & e3); try lia; [lra|].
      exists u. repeat split; try assumption; lia.
    - destruct (up_ok a pv right (j + 1)) with (fuel := Z.to_nat (n + 2)) (i := i) as (u & e & e1 & e2 & e3); try lia; [apply s5; lia|].
      exists u. repeat split; try assumption; lia. }
  destruct hu as (u & eu & u1 & u2 & u3 & u4 & u5 & u6). rewrite eu. cbn [obind].
  assert (hd : exists d, down (Z.to_nat (n + 2)) n a pv j = Done d /\ (d <= j)%Z /\ (i - 1 <= d)%Z /\ (left <= d)%Z /\ start a d <= pv /\
            (forall p, (d < p <= j)%Z -> pv < start a p) /\ (i = left -> j = right -> u <= d)%Z).
  { destruct s6 as [(m & m1 & m2 & -> & ->) | (m1 & m2)].
    - destruct (down_ok a pv m) with (fuel := Z.to_nat (n + 2)) (j := right) as (d & e & e1 & e2 & e3); try lia; [lra|].
      exists d. repeat split; try assumption; try lia. intros _ _. destruct (Z.le_gt_cases u d) as [c|c]; [exact c|].
      exfalso. assert (start a m < pv) by (apply u5; lia). lra.
    - destruct (down_ok a pv (i - 1)) with (fuel := Z.to_nat (n + 2)) (j := j) as (d & e & e1 & e2 & e3); try lia; [apply s4; lia|].
      exists d. repeat split; try assumption; lia. }
  destruct hd as (d & ed & d1 & d2 & d3 & d4 & d5 & d6). rewrite ed. cbn [obind].
  assert (hud : (u <= d + 1)%Z).
  { destruct (Z.le_gt_cases u (d + 1)) as [c|c]; [exact c|]. exfalso.
    assert (start a (d + 1) < pv) by (apply u5; lia). assert (pv < start a (d + 1)) by (apply d5; lia). lra. }
  destruct (d <=? u)%Z eqn:b.
  - apply Z.leb_le in b. exists a, u, d. split; [reflexivity|]. split; [apply rearr_refl|]. split; [lia|].
    assert (hdr : (d < right)%Z).
    { destruct s6 as [(m & m1 & m2 & e1 & e2) | (m1 & m2)]; [|lia]. specialize (u6 e1 e2). lia. }
    split; [lia|]. split; [lia|]. split.
    + intros p hp. destruct (Z.lt_ge_cases p i); [apply s4; lia | apply Qlt_le_weak; apply u5; lia].
    + split.
      * intros p hp. destruct (Z.lt_ge_cases j p); [apply s5; lia | apply Qlt_le_weak; apply d5; lia].
      * intros ->. lra.
  - apply Z.leb_gt in b.
    destruct (IH (swap a u d) (u + 1)%Z (d - 1)%Z) as (b' & u' & d' & e & hr & rest).
    + assert (eu' : start (swap a u d) u = start a d) by (unfold start, swap; rewrite Z.eqb_refl; reflexivity).
      assert (ed' : start (swap a u d) d = start a u).
      { unfold start, swap. destruct (Z.eqb_spec d u); [lia|]. rewrite Z.eqb_refl. reflexivity. }
      assert (eo : forall p, p <> u -> p <> d -> start (swap a u d) p = start a p).
      { intros p q1 q2. unfold start, swap. destruct (Z.eqb_spec p u); [lia|]. destruct (Z.eqb_spec p d); [lia|]. reflexivity. }
      split; [lia|]. split; [lia|]. split; [lia|]. split; [|split; [|right; lia]].
      * intros p hp. destruct (Z.eq_dec p u) as [->|q1]; [rewrite eu'; exact d4|].
        rewrite eo by lia. destruct (Z.lt_ge_cases p i); [apply s4; lia | apply Qlt_le_weak; apply u5; lia].
      * intros p hp. destruct (Z.eq_dec p d) as [->|q1]; [rewrite ed'; exact u4|].
        rewrite eo by lia. destruct (Z.lt_ge_cases j p); [apply s5; lia | apply Qlt_le_weak; apply d5; lia].
    + lia.
    + lia.
    + exists b', u', d'. split; [exact e|]. split; [|exact rest].
      eapply rearr_trans; [|exact hr]. apply rearr_swap; lia.
Qed.

Definition sorted_from (l r : Z) (a : array) : Prop := forall p q, (l <= p)%Z -> (p <= q)%Z -> (q <= r)%Z -> start a p <= start a q.
Definition wholes (l r : Z) (a : array) : Prop := forall p, (l <= p <= r)%Z -> exists m, start a p == inject_Z m.
Lemma quick_ok : forall fuel left right a, (0 <= left)%Z -> (left < right)%Z -> (right < n)%Z -> (right - left < Z.of_nat fuel)%Z ->
  wholes left right a -> exists b, quick_sort fuel n left right a = Done b /\ rearr left right a b /\ sorted_from left right b.
Proof.
  induction fuel as [|f IH]; intros left right a h0 h1 h2 hf hw; [lia|].
  cbn [quick_sort]. set (m := Z.quot (left + right) 2).
  assert (hm : (left <= m < right)%Z).
  { unfold m. rewrite Z.quot_div_nonneg by lia. split; [apply Z.div_le_lower_bound; lia | apply Z.div_lt_upper_bound; lia]. }
  assert (hpv : start a m == pivot_of a left right).
  { destruct (hw m) as (k & ek); [lia|]. unfold pivot_of. fold m. rewrite (trunc_Z _ _ ek). exact ek. }
  set (pv := pivot_of a left right) in *.
  destruct (partition_ok pv left right h0 h1 h2 (Z.to_nat (n + 2)) a left right) as (a1 & u & d & e & r1 & u1 & d1 & ud & lo & hi & mid).
  { split; [lia|]. split; [lia|]. split; [lia|]. split; [intros; lia|]. split; [intros; lia|]. left. exists m. auto. }
  { lia. } { lia. }
  rewrite e. cbn [obind].
  assert (w1 : wholes left right a1).
  { intros p hp. apply (rearr_bound (fun L => exists k, nz_start L == inject_Z k) left right a a1 r1); [exact hw | exact hp]. }
  assert (s1 : exists a2, (if (left <? u - 1)%Z then quick_sort f n left (u - 1) a1 else Done a1) = Done a2 /\
                 rearr left (u - 1) a1 a2 /\ sorted_from left (u - 1) a2).
  { destruct (left <? u - 1)%Z eqn:b.
    - apply Z.ltb_lt in b. apply IH; try lia. intros p hp. apply w1. lia.
    - apply Z.ltb_ge in b. exists a1. split; [reflexivity|]. split; [apply rearr_refl|].
      intros p q k1 k2 k3. assert (p = q) as -> by lia. lra. }
  destruct s1 as (a2 & e2 & r2 & s2). rewrite e2. cbn [obind].
  assert (w2 : wholes left right a2).
  { intros p hp. apply (rearr_bound (fun L => exists k, nz_start L == inject_Z k) left right a1 a2); [|exact w1 | exact hp].
    apply (rearr_wide left (u - 1)); [lia | lia | exact r2]. }
  assert (s3 : exists a3, (if (d + 1 <? right)%Z then quick_sort f n (d + 1) right a2 else Done a2) = Done a3 /\
                 rearr (d + 1) right a2 a3 /\ sorted_from (d + 1) right a3).
  { destruct (d + 1 <? right)%Z eqn:b.
    - apply Z.ltb_lt in b. apply IH; try lia. intros p hp. apply w2. lia.
    - apply Z.ltb_ge in b. exists a2. split; [reflexivity|]. split; [apply rearr_refl|].
      intros p q k1 k2 k3. assert (p = q) as -> by lia. lra. }
  destruct s3 as (a3 & e3 & r3 & s3). exists a3. split; [exact e3|].
  split.
  { eapply rearr_trans; [exact r1|]. eapply rearr_trans; [apply (rearr_wide left (u - 1)); [| |exact r2]; lia|].
    apply (rearr_wide (d + 1) right); [lia | lia | exact r3]. }
  (* the three parts *)
  assert (lo2 : forall p, (left <= p <= u - 1)%Z -> start a2 p <= pv).
  { intros p hp. apply (rearr_bound (fun L => nz_start L <= pv) left (u - 1) a1 a2 r2); [|exact hp]. intros p' hp'. apply lo. lia. }
  assert (hi2 : forall p, (d + 1 <= p <= right)%Z -> pv <= start a2 p).
  { intros p hp. unfold start. rewrite (rearr_out left (u - 1) a1 a2 p r2) by lia. apply hi. lia. }
  assert (lo3 : forall p, (left <= p <= u - 1)%Z -> start a3 p = start a2 p).
  { intros p hp. unfold start. rewrite (rearr_out (d + 1) right a2 a3 p r3) by lia. reflexivity. }
  assert (hi3 : forall p, (d + 1 <= p <= right)%Z -> pv <= start a3 p).
  { intros p hp. apply (rearr_bound (fun L => pv <= nz_start L) (d + 1) right a2 a3 r3); [exact hi2 | exact hp]. }
  assert (mid3 : u = d -> start a3 u == pv).
  { intro eud. unfold start. rewrite (rearr_out (d + 1) right a2 a3 u r3) by lia. rewrite (rearr_out left (u - 1) a1 a2 u r2) by lia. apply mid. exact eud. }
  intros p q k1 k2 k3.
  destruct (Z.lt_ge_cases p u) as [pu|pu].
  - destruct (Z.lt_ge_cases q u) as [qu|qu]; [rewrite !lo3 by lia; apply s2; lia|].
    assert (start a3 p <= pv) by (rewrite lo3 by lia; apply lo2; lia).
    destruct (Z.eq_dec q d) as [->|qd]; [assert (start a3 u == pv) as ee by (apply mid3; lia); replace d with u in * by lia; lra|].
    assert (pv <= start a3 q) by (apply hi3; lia). lra.
  - destruct (Z.eq_dec p d) as [->|pd].
    + assert (start a3 u == pv) as ee by (apply mid3; lia). replace d with u in * by lia.
      destruct (Z.eq_dec q u) as [->|qu]; [lra|]. assert (pv <= start a3 q) by (apply hi3; lia). lra.
    + apply s3; lia.
Qed.
Lemma entries_in p : In p (entries n) <-> (0 <= p < n)%Z.
Proof.
  unfold entries. rewrite in_map_iff. split.
  - intros (k & <- & h). apply in_seq in h. lia.
  - intro h. exists (Z.to_nat p). split; [lia|]. apply in_seq. lia.
Qed.
Lemma entries_nodup : NoDup (entries n).
Proof.
  unfold entries. generalize (seq_NoDup (Z.to_nat n) 0). generalize (seq 0 (Z.to_nat n)) as l. intros l h.
  induction h as [|x l hx h IH]; cbn; constructor; [|exact IH]. rewrite in_map_iff. intros (y & e & hy). apply hx.
  assert (y = x) as <- by lia. exact hy.
Qed.
Lemma rearr_perm a b : rearr 0 (n - 1) a b -> same_entries n a b.
Proof.
  intros (f & g & h1 & h2 & h3 & h4 & h5). unfold same_entries.
  assert (e : map b (entries n) = map a (map f (entries n))) by (rewrite map_map; apply map_ext; exact h5).
  rewrite e. apply Permutation_map. apply NoDup_Permutation.
  - apply entries_nodup.
  - generalize entries_nodup. generalize (entries n). intros l hl. induction hl as [|x l hx hl IH]; cbn; constructor; [|exact IH].
    rewrite in_map_iff. intros (y & ey & hy). apply hx. rewrite <- (h3 x), <- ey, h3. exact hy.
  - intro p. rewrite in_map_iff. split.
    + intro hp. exists (g p). split; [apply h2|]. apply entries_in. apply entries_in in hp.
      destruct (Z_le_gt_dec 0 (g p)) as [c1|c1]; [destruct (Z_lt_ge_dec (g p) n) as [c2|c2]; [lia|]|].
      * assert (f (g p) = g p) by (apply h4; lia). rewrite h2 in H. lia.
      * assert (f (g p) = g p) by (apply h4; lia). rewrite h2 in H. lia.
    + intros (q & <- & hq). apply entries_in. apply entries_in in hq. specialize (h1 q). lia.
Qed.
Lemma sort_ok a : whole_starts n a -> exists b, sort_layers n a = Done b /\ same_entries n a b /\ sorted n b.
Proof.
  intro hw. unfold sort_layers. destruct (2 <=? n)%Z eqn:e.
  - apply Z.leb_le in e. destruct (quick_ok (Z.to_nat (n + 2)) 0 (n - 1) a) as (b & eb & hr & hs); try lia.
    { intros p hp. apply hw. lia. }
    exists b. split; [exact eb|]. split; [apply rearr_perm; exact hr|]. intros p q k1 k2 k3. apply hs; lia.
  - apply Z.leb_gt in e. exists a. split; [reflexivity|]. split; [apply Permutation_refl|]. intros p q k1 k2 k3. assert (p = q) as -> by lia. lra.
Qed.
End Sort.

Definition two (x y : Q) : array := fun p => if (p =? 0)%Z then Layer x (x + 1) 1 else Layer y (y + 1) 1.
Lemma unsorted : exists b, sort_layers 2 (two (- (1 # 5)) (- (1 # 2))) = Done b /\ ~ sorted 2 b.
Proof.
  eexists. split; [reflexivity|]. intro h. specialize (h 0%Z 1%Z). cbn in h. assert (- (1 # 5) <= - (1 # 2)) by (apply h; lia). lra.
Qed.
Lemma overrun : sort_layers 2 (two (1 # 5) (1 # 2)) = Out (-1).
Proof. reflexivity. Qed.

Lemma up_inside n a pv right : forall fuel i u, up fuel n a pv right i = Done u -> (0 <= u < n)%Z.
Proof.
  induction fuel as [|f IH]; intros i u; cbn [up]; [discriminate|]. destruct (inside n i) eqn:e; [|discriminate].
  destruct (qlt_bool (start a i) pv && (i <? right)%Z); [apply IH|]. intro h. injection h as <-. apply inside_iff. exact e.
Qed.
Lemma down_inside n a pv : forall fuel j d, down fuel n a pv j = Done d -> (0 <= d < n)%Z.
Proof.
  induction fuel as [|f IH]; intros j d; cbn [down]; [discriminate|]. destruct (inside n j) eqn:e; [|discriminate].
  destruct (qlt_bool pv (start a j)); [apply IH|]. intro h. injection h as <-. apply inside_iff. exact e.
Qed.
Lemma partition_keeps n pv right : forall fuel a i j b u d, partition fuel n a pv right i j = Done (b, u, d) -> rearr 0 (n - 1) a b.
Proof.
  induction fuel as [|f IH]; intros a i j b u d; cbn [partition]; [discriminate|].
  destruct (up _ n a pv right i) as [u1|?|] eqn:eu; cbn [obind]; try discriminate.
  destruct (down _ n a pv j) as [d1|?|] eqn:ed; cbn [obind]; try discriminate.
  apply up_inside in eu. apply down_inside in ed.
  destruct (d1 <=? u1)%Z; [intro h; injection h as <- <- <-; apply rearr_refl|].
  intro h. apply IH in h. eapply rearr_trans; [|exact h]. apply rearr_swap; lia.
Qed.
Lemma quick_keeps n : forall fuel left right a b, quick_sort fuel n left right a = Done b -> rearr 0 (n - 1) a b.
Proof.
  induction fuel as [|f IH]; intros left right a b; cbn [quick_sort]; [discriminate|].
  destruct (partition _ n a _ right left right) as [[[a1 i] j]|?|] eqn:ep; cbn [obind]; try discriminate.
  apply partition_keeps in ep.
  destruct (if (left <? i - 1)%Z then quick_sort f n left (i - 1)%Z a1 else Done a1) as [a2|?|] eqn:e2; cbn [obind]; try discriminate.
  assert (r2 : rearr 0 (n - 1) a1 a2).
  { destruct (left <? i - 1)%Z; [apply IH in e2; exact e2 | injection e2 as <-; apply rearr_refl]. }
  intro e3. assert (r3 : rearr 0 (n - 1) a2 b).
  { destruct (j + 1 <? right)%Z; [apply IH in e3; exact e3 | injection e3 as <-; apply rearr_refl]. }
  eapply rearr_trans; [exact ep|]. eapply rearr_trans; eassumption.
Qed.
Lemma sort_keeps n a b : sort_layers n a = Done b -> same_entries n a b.
Proof.
  unfold sort_layers. destruct (2 <=? n)%Z; intro h; [apply quick_keeps in h; apply rearr_perm; exact h|].
  injection h as <-. apply Permutation_refl.
Qed.
