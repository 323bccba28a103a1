(** Proofs about the cavity constructor. *)
From Coq Require Import Reals ZArith Lra Lia.
From Verif Require Import Base CavModel CavSpec.
Open Scope R_scope.

Lemma norm2_nonneg v : 0 <= norm2 v.
Proof. unfold norm2. induction v as [|a v IH]; simpl; [lra|]. pose proof (Rle_0_sqr a). unfold Rsqr in *. lra. Qed.
Lemma norm2_div v c : c <> 0 -> norm2 (map (fun x => x / c) v) = norm2 v / (c * c).
Proof.
  intros H. unfold norm2. induction v as [|x v IH]; simpl; [field; exact H|]. rewrite IH. field. exact H.
Qed.
Lemma tiny_pos : 0 < tiny. Proof. unfold tiny. apply Rinv_0_lt_compat, pow_lt. lra. Qed.
Lemma tiny_lt1 : tiny < 1.
Proof.
  unfold tiny. rewrite <- Rinv_1. assert (H : 1 < 10 ^ 15) by (apply Rlt_pow_R1; [lra|lia]).
  apply Rinv_lt_contravar; lra.
Qed.
Lemma norm_unit v : tiny < sqrt (norm2 v) -> norm2 (map (fun x => x / sqrt (norm2 v)) v) = 1.
Proof.
  intros H. pose proof tiny_pos. rewrite norm2_div by lra.
  rewrite sqrt_sqrt by apply norm2_nonneg. field. intro E. rewrite E, sqrt_0 in H. lra.
Qed.
Lemma normalise_spec v : direction_of v (normalise v).
Proof.
  unfold direction_of, normalise. fold tiny. destruct (Rlt_dec tiny (sqrt (norm2 v))) as [H|H]; split; intros G.
  - split; [|reflexivity]. unfold unit_vector. apply norm_unit, H.
  - exfalso. apply G. exact H.
  - exfalso. apply H. exact G.
  - reflexivity.
Qed.
Lemma normalise_len v : length (normalise v) = length v.
Proof. unfold normalise. destruct (Rlt_dec _ _); [apply map_length|reflexivity]. Qed.
Lemma normalise_idem v : normalise (normalise v) = normalise v.
Proof.
  unfold normalise at 2 3. destruct (Rlt_dec tiny (sqrt (norm2 v))) as [H|H].
  - unfold normalise. rewrite (norm_unit v H), sqrt_1. destruct (Rlt_dec tiny 1); [|reflexivity].
    rewrite <- map_id. apply map_ext. intros a. field.
  - unfold normalise. destruct (Rlt_dec _ _); [contradiction|reflexivity].
Qed.

(** the loop *)
Lemma rmapM_ok {A B} (f : A -> res B) l : (forall x, In x l -> exists y, f x = Ok y) -> exists ys, rmapM f l = Ok ys.
Proof.
  induction l as [|x l IH]; simpl; intros H; [eexists; reflexivity|].
  destruct (H x (or_introl eq_refl)) as [y ->]. simpl.
  destruct IH as [ys ->]; [intros z Hz; apply H; now right|]. simpl. eexists; reflexivity.
Qed.
Lemma rmapM_inv {A B} (f : A -> res B) l ys : rmapM f l = Ok ys -> Forall2 (fun x y => f x = Ok y) l ys.
Proof.
  revert ys. induction l as [|x l IH]; simpl; intros ys H.
  - injection H as <-. constructor.
  - destruct (f x) eqn:E; simpl in H; [|discriminate]. destruct (rmapM f l) eqn:E2; simpl in H; [|discriminate].
    injection H as <-. constructor; [exact E|now apply IH].
Qed.

Lemma index_ok {A} (l : list A) i x d : index l i = Ok x -> (i < length l)%nat /\ nth i l d = x.
Proof.
  unfold index. destruct (nth_error l i) eqn:E; [|discriminate]. intros H. injection H as <-.
  split; [apply nth_error_Some; congruence|]. now apply nth_error_nth.
Qed.
Lemma index_lt {A} (l : list A) i d : (i < length l)%nat -> index l i = Ok (nth i l d).
Proof. intros H. unfold index. now rewrite (nth_error_nth' l d H). Qed.
Lemma nth_map' {A B} (f : A -> B) l i d d' : (i < length l)%nat -> nth i (map f l) d' = f (nth i l d).
Proof. intros H. rewrite (nth_indep _ d' (f d)) by now rewrite map_length. apply map_nth. Qed.
Lemma Forall2_nth {A B} (P : A -> B -> Prop) l l' da db : Forall2 P l l' ->
  length l = length l' /\ forall i, (i < length l)%nat -> P (nth i l da) (nth i l' db).
Proof.
  induction 1 as [|x y l l' H F [IH1 IH2]]; simpl; [split; [reflexivity|lia]|].
  split; [now rewrite IH1|]. intros [|i] Hi; simpl; [exact H|]. apply IH2. lia.
Qed.
Lemma pre_nth om g var n p : prefactors om g var n = Ok p -> length p = n /\
  forall i, (i < n)%nat -> exists l, om = Some l /\ (i < length l)%nat /\ (i < length g)%nat /\ (i < length var)%nat /\
    nth i p (0, 0, 0) = (nth i g 0 * sqrt (1/2 * nth i l 0), 1 - nth i var 0, 1/2 * nth i g 0 ^ 2).
Proof.
  unfold prefactors. intros H. apply rmapM_inv in H.
  apply (Forall2_nth _ _ _ 0%nat (0, 0, 0)) in H. rewrite seq_length in H. destruct H as [L H].
  split; [symmetry; exact L|]. intros i Hi. specialize (H i Hi). rewrite seq_nth in H by exact Hi. simpl in H.
  unfold pre_step in H. destruct (index g i) as [ga|] eqn:Eg; simpl in H; [|discriminate].
  destruct om as [l|]; simpl in H; [|discriminate].
  destruct (index l i) as [oa|] eqn:Eo; simpl in H; [|discriminate].
  destruct (index var i) as [va|] eqn:Ev; simpl in H; [|discriminate].
  injection H as <-. exists l. destruct (index_ok _ _ _ 0 Eg) as [? <-]. destruct (index_ok _ _ _ 0 Eo) as [? <-].
  destruct (index_ok _ _ _ 0 Ev) as [? <-]. repeat split; assumption.
Qed.
Lemma pre_ok l g var n : length l = n -> length g = n -> (n <= length var)%nat ->
  exists p, prefactors (Some l) g var n = Ok p.
Proof.
  intros Hl Hg Hv. apply rmapM_ok. intros i Hi. apply in_seq in Hi. unfold pre_step.
  rewrite (index_lt g i 0), (index_lt l i 0), (index_lt var i 0) by lia. simpl. eexists; reflexivity.
Qed.

(** what a successful construction went through *)
Lemma make_inv x b : make x = Ok b -> exists om n g0 norms p,
  take_omega (a_omega x) (a_nboson x) = Ok (om, n) /\ take_gfac (a_gfac x) n = Ok g0 /\
  take_vec (a_vec x) n = Ok (norms, vec b, caller_vec b) /\ take_nboson (a_nboson x) n = Ok (nboson b) /\
  take_z (a_use_cs x) (a_z x) n = Ok (use_cs b, z_alpha b) /\ var b = take_var (a_var x) n /\
  prefactors om (gfac b) (var b) n = Ok p /\ gfac b = match g0 with Some g => g | None => norms end /\
  omega b = match om with Some l => l | None => [] end /\ nmodes b = n /\
  bilinear b = map (fun t => fst (fst t)) p /\ self b = map snd p /\ res_ b = map (fun t => snd (fst t)) p /\
  coeff_size b = fold_right Z.add 0%Z (nboson b) /\ coeff_size b <> 0%Z /\ coeff0 b = 1 / sqrt (IZR (coeff_size b)).
Proof.
  unfold make. destruct (take_omega _ _) as [[om n]|] eqn:E1; simpl; [|discriminate].
  destruct (take_gfac _ _) as [g0|] eqn:E2; simpl; [|discriminate].
  destruct (take_vec _ _) as [[[norms v] cv]|] eqn:E3; simpl; [|discriminate].
  destruct (take_nboson _ _) as [nb|] eqn:E4; simpl; [|discriminate].
  destruct (take_z _ _ _) as [[cs z]|] eqn:E5; simpl; [|discriminate].
  destruct (prefactors _ _ _ _) as [p|] eqn:E6; simpl; [|discriminate].
  destruct (Z.eqb _ 0) eqn:E7; [discriminate|]. intros H. injection H as <-. simpl.
  exists om, n, g0, norms, p. apply Z.eqb_neq in E7. repeat (split; [first [assumption|reflexivity]|]). reflexivity.
Qed.

Lemma take_omega_len o nb l n : take_omega o nb = Ok (Some l, n) -> length l = n /\ (o = OList l \/ o = OArr l).
Proof.
  destruct o; simpl; try discriminate.
  - destruct nb; discriminate.
  - destruct nb as [|k| |]; simpl; try (intros H; injection H as -> <-; tauto).
    destruct (Nat.eqb _ _); simpl; [|discriminate]. intros H; injection H as -> <-; tauto.
  - destruct nb as [|k| |]; simpl; try (intros H; injection H as -> <-; tauto).
    destruct (Nat.eqb _ _); simpl; [|discriminate]. intros H; injection H as -> <-; tauto.
Qed.
Lemma take_gfac_len g n g0 : take_gfac g n = Ok g0 -> match g0 with Some l => length l = n | None => True end.
Proof.
  destruct g; simpl; try discriminate; try (intros H; injection H as <-; exact I);
  destruct (Nat.eqb _ _) eqn:E; try discriminate; intros H; injection H as <-; now apply Nat.eqb_eq.
Qed.
Lemma take_vec_len v n norms w cv : take_vec v n = Ok (norms, w, cv) -> length norms = n /\ length w = n.
Proof.
  destruct v as [l|c l|c l|]; simpl; try discriminate.
  - destruct (Nat.eqb _ _) eqn:E; simpl; [|discriminate]. destruct (_ && _)%bool; [|discriminate].
    intros H. injection H as <- <- <-. rewrite !map_length. apply Nat.eqb_eq in E. tauto.
  - destruct (Nat.eqb _ _) eqn:E; simpl; [|discriminate]. destruct (Nat.eqb c 3); [|discriminate].
    intros H. injection H as <- <- <-. rewrite !map_length. apply Nat.eqb_eq in E. tauto.
  - destruct (Nat.eqb _ _) eqn:E; simpl; [|discriminate]. destruct (Nat.eqb c 3); [|discriminate].
    intros H. injection H as <- <- <-. rewrite !map_length. apply Nat.eqb_eq in E. tauto.
Qed.
Lemma take_nboson_ok nb n l : take_nboson nb n = Ok l -> length l = n /\ Forall (fun k => (0 < k)%Z) l.
Proof.
  assert (G : forall k, (if Nat.eqb (length k) n then if forallb (Z.ltb 0) k then Ok k else Err ValueError
      else Err ValueError) = Ok l -> length l = n /\ Forall (fun k => (0 < k)%Z) l).
  { intros k. destruct (Nat.eqb _ _) eqn:E; [|discriminate]. destruct (forallb _ _) eqn:F; [|discriminate].
    intros H. injection H as ->. split; [now apply Nat.eqb_eq|]. apply Forall_forall. intros x Hx.
    rewrite forallb_forall in F. apply Z.ltb_lt, F, Hx. }
  destruct nb; simpl; intros H; try discriminate; exact (G _ H).
Qed.
Lemma take_z_len cs z n c l : take_z cs z n = Ok (c, l) -> length l = n.
Proof.
  destruct z; simpl; try discriminate.
  - intros H; injection H as _ <-. apply repeat_length.
  - destruct (Nat.eqb _ _) eqn:E; [|discriminate]. intros H; injection H as _ <-. now apply Nat.eqb_eq.
  - destruct (Nat.eqb _ _) eqn:E; [|discriminate]. intros H; injection H as _ <-. now apply Nat.eqb_eq.
Qed.
Lemma zsum_pos l : Forall (fun k => (0 < k)%Z) l -> (0 <= fold_right Z.add 0 l)%Z.
Proof. induction 1; simpl; lia. Qed.

Lemma make_consistent x b : make x = Ok b -> consistent b.
Proof.
  intros H. destruct (make_inv x b H) as (om & n & g0 & norms & p & E1 & E2 & E3 & E4 & E5 & E6 & E7 & E8 & E9
    & E10 & E11 & E12 & E13 & E14 & E15 & E16).
  destruct (take_vec_len _ _ _ _ _ E3) as [Ln Lv]. destruct (take_nboson_ok _ _ _ E4) as [Lb Pb].
  pose proof (take_gfac_len _ _ _ E2) as Lg0.
  assert (Lg : length (gfac b) = n) by (rewrite E8; destruct g0; [exact Lg0|exact Ln]).
  destruct (pre_nth _ _ _ _ _ E7) as [Lp Np].
  assert (nz : n <> 0%nat).
  { intros ->. destruct (nboson b); [|discriminate]. simpl in E14. congruence. }
  destruct (Np 0%nat) as (l & -> & _); [lia|]. destruct (take_omega_len _ _ _ _ E1) as [Lo _].
  assert (N : forall i, (i < n)%nat -> (i < length (var b))%nat /\
     nth i p (0, 0, 0) = (nth i (gfac b) 0 * sqrt (1/2 * nth i l 0), 1 - nth i (var b) 0, 1/2 * nth i (gfac b) 0 ^ 2)).
  { intros i Hi. destruct (Np i Hi) as (l' & E & _ & _ & V & R'). injection E as <-. split; assumption. }
  assert (Lvar : (n <= length (var b))%nat).
  { destruct n as [|m]; [lia|]. destruct (N m) as [V _]; lia. }
  constructor; rewrite ?E10, ?E9; try assumption.
  - exact (take_z_len _ _ _ _ _ E5).
  - split; assumption.
  - rewrite E11. apply (nth_ext _ _ 0 0).
    { rewrite !map_length, combine_length. lia. }
    intros i Hi. rewrite map_length in Hi. rewrite Lp in Hi.
    rewrite (nth_map' _ p i (0, 0, 0)) by lia. destruct (N i Hi) as [_ ->]. cbn [fst snd].
    rewrite (nth_map' _ (combine (gfac b) l) i (0, 0)) by (rewrite combine_length; lia).
    rewrite combine_nth by congruence. cbn [fst snd]. do 2 f_equal. lra.
  - rewrite E12. apply (nth_ext _ _ 0 0).
    { rewrite !map_length. lia. }
    intros i Hi. rewrite map_length in Hi. rewrite Lp in Hi.
    rewrite (nth_map' _ p i (0, 0, 0)) by lia. destruct (N i Hi) as [_ ->]. cbn [fst snd].
    rewrite (nth_map' _ (gfac b) i 0) by lia. lra.
  - rewrite E13. apply (nth_ext _ _ 0 0).
    { rewrite !map_length, firstn_length. lia. }
    intros i Hi. rewrite map_length in Hi. rewrite Lp in Hi.
    rewrite (nth_map' _ p i (0, 0, 0)) by lia. destruct (N i Hi) as [Hv ->]. cbn [fst snd].
    rewrite (nth_map' _ (firstn n (var b)) i 0) by (rewrite firstn_length; lia). f_equal.
    rewrite <- (firstn_skipn n (var b)) at 1. apply app_nth1. rewrite firstn_length. lia.
  - split; [exact E14|]. rewrite E16.
    assert (P : 0 < IZR (coeff_size b)).
    { apply IZR_lt. pose proof (zsum_pos _ Pb). rewrite E14 in *. lia. }
    replace (1 / sqrt (IZR (coeff_size b))) with (/ sqrt (IZR (coeff_size b))) by lra.
    rewrite pow_inv, pow2_sqrt by lra. field. lra.
Qed.

(** polarisation vectors *)
Lemma take_vec_float v n norms w cv l : float_rows v = Some l -> take_vec v n = Ok (norms, w, cv) ->
  w = map normalise l /\ norms = map (fun r => sqrt (norm2 r)) l.
Proof.
  destruct v as [k|c k|c k|]; simpl; try discriminate; intros E; injection E as ->.
  - destruct (_ && _)%bool; [|discriminate]. intros H; injection H as <- <- <-. tauto.
  - destruct (_ && _)%bool; [|discriminate]. intros H; injection H as <- <- <-. tauto.
Qed.
Lemma vec_directions x b l : float_rows (a_vec x) = Some l -> make x = Ok b -> Forall2 direction_of l (vec b).
Proof.
  intros F H. destruct (make_inv x b H) as (om & n & g0 & norms & p & E1 & E2 & E3 & _).
  destruct (take_vec_float _ _ _ _ _ _ F E3) as [-> _].
  induction l as [|r l IH]; simpl; constructor; [apply normalise_spec|].
  clear. induction l as [|r l IH]; simpl; constructor; [apply normalise_spec|exact IH].
Qed.
Lemma gfac_norms x b l : a_gfac x = GNone -> float_rows (a_vec x) = Some l -> make x = Ok b ->
  gfac b = map (fun r => sqrt (norm2 r)) l.
Proof.
  intros G F H. destruct (make_inv x b H) as (om & n & g0 & norms & p & E1 & E2 & E3 & E4 & E5 & E6 & E7 & E8 & _).
  rewrite G in E2. simpl in E2. injection E2 as <-. rewrite E8. now destruct (take_vec_float _ _ _ _ _ _ F E3).
Qed.
Lemma gfac_given x b l : (a_gfac x = GList l \/ a_gfac x = GArr l) -> make x = Ok b -> gfac b = l.
Proof.
  intros G H. destruct (make_inv x b H) as (om & n & g0 & norms & p & E1 & E2 & E3 & E4 & E5 & E6 & E7 & E8 & _).
  rewrite E8. destruct G as [G|G]; rewrite G in E2; simpl in E2; destruct (Nat.eqb _ _); try discriminate;
  injection E2 as <-; reflexivity.
Qed.

Lemma z_given x b l : (a_z x = ZList l \/ a_z x = ZArr l) -> make x = Ok b -> z_alpha b = l /\ use_cs b = false.
Proof.
  intros G H. destruct (make_inv x b H) as (om & n & g0 & norms & p & E1 & E2 & E3 & E4 & E5 & _).
  destruct G as [G|G]; rewrite G in E5; simpl in E5; destruct (Nat.eqb _ _); try discriminate;
  injection E5 as <- <-; split; reflexivity.
Qed.
Lemma z_default x b : a_z x = ZNone -> make x = Ok b -> z_alpha b = repeat 0 (nmodes b) /\ use_cs b = a_use_cs x.
Proof.
  intros G H. destruct (make_inv x b H) as (om & n & g0 & norms & p & E1 & E2 & E3 & E4 & E5 & E6 & E7 & E8 & E9 & E10 & _).
  rewrite G in E5. simpl in E5. injection E5 as <- <-. rewrite E10. split; reflexivity.
Qed.

(** constructing twice *)
Lemma again_ok x b : make x = Ok b -> (forall c l, a_vec x <> VInt c l) ->
  ((exists l, a_vec x = VList l) \/ (exists l, a_gfac x = GList l \/ a_gfac x = GArr l)
   \/ (exists c l, a_vec x = VArr c l /\ Forall unit_vector l)) ->
  make (again x b) = Ok b.
Proof.
  intros H NI C. destruct (make_inv x b H) as (om & n & g0 & norms & p & E1 & E2 & E3 & E4 & E5 & E6 & E7 & E8 & E9
    & E10 & E11 & E12 & E13 & E14 & E15 & E16).
  assert (Q : exists norms', take_vec (caller_vec b) n = Ok (norms', vec b, caller_vec b) /\
     match g0 with Some g => g | None => norms' end = gfac b).
  { destruct (a_vec x) as [l|c l|c l|] eqn:V; simpl in E3; try discriminate.
    - exists norms. destruct (_ && _)%bool eqn:B; [|discriminate]. injection E3 as <- E3 <-. simpl.
      rewrite B, <- E3. split; [reflexivity|symmetry; exact E8].
    - destruct (_ && _)%bool eqn:B; [|discriminate]. injection E3 as E3a E3 <-. simpl.
      rewrite map_length, B. rewrite map_map. rewrite <- E3.
      assert (I : map (fun r => normalise (normalise r)) l = map normalise l)
        by (apply map_ext; intros r; apply normalise_idem).
      rewrite map_map in *. rewrite I. eexists. split; [reflexivity|].
      destruct C as [[k C]|[[k C]|(c' & k & C & U)]]; [discriminate| |].
      + destruct C as [C|C]; rewrite C in E2; simpl in E2; destruct (Nat.eqb _ _); try discriminate;
        injection E2 as <-; symmetry; exact E8.
      + injection C as <- <-. rewrite E8. destruct g0; [reflexivity|]. rewrite <- E3a.
        apply map_ext_in. intros r Hr. rewrite Forall_forall in U. specialize (U r Hr). unfold unit_vector in U.
        unfold normalise. rewrite U, sqrt_1. destruct (Rlt_dec tiny 1).
        * replace (map (fun x0 => x0 / 1) r) with r; [rewrite U; apply sqrt_1|].
          rewrite <- map_id at 1. apply map_ext. intros a. field.
        * rewrite U. apply sqrt_1.
    - exfalso. eapply NI. reflexivity. }
  destruct Q as (norms' & Q1 & Q2).
  unfold make, again. cbn [a_omega a_vec a_gfac a_nboson a_use_cs a_z a_var].
  rewrite E1. simpl. rewrite E2. simpl. rewrite Q1. simpl. rewrite E4. simpl. rewrite E5. simpl.
  rewrite Q2, <- E6, E7. simpl. rewrite <- E14.
  destruct (Z.eqb (coeff_size b) 0) eqn:Z0; [apply Z.eqb_eq in Z0; contradiction|].
  rewrite <- E9, <- E10, <- E11, <- E12, <- E13, <- E16. destruct b; reflexivity.
Qed.
Lemma caller_list x b l : a_vec x = VList l -> make x = Ok b -> caller_vec b = a_vec x.
Proof.
  intros V H. destruct (make_inv x b H) as (om & n & g0 & norms & p & E1 & E2 & E3 & _).
  rewrite V in *. simpl in E3. destruct (_ && _)%bool; [|discriminate]. now injection E3 as _ _ <-.
Qed.

(** documented arguments are accepted *)
Lemma documented_ok x : documented x -> exists b, make x = Ok b.
Proof.
  intros (l & rows & O & NZ & V & Lr & F3 & G & NB & Z' & VA). unfold make.
  assert (T1 : take_omega (a_omega x) (a_nboson x) = Ok (Some l, length l)).
  { destruct O as [-> | ->]; simpl; destruct (a_nboson x) as [|k| |]; simpl; try reflexivity;
    destruct NB as [-> _]; rewrite Nat.eqb_refl; reflexivity. }
  rewrite T1. simpl.
  assert (T2 : exists g0, take_gfac (a_gfac x) (length l) = Ok g0 /\ match g0 with Some g => length g = length l | None => True end).
  { destruct (a_gfac x); simpl; try contradiction; [eexists; split; [reflexivity|exact I]| |];
    rewrite G, Nat.eqb_refl; eexists; (split; [reflexivity|exact G]). }
  destruct T2 as (g0 & -> & Lg0). simpl.
  assert (T3 : exists cv, take_vec (a_vec x) (length l) = Ok (map (fun r => sqrt (norm2 r)) rows, map normalise rows, cv)).
  { destruct V as [-> | ->]; simpl; rewrite Lr, Nat.eqb_refl; simpl.
    - destruct (Nat.eqb (length l) 0) eqn:E; [apply Nat.eqb_eq in E; destruct l; [contradiction|discriminate]|]. simpl.
      assert (B : forallb (fun r => Nat.eqb (length r) 3) rows = true).
      { apply forallb_forall. intros r Hr. rewrite Forall_forall in F3. rewrite (F3 r Hr). reflexivity. }
      rewrite B. eexists; reflexivity.
    - eexists; reflexivity. }
  destruct T3 as (cv & ->). simpl.
  assert (T4 : exists nb, take_nboson (a_nboson x) (length l) = Ok nb).
  { destruct (a_nboson x) as [k|k|k|]; simpl; try contradiction.
    - rewrite repeat_length, Nat.eqb_refl.
      assert (B : forallb (Z.ltb 0) (repeat k (length l)) = true).
      { apply forallb_forall. intros y Hy. apply repeat_spec in Hy. subst. now apply Z.ltb_lt. }
      rewrite B. eexists; reflexivity.
    - destruct NB as [-> NB]. rewrite Nat.eqb_refl.
      assert (B : forallb (Z.ltb 0) k = true).
      { apply forallb_forall. intros y Hy. rewrite Forall_forall in NB. now apply Z.ltb_lt, NB. }
      rewrite B. eexists; reflexivity.
    - destruct NB as [-> NB]. rewrite Nat.eqb_refl.
      assert (B : forallb (Z.ltb 0) k = true).
      { apply forallb_forall. intros y Hy. rewrite Forall_forall in NB. now apply Z.ltb_lt, NB. }
      rewrite B. eexists; reflexivity. }
  destruct T4 as (nb & T4). rewrite T4. simpl. destruct (take_nboson_ok _ _ _ T4) as [Lnb Pnb].
  assert (T5 : exists cz, take_z (a_use_cs x) (a_z x) (length l) = Ok cz).
  { destruct (a_z x); simpl; try contradiction; try (rewrite Z', Nat.eqb_refl); eexists; reflexivity. }
  destruct T5 as ([cs z] & ->). simpl.
  set (g := match g0 with Some g => g | None => _ end).
  assert (Lg : length g = length l) by (unfold g; destruct g0; [exact Lg0|now rewrite map_length]).
  assert (Lv : length (take_var (a_var x) (length l)) = length l).
  { unfold take_var. destruct (a_var x); [exact VA|apply repeat_length]. }
  destruct (pre_ok l g (take_var (a_var x) (length l)) (length l) eq_refl Lg) as [p ->]; [lia|]. simpl.
  destruct (Z.eqb _ 0) eqn:E; [|eexists; reflexivity].
  exfalso. apply Z.eqb_eq in E. destruct nb as [|k nb]; [destruct l; [contradiction|discriminate]|].
  inversion Pnb; subst. simpl in E. pose proof (zsum_pos nb H2). lia.
Qed.
Lemma list_or_array x l : a_omega x = OList l ->
  make x = make (Args (OArr l) (a_vec x) (a_gfac x) (a_nboson x) (a_use_cs x) (a_z x) (a_var x)).
Proof. intros E. unfold make. rewrite E. reflexivity. Qed.

(** a single frequency *)
Lemma float_fails x w : a_omega x = OFloat w -> make x = Err AttributeError.
Proof. intros E. unfold make. rewrite E. reflexivity. Qed.
Lemma npfloat_fails x w : a_omega x = ONpFloat w -> exists e, make x = Err e.
Proof.
  intros E. destruct (make x) as [b|e] eqn:H; [|eexists; reflexivity].
  destruct (make_inv x b H) as (om & n & g0 & norms & p & E1 & E2 & E3 & E4 & E5 & E6 & E7 & _).
  rewrite E in E1. simpl in E1. assert (om = None /\ n = 1%nat) as [-> ->].
  { destruct (a_nboson x); try discriminate; injection E1 as <- <-; tauto. }
  destruct (pre_nth _ _ _ _ _ E7) as [_ N]. destruct (N 0%nat) as (l & Q & _); [lia|discriminate].
Qed.

(** witnesses *)
Lemma ip0 x : 0 <= x < 1 -> Int_part x = 0%Z.
Proof. intros H. unfold Int_part. rewrite <- (tech_up x 1); [reflexivity|simpl; lra|simpl; lra]. Qed.
Lemma norm110 : norm2 [1; 1; 0] = 2. Proof. unfold norm2; simpl; lra. Qed.
Definition one_mode (v : vec_arg) : args := Args (OList [1]) v GNone (NInt 1) true ZNone None.
Lemma int_truncated : exists b, make (one_mode (VInt 3 [[1; 1; 0]%Z])) = Ok b /\ vec b = [[0; 0; 0]].
Proof.
  unfold make, one_mode. cbn [a_omega a_nboson take_omega rbind a_gfac take_gfac a_vec take_vec].
  cbn -[normalise_int norm2 sqrt]. eexists. split; [reflexivity|]. cbn [vec].
  assert (E : normalise_int [1; 1; 0]%Z = [0; 0; 0]%Z).
  { unfold normalise_int. cbn [map]. change (IZR 1) with 1. change (IZR 0) with 0. rewrite norm110.
    destruct (Rlt_dec tiny (sqrt 2)) as [H|H].
    - assert (S1 : 1 < sqrt 2 < 2).
      { split; [rewrite <- sqrt_1 at 1; apply sqrt_lt_1; lra|].
        rewrite <- (sqrt_square 2) at 2 by lra. apply sqrt_lt_1; lra. }
      assert (T1 : trunc (1 / sqrt 2) = 0%Z).
      { unfold trunc. assert (0 < 1 / sqrt 2 < 1).
        { split; [apply Rdiv_lt_0_compat; lra|]. apply Rmult_lt_reg_r with (sqrt 2); [lra|]. field_simplify; lra. }
        destruct (Rle_dec 0 (1 / sqrt 2)); [|lra]. apply ip0. lra. }
      assert (T0 : trunc (0 / sqrt 2) = 0%Z).
      { unfold trunc. replace (0 / sqrt 2) with 0 by (field; lra). destruct (Rle_dec 0 0); [|lra].
        apply ip0. lra. }
      rewrite T1, T0. reflexivity.
    - exfalso. apply H. apply Rlt_trans with 1; [apply tiny_lt1|]. rewrite <- sqrt_1 at 1. apply sqrt_lt_1; lra. }
  rewrite E. reflexivity.
Qed.
Lemma norm2z : norm2 [2; 0; 0] = 2 * 2. Proof. unfold norm2; simpl; lra. Qed.
Lemma twice_differs : exists b b', make (one_mode (VArr 3 [[2; 0; 0]])) = Ok b /\
  make (again (one_mode (VArr 3 [[2; 0; 0]])) b) = Ok b' /\ caller_vec b <> VArr 3 [[2; 0; 0]] /\ gfac b = [2] /\ gfac b' = [1].
Proof.
  assert (D : documented (one_mode (VArr 3 [[2; 0; 0]]))).
  { exists [1], [[2; 0; 0]]. simpl. repeat split; try tauto; try discriminate. repeat constructor. }
  destruct (documented_ok _ D) as [b H]. exists b.
  assert (S2 : sqrt (norm2 [2; 0; 0]) = 2) by (rewrite norm2z; apply sqrt_square; lra).
  assert (N : normalise [2; 0; 0] = [1; 0; 0]).
  { unfold normalise. rewrite S2. destruct (Rlt_dec tiny 2) as [|h]; [|pose proof tiny_lt1; lra].
    simpl. repeat f_equal; lra. }
  destruct (make_inv _ b H) as (om & n & g0 & norms & p & E1 & E2 & E3 & E4 & E5 & E6 & E7 & E8 & _).
  simpl in E1. injection E1 as <- <-. simpl in E3. injection E3 as E3 E3' E3''.
  rewrite N in E3''.
  assert (D' : documented (again (one_mode (VArr 3 [[2; 0; 0]])) b)).
  { unfold again. rewrite <- E3''. exists [1], [[1; 0; 0]]. simpl. repeat split; try tauto; try discriminate.
    repeat constructor. }
  destruct (documented_ok _ D') as [b' H']. exists b'. split; [exact H|]. split; [exact H'|].
  rewrite <- E3''. split; [intro Q; injection Q; lra|]. split.
  - rewrite (gfac_norms (one_mode (VArr 3 [[2; 0; 0]])) b [[2; 0; 0]]); [|reflexivity|reflexivity|exact H]. simpl map. now rewrite S2.
  - rewrite (gfac_norms (again (one_mode (VArr 3 [[2; 0; 0]])) b) b' [[1; 0; 0]]); [|reflexivity| |exact H'].
    + simpl map. f_equal. replace (norm2 [1; 0; 0]) with 1 by (unfold norm2; simpl; lra). apply sqrt_1.
    + unfold again. simpl. rewrite <- E3''. reflexivity.
Qed.
